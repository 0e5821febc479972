(** Exact cancellation of the bracket, of the gradient and of the right-hand
    side in binary64 on fields that do not depend on the row. *)
From Coq Require Import List Arith ZArith Reals Lra Lia Psatz SpecFloat Bool String.
From Verif Require Import Num NdArray NdFacts ModelGradients ModelArakawa ModelProperties ModelHW ModelBackend ModelSchemes Spec SpecHW
  GradFacts ArakawaFacts LapFacts HWFacts SpecRound RoundFacts RoundStencil RoundTop RoundHW RoundCons SpecCancel CancelFacts.
Import List ListNotations.
Local Open Scope R_scope.
Local Existing Instance NumF64.

Section Cells.
Variables (ny nx : nat) (dx : f64).
Hypothesis Hy : (0 < ny)%nat.
Hypothesis Hx : (0 < nx)%nat.
Hypothesis Fd : finite64 dx.
Hypothesis Sd : scale64 (fval dx).
Implicit Types f g : nat -> nat -> f64.

Lemma scale_W F : scale64 F -> F <= W.
Proof. Transparent W. intros [_ H]. exact H. Opaque W. Qed.

Lemma rows_V F f i j a b : scale64 F -> bounded64 ny nx F f -> rows_same ny nx f -> (i < ny)%nat -> (j < nx)%nat ->
  V (P ny nx f a b i j) (fval (f 0%nat (sh nx j b))) W.
Proof.
  intros SF B H Hi Hj. unfold P. assert (Si := sh_lt ny i a Hy). assert (Sj := sh_lt nx j b Hx).
  pose proof (B _ _ Si Sj) as [F1 L1]. split; [exact F1|]. split; [apply same_val; now apply H|].
  rewrite <- (same_val _ _ (H _ 0%nat _ Si Hy Sj)). pose proof (scale_W F SF). lra.
Qed.

Lemma ara_zero F G f g i j : scale64 F -> scale64 G -> bounded64 ny nx F f -> bounded64 ny nx G g ->
  rows_same ny nx f -> rows_same ny nx g -> (i < ny)%nat -> (j < nx)%nat -> is_zero (ara ny nx dx f g i j).
Proof.
  intros SF SG Bf Bg Rf Rg Hi Hj.
  pose proof (ara_round ny nx dx Hy Hx Fd Sd F G f g i j SF SG Bf Bg Hi Hj) as [Fi _]. unfold ara in *. cbn [ndiv NumF64] in *.
  apply div_zero; [|exact Fi].
  destruct (kernel_zero _ _ _ _ (fun a b => rows_V F f i j a b SF Bf Rf Hi Hj) (fun a b => rows_V G g i j a b SG Bg Rg Hi Hj)) as (K1 & K2 & _).
  now apply zero_val.
Qed.
Lemma ara_const F G f g i j : scale64 F -> scale64 G -> bounded64 ny nx F f -> bounded64 ny nx G g ->
  rows_same ny nx g -> columns_same ny nx g -> (i < ny)%nat -> (j < nx)%nat -> is_zero (ara ny nx dx f g i j).
Proof.
  intros SF SG Bf Bg Rg Cg Hi Hj.
  pose proof (ara_round ny nx dx Hy Hx Fd Sd F G f g i j SF SG Bf Bg Hi Hj) as [Fi _]. unfold ara in *. cbn [ndiv NumF64] in *.
  apply div_zero; [|exact Fi].
  destruct (kernel_const (fun a b => P ny nx f a b i j) (fun a b => P ny nx g a b i j) (fun a b => fval (P ny nx f a b i j)) (fval (g 0%nat 0%nat))) as (K1 & K2 & _).
  - intros a b. unfold P. assert (Si := sh_lt ny i a Hy). assert (Sj := sh_lt nx j b Hx).
    pose proof (Bf _ _ Si Sj) as [F1 L1]. split; [exact F1|]. split; [reflexivity|]. pose proof (scale_W F SF). lra.
  - intros a b. destruct (rows_V G g i j a b SG Bg Rg Hi Hj) as (A1 & A2 & A3).
    rewrite (same_val _ _ (Cg 0%nat _ 0%nat Hy (sh_lt nx j b Hx) Hx)) in A2, A3. repeat split; auto; apply A1.
  - now apply zero_val.
Qed.
Lemma cdy_zero F f i j : scale64 F -> bounded64 ny nx F f -> rows_same ny nx f -> (i < ny)%nat -> (j < nx)%nat ->
  is_zero (cdy ny dx f i j).
Proof.
  intros SF B H Hi Hj. pose proof (cdy_round ny nx dx Hy Fd Sd F f i j SF B Hi Hj) as [Fi _]. unfold cdy in *. cbn [ndiv nsub NumF64] in *.
  apply div_zero; [|exact Fi].
  assert (U : forall a, V (f (sh ny i a) j) (fval (f 0%nat j)) W).
  { intros a. assert (Si := sh_lt ny i a Hy). pose proof (B _ _ Si Hj) as [F1 L1]. split; [exact F1|]. split; [apply same_val; now apply H|].
    rewrite <- (same_val _ _ (H _ 0%nat _ Si Hy Hj)). pose proof (scale_W F SF). lra. }
  destruct (vsub _ _ _ _ _ _ 0 0 (U 1%Z) (U (-1)%Z)) as (K1 & K2 & _).
  - pose proof W_1. pose proof WW2. pose proof W2_big. lra.
  - rewrite Rminus_diag_eq by reflexivity. apply rd_0.
  - rewrite Rabs_R0. lra.
  - now apply zero_val.
Qed.

(** ** the right-hand side *)
Lemma lap_rows N f : rows_same ny nx f -> rows_same ny nx (lap_iter N ny nx dx f).
Proof.
  intros H. induction N as [|N IH]; [exact H|]. cbn [lap_iter]. intros i i' j Hi Hi' Hj. unfold lap5. cbn [ndiv nadd nsub nmul nofZ NumF64].
  assert (S1 := sh_lt ny i 1 Hy). assert (S2 := sh_lt ny i (-1) Hy). assert (S3 := sh_lt ny i' 1 Hy). assert (S4 := sh_lt ny i' (-1) Hy).
  assert (S5 := sh_lt nx j 1 Hx). assert (S6 := sh_lt nx j (-1) Hx).
  apply same_div, same_add; [apply same_add; [apply same_sub; [apply same_add|apply same_mul]|]|]; now apply IH.
Qed.
Lemma gcpl_rows z phi n : rows_same ny nx phi -> rows_same ny nx n -> rows_same ny nx (gcpl ny z phi n).
Proof.
  intros H1 H2 i i' j Hi Hi' Hj. unfold gcpl, gdev. cbn [nsub NumF64].
  destruct z; [|apply same_sub; [now apply H1|now apply H2]].
  apply same_sub; (apply same_sub; [|apply same_refl]); [now apply H1|now apply H2].
Qed.
Lemma gterm_zero q c t o i j : (truthy q = true -> finite64 c) -> is_zero (t i j) -> same64 (gterm q c t o i j) (o i j).
Proof.
  intros F Z. unfold gterm. destruct (truthy q); [|apply same_refl]. cbn [nadd nmul NumF64]. apply add_zero. now apply mul_zero; [apply F|].
Qed.
Lemma gterm_same q c t o t' o' i j i' j' : same64 (t i j) (t' i' j') -> same64 (o i j) (o' i' j') ->
  same64 (gterm q c t o i j) (gterm q c t' o' i' j').
Proof. intros A B. unfold gterm. destruct (truthy q); [|exact B]. cbn [nadd nmul NumF64]. apply same_add; [exact B|now apply same_mul]. Qed.

Variables (N : nat) (c1 nu : f64) (zon : bool) (phi n o : nat -> nat -> f64) (P0 B0 O0 : R).
Hypothesis SP : scale64 P0. Hypothesis SB : scale64 B0. Hypothesis SO : scale64 O0.
Hypothesis Bp : bounded64 ny nx P0 phi. Hypothesis Bn : bounded64 ny nx B0 n. Hypothesis Bo : bounded64 ny nx O0 o.
Hypothesis Rp : rows_same ny nx phi. Hypothesis Rn : rows_same ny nx n. Hypothesis Ro : rows_same ny nx o.

(** without bracket and gradient *)
Definition core f i j := gterm (nmul (sign_pow (Z.of_nat N + 1)) nu) (nmul (sign_pow (Z.of_nat N + 1)) nu) (lap_iter N ny nx dx f)
   (fun i j => nmul c1 (gcpl ny zon phi n i j)) i j.

Lemma g_n_core pb kap i j : finite64 pb -> finite64 kap -> (i < ny)%nat -> (j < nx)%nat ->
  same64 (g_n ny nx dx N c1 nu pb kap zon phi n i j) (core n i j).
Proof.
  intros F1 F2 Hi Hj. unfold g_n, core. apply gterm_same; [apply same_refl|].
  eapply same_trans; [apply gterm_zero; [intros _; now apply opp_exact|now apply (cdy_zero P0)]|].
  apply gterm_zero; [intros _; now apply opp_exact|now apply (ara_zero P0 B0)].
Qed.
Lemma g_o_core pb i j : finite64 pb -> (i < ny)%nat -> (j < nx)%nat ->
  same64 (g_o ny nx dx N c1 nu pb zon phi n o i j) (core o i j).
Proof.
  intros F1 Hi Hj. unfold g_o, core. apply gterm_same; [apply same_refl|].
  apply gterm_zero; [intros _; now apply opp_exact|now apply (ara_zero P0 O0)].
Qed.
Lemma core_rows f : rows_same ny nx f -> rows_same ny nx (core f).
Proof.
  intros H i i' j Hi Hi' Hj. unfold core. apply gterm_same; [now apply lap_rows|]. cbn [nmul NumF64]. apply same_mul. now apply gcpl_rows.
Qed.
End Cells.

Lemma c134_bracket ny nx (dx : f64) : (0 < ny)%nat -> (0 < nx)%nat -> finite64 dx -> scale64 (fval dx) ->
  forall F G f g, scale64 F -> scale64 G -> bounded64 ny nx F f -> bounded64 ny nx G g -> rows_same ny nx f -> rows_same ny nx g ->
  exists b, np_periodic_arakawa_vec (Ok (grid ny nx f)) (Ok (grid ny nx g)) dx = Ok (grid ny nx b) /\
    nb_periodic_arakawa_vec (Ok (grid ny nx f)) (Ok (grid ny nx g)) dx = Ok (grid ny nx b) /\
    nb_periodic_arakawa_stencil (Ok (grid ny nx f)) (Ok (grid ny nx g)) dx = Ok (grid ny nx b) /\
    forall i j, (i < ny)%nat -> (j < nx)%nat -> is_zero (b i j).
Proof.
  intros Hy Hx Fd Sd F G f g SF SG Bf Bg Rf Rg. exists (ara ny nx dx f g). split; [now apply np_periodic_arakawa_vec_grid|].
  split; [now apply np_periodic_arakawa_vec_grid|]. split; [now apply nb_periodic_arakawa_stencil_grid|]. intros. now apply (ara_zero ny nx dx Hy Hx Fd Sd F G).
Qed.
Lemma c134_constant ny nx (dx : f64) : (0 < ny)%nat -> (0 < nx)%nat -> finite64 dx -> scale64 (fval dx) ->
  forall F G f g, scale64 F -> scale64 G -> bounded64 ny nx F f -> bounded64 ny nx G g -> rows_same ny nx g -> columns_same ny nx g ->
  exists b, np_periodic_arakawa_vec (Ok (grid ny nx f)) (Ok (grid ny nx g)) dx = Ok (grid ny nx b) /\
    nb_periodic_arakawa_vec (Ok (grid ny nx f)) (Ok (grid ny nx g)) dx = Ok (grid ny nx b) /\
    nb_periodic_arakawa_stencil (Ok (grid ny nx f)) (Ok (grid ny nx g)) dx = Ok (grid ny nx b) /\
    forall i j, (i < ny)%nat -> (j < nx)%nat -> is_zero (b i j).
Proof.
  intros Hy Hx Fd Sd F G f g SF SG Bf Bg Rf Rg. exists (ara ny nx dx f g). split; [now apply np_periodic_arakawa_vec_grid|].
  split; [now apply np_periodic_arakawa_vec_grid|]. split; [now apply nb_periodic_arakawa_stencil_grid|]. intros. now apply (ara_const ny nx dx Hy Hx Fd Sd F G).
Qed.
Lemma c134_gradient ny nx (dx : f64) : (0 < ny)%nat -> (0 < nx)%nat -> finite64 dx -> scale64 (fval dx) ->
  forall F f, scale64 F -> bounded64 ny nx F f -> rows_same ny nx f ->
  exists g, np_periodic_gradient (Ok (grid ny nx f)) dx 0 = Ok (Some (grid ny nx g)) /\
    nb_periodic_gradient (Ok (grid ny nx f)) dx 0 = Ok (Some (grid ny nx g)) /\
    forall i j, (i < ny)%nat -> (j < nx)%nat -> is_zero (g i j).
Proof.
  intros Hy Hx Fd Sd F f SF Bf Rf. exists (cdy ny dx f).
  assert (E : np_periodic_gradient (Ok (grid ny nx f)) dx 0 = Ok (Some (grid ny nx (cdy ny dx f)))) by (rewrite np_grad_pos by (auto; lia); reflexivity).
  split; [exact E|]. split; [rewrite nb_np_grad by lia; exact E|]. intros. now apply (cdy_zero ny nx dx Hy Fd Sd F).
Qed.
Lemma c134_rhs ny nx (dx : f64) : (0 < ny)%nat -> (0 < nx)%nat -> finite64 dx -> scale64 (fval dx) ->
  forall solver b dx0 N c1 nu pb kap pb' kap' zon, b = np_schemes solver \/ b = nb_schemes solver ->
  finite64 pb -> finite64 kap -> finite64 pb' -> finite64 kap' ->
  forall phi n o P B O dt age, scale64 P -> scale64 B -> scale64 O ->
  bounded64 ny nx P phi -> bounded64 ny nx B n -> bounded64 ny nx O o ->
  rows_same ny nx phi -> rows_same ny nx n -> rows_same ny nx o ->
  let y := [("density", grid ny nx n); ("omega", grid ny nx o); ("age", scal age)]%string in
  exists lg d lg' d', gradient_2d (hw_init b dx0 (Z.of_nat N) c1 nu pb kap zon false) y (Some (grid ny nx phi)) dt dx = (lg, Ok d) /\
    gradient_2d (hw_init b dx0 (Z.of_nat N) c1 nu pb' kap' zon false) y (Some (grid ny nx phi)) dt dx = (lg', Ok d') /\
    exists dn do_ dn' do', ns_get d "density" = Ok (grid ny nx dn) /\ ns_get d "omega" = Ok (grid ny nx do_) /\
    ns_get d' "density" = Ok (grid ny nx dn') /\ ns_get d' "omega" = Ok (grid ny nx do') /\
    rows_same ny nx dn /\ rows_same ny nx do_ /\
    forall i j, (i < ny)%nat -> (j < nx)%nat -> same64 (dn i j) (dn' i j) /\ same64 (do_ i j) (do' i j).
Proof.
  intros Hy Hx Fd Sd solver b dx0 N c1 nu pb kap pb' kap' zon Hb F1 F2 F3 F4 phi n o P B O dt age SP SB SO Bp Bn Bo Rp Rn Ro y.
  destruct (hw_eval ny nx dx Hy Hx solver b dx0 N c1 nu pb kap zon Hb phi n o dt age) as (lg & d & E & E1 & E2).
  destruct (hw_eval ny nx dx Hy Hx solver b dx0 N c1 nu pb' kap' zon Hb phi n o dt age) as (lg' & d' & E' & E1' & E2').
  exists lg, d, lg', d'. split; [exact E|]. split; [exact E'|].
  eexists _, _, _, _. split; [exact E1|]. split; [exact E2|]. split; [exact E1'|]. split; [exact E2'|].
  assert (Cn : forall pb kap i j, finite64 pb -> finite64 kap -> (i < ny)%nat -> (j < nx)%nat ->
    same64 (g_n ny nx dx N c1 nu pb kap zon phi n i j) (core ny nx dx N c1 nu zon phi n n i j))
    by (intros; now apply (g_n_core ny nx dx Hy Hx Fd Sd N c1 nu zon phi n P B)).
  assert (Co : forall pb i j, finite64 pb -> (i < ny)%nat -> (j < nx)%nat ->
    same64 (g_o ny nx dx N c1 nu pb zon phi n o i j) (core ny nx dx N c1 nu zon phi n o i j))
    by (intros; now apply (g_o_core ny nx dx Hy Hx Fd Sd N c1 nu zon phi n o P O)).
  split; [|split].
  - intros i i' j Hi Hi' Hj. eapply same_trans; [now apply Cn|]. eapply same_trans; [|apply same_sym; now apply Cn]. now apply core_rows.
  - intros i i' j Hi Hi' Hj. eapply same_trans; [now apply Co|]. eapply same_trans; [|apply same_sym; now apply Co]. now apply core_rows.
  - intros i j Hi Hj. split; eapply same_trans; (now apply Cn) || (now apply Co) || apply same_sym; (now apply Cn) || now apply Co.
Qed.
