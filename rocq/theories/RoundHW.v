(** Rounding errors of the right-hand side in binary64. *)
From Coq Require Import List Arith ZArith Reals Lra Lia Psatz SpecFloat Bool String.
From Verif Require Import Num NdArray NdFacts ModelGradients ModelArakawa ModelProperties ModelHW ModelBackend ModelSchemes Spec SpecHW
  GradFacts ArakawaFacts LapFacts HWFacts SpecRound RoundFacts RoundStencil RoundTop.
Import List ListNotations.

(** ** evaluation on grids, any number type *)
Section Gen.
Context {A : Type} {Nm : Num A}.
Variables (ny nx : nat) (dx : A).
Hypothesis Hy : (0 < ny)%nat.
Hypothesis Hx : (0 < nx)%nat.
Implicit Types f g : nat -> nat -> A.

Definition gdev f i j : A := nsub (f i j) (ndiv (nsum ny (fun i => f i j)) (nofZ (Z.of_nat ny))).
Definition gcpl (z : bool) phi n i j : A :=
  if z then nsub (gdev phi i j) (gdev n i j) else nsub (phi i j) (n i j).
(** o += c * t when the parameter q is not zero *)
Definition gterm (q c : A) (t o : nat -> nat -> A) i j : A :=
  if truthy q then nadd (o i j) (nmul c (t i j)) else o i j.

Lemma zonal_gdev f : zonal_transform (Ok (grid ny nx f)) = Ok (grid ny nx (gdev f)).
Proof.
  unfold zonal_transform. change (grid ny nx f) with (stack [] ny nx (fun _ => f)).
  rewrite mean_y_keep_eq. unfold sub_. rewrite lift2_stack_y. reflexivity.
Qed.

Variables (solver : nd A -> A -> nd A) (b : backend A) (dx0 : A) (N : nat) (c1 nu pb kap : A) (zon : bool).
Hypothesis Hb : b = np_schemes solver \/ b = nb_schemes solver.
Local Notation h := (hw_init b dx0 (Z.of_nat N) c1 nu pb kap zon false).
Local Notation nu' := (nmul (sign_pow (Z.of_nat N + 1)) nu).

Lemma s_grd f : gradient_func b (Ok (grid ny nx f)) dx 0 = Ok (Some (grid ny nx (cdy ny dx f))).
Proof.
  destruct Hb as [-> | ->]; cbn [np_schemes nb_schemes gradient_func]; [|rewrite nb_np_grad by lia];
    rewrite np_grad_pos by (auto; lia); reflexivity.
Qed.
Lemma s_dif f : diffuse_N b (Ok (grid ny nx f)) dx (Z.of_nat N) = Ok (grid ny nx (lap_iter N ny nx dx f)).
Proof.
  destruct Hb as [-> | ->]; cbn [np_schemes nb_schemes diffuse_N];
    [rewrite np_periodic_laplace_N_grid by assumption|rewrite nb_periodic_laplace_N_grid by (assumption || lia)]; now rewrite Nat2Z.id.
Qed.
Lemma s_brk f g : poisson_bracket b (Ok (grid ny nx f)) (Ok (grid ny nx g)) dx = Ok (grid ny nx (ara ny nx dx f g)).
Proof.
  destruct Hb as [-> | ->]; cbn [np_schemes nb_schemes poisson_bracket];
    [now apply np_periodic_arakawa_vec_grid|now apply nb_periodic_arakawa_stencil_grid].
Qed.

Definition g_o phi n o : nat -> nat -> A :=
  gterm nu' nu' (lap_iter N ny nx dx o) (gterm pb (nopp pb) (ara ny nx dx phi o) (fun i j => nmul c1 (gcpl zon phi n i j))).
Definition g_n phi n : nat -> nat -> A :=
  gterm nu' nu' (lap_iter N ny nx dx n) (gterm kap (nopp kap) (cdy ny dx phi)
    (gterm pb (nopp pb) (ara ny nx dx phi n) (fun i j => nmul c1 (gcpl zon phi n i j)))).

Lemma hw_eval3 phi n o dt a : exists lg, hw2d_gradient h (grid ny nx n) (grid ny nx o) dt dx (Some (grid ny nx phi)) zon (Some (scal a)) =
  (lg, Ok [("density", grid ny nx (g_n phi n)); ("omega", grid ny nx (g_o phi n o)); ("age", scal (nadd a dt))]%string).
Proof.
  unfold hw2d_gradient. cbn [hw_init schemes hN hc1 hnu hpb hkappa hdx hzonal htest].
  rewrite mbind_ret, s_grd, mbind_lift, mbind_log.
  assert (C : @eq (res (arr A)) (if zon then sub_ (zonal_transform (Ok (grid ny nx phi))) (zonal_transform (Ok (grid ny nx n)))
               else sub_ (Ok (grid ny nx phi)) (Ok (grid ny nx n))) (Ok (grid ny nx (gcpl zon phi n)))).
  { unfold gcpl, sub_. destruct zon; [rewrite !zonal_gdev|]; now rewrite lift2_grid. }
  rewrite C, mbind_lift. unfold mul_. rewrite lift2_grid_scl, mbind_lift.
  set (o0 := fun i j => nmul c1 (gcpl zon phi n i j)).
  assert (PB : forall f, exists l, (if truthy pb then
     do* a := mlift (lift2 nmul (sc (nopp pb)) (poisson_bracket b (Ok (grid ny nx phi)) (Ok (grid ny nx f)) dx)) in
     do* _ := mlog "poisson_bracket" in mlift (iadd (Ok (grid ny nx o0)) (Ok a)) else mret (grid ny nx o0)) =
     (l, Ok (grid ny nx (gterm pb (nopp pb) (ara ny nx dx phi f) o0)))).
  { intros f. unfold gterm. rewrite s_brk. destruct (truthy pb); [|now exists []].
    rewrite lift2_grid_scl, mbind_lift, mbind_log, iadd_grid. eexists. reflexivity. }
  destruct (PB o) as [l1 E1]. destruct (PB n) as [l2 E2].
  assert (DF : forall f, hw_diffuse h (Ok (grid ny nx f)) dx (Z.of_nat N) = (["diffuse"%string], Ok (grid ny nx (lap_iter N ny nx dx f)))).
  { intros f. unfold hw_diffuse. cbn [hw_init schemes]. rewrite s_dif, mbind_lift, mbind_log. apply tell_ret. }
  rewrite E1, mbind_ok. rewrite !DF. 
  assert (NU : exists l, (if truthy nu' then
     do* d := (["diffuse"%string], Ok (grid ny nx (lap_iter N ny nx dx o))) in
     do* Do := mlift (lift2 nmul (sc nu') (Ok d)) in
     mlift (iadd (Ok (grid ny nx (gterm pb (nopp pb) (ara ny nx dx phi o) o0))) (Ok Do))
     else mret (grid ny nx (gterm pb (nopp pb) (ara ny nx dx phi o) o0))) = (l, Ok (grid ny nx (g_o phi n o)))).
  { unfold g_o. unfold gterm at 3. fold o0. destruct (truthy nu'); [|now exists []].
    rewrite mbind_ok, lift2_grid_scl, mbind_lift, iadd_grid. eexists. reflexivity. }
  destruct NU as [l3 E3]. rewrite E3, mbind_ok. fold o0. rewrite mbind_lift, E2, mbind_ok.
  set (n1 := gterm pb (nopp pb) (ara ny nx dx phi n) o0).
  assert (KA : exists l, (if truthy kap then
     do* k := mlift (lift2 nmul (sc (nopp kap)) (force (Ok (Some (grid ny nx (cdy ny dx phi)))))) in
     mlift (iadd (Ok (grid ny nx n1)) (Ok k)) else mret (grid ny nx n1)) =
     (l, Ok (grid ny nx (gterm kap (nopp kap) (cdy ny dx phi) n1)))).
  { unfold gterm. destruct (truthy kap); [|now exists []]. cbn [force bind].
    rewrite lift2_grid_scl, mbind_lift, iadd_grid. eexists. reflexivity. }
  destruct KA as [l4 E4]. rewrite E4, mbind_ok.
  assert (NN : exists l D, (if truthy nu' then
     do* d := (["diffuse"%string], Ok (grid ny nx (lap_iter N ny nx dx n))) in
     do* Dn := mlift (lift2 nmul (sc nu') (Ok d)) in
     do* n0 := mlift (iadd (Ok (grid ny nx (gterm kap (nopp kap) (cdy ny dx phi) n1))) (Ok Dn)) in mret (n0, Dn)
     else mret (grid ny nx (gterm kap (nopp kap) (cdy ny dx phi) n1), scal (nofZ 0))) = (l, Ok (grid ny nx (g_n phi n), D))).
  { unfold g_n. unfold gterm at 3. fold o0. fold n1. destruct (truthy nu').
    - rewrite mbind_ok, lift2_grid_scl, mbind_lift, iadd_grid, mbind_lift. eexists _, _. reflexivity.
    - eexists _, _. reflexivity. }
  destruct NN as (l5 & D & E5). rewrite E5, mbind_ok. cbn [fst snd].
  unfold add_. rewrite sc_scal, lift2_scal. cbn [bind]. rewrite mbind_lift, !tell_tell, tell_ret.
  eexists. reflexivity.
Qed.
Lemma hw_eval phi n o dt a : exists lg d, hw2d_gradient h (grid ny nx n) (grid ny nx o) dt dx (Some (grid ny nx phi)) zon (Some (scal a)) = (lg, Ok d) /\
  ns_get d "density" = Ok (grid ny nx (g_n phi n)) /\ ns_get d "omega" = Ok (grid ny nx (g_o phi n o)).
Proof. destruct (hw_eval3 phi n o dt a) as [lg E]. exists lg. eexists. split; [exact E|]. split; reflexivity. Qed.
End Gen.

(** ** binary64 *)
Local Open Scope R_scope.
Local Existing Instance NumF64.
Local Notation "x ⊕ y" := (SFadd 53 1024 x y) (at level 50, left associativity).
Local Notation "x ⊖ y" := (SFsub 53 1024 x y) (at level 50, left associativity).
Local Notation "x ⊗ y" := (SFmul 53 1024 x y) (at level 40, left associativity).
Local Notation "x ⊘ y" := (SFdiv 53 1024 x y) (at level 40, left associativity).

Lemma ofZ_near' z : (Z.abs z <= 2 ^ 53)%Z -> near (f64_ofZ z) (IZR z) 0.
Proof.
  intros H. destruct (ofZ_exact z H) as [F E]. split; [exact F|]. unfold f64_ofZ. rewrite E.
  rewrite Rminus_diag_eq by reflexivity. rewrite Rabs_R0. lra.
Qed.
Lemma uro_small : uro <= / 1000000000000.
Proof. rewrite uro_num. lra. Qed.

Lemma term_near c x r T a S : finite64 c -> near x r (a * uro * T) -> Rabs r <= T -> 0 <= T -> 0 <= a -> a * uro <= / 1000 ->
  Rabs (fval c) * T <= S -> 0 <= S -> 1000000 * S <= big ->
  near (c ⊗ x) (fval c * r) ((a + 1.1) * uro * (Rabs (fval c) * T) + eta).
Proof.
  intros Fc Nx Hr HT Ha Hau HS PS HB. pose proof uro_pos as U. pose proof uro_small as Us. pose proof (Rabs_pos (fval c)) as Pc.
  assert (Pm : 0 <= Rabs (fval c) * T) by (apply Rmult_le_pos; assumption).
  assert (K : a * uro * (Rabs (fval c) * T) <= / 1000 * (Rabs (fval c) * T)) by (apply Rmult_le_compat_r; assumption).
  assert (U1 : uro * (a * uro * (Rabs (fval c) * T)) <= uro * (/ 1000 * (Rabs (fval c) * T))) by (apply Rmult_le_compat_l; lra).
  assert (U2 : 0 <= uro * (Rabs (fval c) * T)) by (apply Rmult_le_pos; lra).
  eapply near_mono; [apply (near_mul c x (fval c) r 0 (a * uro * T) (Rabs (fval c)) T (near_self c Fc) Nx (Rle_refl _) Hr)|].
  - lra.
  - lra.
Qed.
Lemma sum_near x y r s m m2 k e e2 S : near x r (k * uro * m + e) -> near y s (k * uro * m2 + e2) -> Rabs r <= m -> Rabs s <= m2 ->
  0 <= k -> k * uro <= / 1000 -> 0 <= e -> 0 <= e2 -> e <= S -> e2 <= S -> m <= S -> m2 <= S -> 1000000 * S <= big ->
  near (x ⊕ y) (r + s) ((k + 1.01) * uro * (m + m2) + 1.01 * (e + e2)).
Proof.
  intros Nx Ny Hr Hs Hk Hku He He2 LeS Le2 Lm Lm2 HB. pose proof uro_pos as U. pose proof uro_small as Us.
  pose proof (Rabs_pos r). pose proof (Rabs_pos s).
  assert (K : k * uro * (m + m2) <= / 1000 * (m + m2)) by (apply Rmult_le_compat_r; lra).
  assert (U1 : uro * (k * uro * (m + m2)) <= uro * (/ 1000 * (m + m2))) by (apply Rmult_le_compat_l; lra).
  assert (U3 : uro * (e + e2) <= / 1000000000000 * (e + e2)) by (apply Rmult_le_compat_r; lra).
  assert (U2 : 0 <= uro * (m + m2)) by (apply Rmult_le_pos; lra).
  eapply near_mono; [apply (near_add x y r s _ _ (m + m2) Nx Ny)|].
  - apply Rle_trans with (1 := Rabs_triang _ _). lra.
  - lra.
  - lra.
Qed.
Lemma truthy_val q : finite64 q -> truthy q = false -> fval q = 0.
Proof.
  intros F E. unfold truthy in E. apply negb_false_iff in E. cbn [neqb nzero NumF64] in E. now apply eq0_val.
Qed.
(** one optional summand *)
Lemma gterm_near q c (t o : nat -> nat -> f64) i j r s m T a k e S :
  finite64 q -> finite64 c -> (fval q = 0 -> fval c = 0) ->
  near (o i j) r (k * uro * m + e) -> Rabs r <= m ->
  near (t i j) s (a * uro * T) -> Rabs s <= T -> 0 <= T -> 0 <= a -> a + 1.1 <= k -> k * uro <= / 1000 -> 0 <= e -> e <= S -> eta <= S ->
  m <= S -> Rabs (fval c) * T <= S -> 1000000 * S <= big ->
  near (gterm q c t o i j) (r + fval c * s) ((k + 1.01) * uro * (m + Rabs (fval c) * T) + 1.01 * (e + eta)) /\
  Rabs (r + fval c * s) <= m + Rabs (fval c) * T.
Proof.
  intros Fq Fc Z No Hr Nt Hs HT Ha Hak Hk He LeS Let Lm LT HB.
  pose proof uro_pos as U. pose proof eta_pos as Et. pose proof (Rabs_pos r) as Pr. pose proof (Rabs_pos (fval c)) as Pc.
  assert (Hm : Rabs (fval c * s) <= Rabs (fval c) * T) by (rewrite Rabs_mult; apply Rmult_le_compat_l; assumption).
  assert (Pm : 0 <= Rabs (fval c) * T) by (apply Rmult_le_pos; assumption).
  assert (Hau : a * uro <= / 1000) by (apply Rle_trans with (2 := Hk); apply Rmult_le_compat_r; lra).
  split.
  - unfold gterm. destruct (truthy q) eqn:E.
    + cbn [nadd nmul NumF64].
      assert (Nt' : near (c ⊗ t i j) (fval c * s) (k * uro * (Rabs (fval c) * T) + eta)).
      { eapply near_mono; [apply (term_near c (t i j) s T a S); auto; lra|].
        assert ((a + 1.1) * (uro * (Rabs (fval c) * T)) <= k * (uro * (Rabs (fval c) * T))) by (apply Rmult_le_compat_r; [apply Rmult_le_pos; lra|lra]). lra. }
      apply (sum_near _ _ _ _ _ _ k e eta S); auto; lra.
    + rewrite (Z (truthy_val q Fq E)). rewrite Rmult_0_l, Rplus_0_r, Rabs_R0, Rmult_0_l, Rplus_0_r.
      eapply near_mono; [exact No|]. assert (0 <= uro * m) by (apply Rmult_le_pos; lra). lra.
  - apply Rle_trans with (1 := Rabs_triang _ _). lra.
Qed.

(** zonal mean *)
Section Zon.
Variables (ny : nat) (F : R).
Hypothesis Hy : (0 < ny)%nat.
Hypothesis Hn : INR ny <= 1000000.
Hypothesis HF : 0 < F.
Hypothesis HE : eta <= uro * F / 1000000.
Hypothesis HB : 1000000000 * F <= big.

Lemma sum_seq (v : nat -> f64) k : (forall i, (i < k)%nat -> finite64 (v i) /\ Rabs (fval (v i)) <= F) -> INR k <= 1000000 ->
  near (nsum k v) (rsum k (fun i => fval (v i))) (uro * (INR k * INR k) * F) /\ Rabs (rsum k (fun i => fval (v i))) <= INR k * F.
Proof.
  induction k as [|k IH]; intros H L.
  - cbn [nsum rsum INR]. rewrite Rabs_R0. split; [|lra]. eapply near_mono; [apply (ofZ_near' 0); lia|]. lra.
  - rewrite S_INR in *. pose proof (pos_INR k) as Pk. destruct IH as [N M]; [intros; apply H; lia|lra|].
    destruct (H k (Nat.lt_succ_diag_r k)) as [Fk Bk]. cbn [nsum rsum nadd NumF64].
    assert (T : Rabs (rsum k (fun i => fval (v i)) + fval (v k)) <= (INR k + 1) * F) by (apply Rle_trans with (1 := Rabs_triang _ _); lra).
    split; [|exact T].
    pose proof uro_pos as U.
    assert (KF : INR k * F <= 1000000 * F) by (apply Rmult_le_compat_r; lra).
    assert (K0 : 0 <= INR k * F) by (apply Rmult_le_pos; lra).
    assert (K1 : uro * (INR k * INR k) * F <= uro * (1000000 * (INR k * F))).
    { rewrite Rmult_assoc. apply Rmult_le_compat_l; [lra|]. rewrite Rmult_assoc. apply Rmult_le_compat_r; lra. }
    assert (K2 : uro * (1000000 * (INR k * F)) <= / 1000 * (INR k * F)) by (rewrite uro_num; lra).
    eapply near_mono; [apply (near_add _ _ _ _ _ _ _ N (near_self _ Fk) T)|].
    + lra.
    + assert (K3 : uro * (uro * (INR k * INR k) * F) <= uro * (/ 1000 * (INR k * F))) by (apply Rmult_le_compat_l; lra).
      assert (0 <= uro * (INR k * F)) by (apply Rmult_le_pos; lra). assert (0 <= uro * F) by (apply Rmult_le_pos; lra). lra.
Qed.
Lemma gdev_near (f : nat -> nat -> f64) nx i j : bounded64 ny nx F f -> (i < ny)%nat -> (j < nx)%nat ->
  near (gdev ny f i j) (ydev ny (values f) i j) ((INR ny + 3.1) * uro * F) /\ Rabs (ydev ny (values f) i j) <= 2 * F.
Proof.
  intros B Hi Hj. pose proof uro_pos as U. pose proof eta_pos as Et.
  destruct (sum_seq (fun i => f i j) ny (fun i Hi => B i j Hi Hj) Hn) as [N M].
  assert (P : 1 <= INR ny) by (apply (le_INR 1); lia).
  assert (Nz : near (f64_ofZ (Z.of_nat ny)) (INR ny) (0 * INR ny)).
  { rewrite Rmult_0_l, INR_IZR_INZ. apply ofZ_near'. rewrite Z.abs_eq by lia. apply le_IZR. rewrite <- INR_IZR_INZ.
    apply Rle_trans with (1 := Hn). change (2 ^ 53)%Z with 9007199254740992%Z. lra. }
  replace (uro * (INR ny * INR ny) * F) with (uro * INR ny * (F * INR ny)) in N by ring.
  replace (INR ny * F) with (1 * (F * INR ny)) in M by ring.
  assert (U0 : 0 <= uro * INR ny * F) by (apply Rmult_le_pos; [apply Rmult_le_pos|]; lra).
  assert (U1 : uro * INR ny * F <= / 1000000000 * F) by (apply Rmult_le_compat_r; [lra|]; rewrite uro_num; lra).
  assert (U2 : uro * (uro * INR ny * F) <= uro * (/ 1000000000 * F)) by (apply Rmult_le_compat_l; lra).
  assert (U3 : 0 < uro * F) by (apply Rmult_lt_0_compat; lra).
  assert (Nm : near (nsum ny (fun i => f i j) ⊘ f64_ofZ (Z.of_nat ny)) (yavg ny (values f) j) ((INR ny + 1.01) * uro * F)).
  { unfold yavg. eapply near_mono; [apply (near_quot _ _ _ _ _ _ 1 _ N Nz)|]; try lra. }
  assert (Mm : Rabs (yavg ny (values f) j) <= F).
  { unfold yavg, Rdiv. rewrite Rabs_mult, (Rabs_right (/ _)) by (apply Rle_ge, Rlt_le, Rinv_0_lt_compat; lra).
    apply Rmult_le_reg_r with (INR ny); [lra|]. rewrite Rmult_assoc, Rinv_l, Rmult_1_r by lra. unfold values. lra. }
  destruct (B i j Hi Hj) as [Ff Bf]. unfold gdev, ydev. cbn [nsub ndiv nofZ NumF64].
  assert (T : Rabs (values f i j - yavg ny (values f) j) <= 2 * F).
  { unfold values at 1. apply abs_inv in Bf, Mm. apply Rabs_le. lra. }
  split; [|exact T].
  eapply near_mono; [apply (near_sub _ _ _ _ _ _ _ (near_self _ Ff) Nm T)|].
  - assert (uro * F <= / 1000000000000 * F) by (apply Rmult_le_compat_r; [lra|apply uro_small]). lra.
  - assert (uro * (uro * F) <= uro * (/ 1000000000000 * F)) by (apply Rmult_le_compat_l; [lra|]; apply Rmult_le_compat_r; [lra|apply uro_small]). lra.
Qed.
End Zon.

Section Main.
Variables (ny nx : nat) (dx : f64).
Hypothesis Hy : (0 < ny)%nat.
Hypothesis Hx : (0 < nx)%nat.
Hypothesis Fd : finite64 dx.
Hypothesis Sd : scale64 (fval dx).
Local Notation h := (fval dx).
Variables (N : nat) (c1 nu pb kap : f64) (zon : bool).
Hypothesis F1 : finite64 c1.
Hypothesis F2 : finite64 nu.
Hypothesis F3 : finite64 pb.
Hypothesis F4 : finite64 kap.
Hypothesis HN : INR N <= 1000000.
Hypothesis Hny : zon = true -> INR ny <= 1000000.
Local Notation p := (mkPar N (fval c1) (fval nu) (fval pb) (fval kap) zon).
Local Notation nu' := (nmul (sign_pow (Z.of_nat N + 1)) nu).
Variables (phi n o : nat -> nat -> f64) (P B O : R).
Hypothesis SP : scale64 P.
Hypothesis SB : scale64 B.
Hypothesis SO : scale64 O.
Hypothesis Bp : bounded64 ny nx P phi.
Hypothesis Bn : bounded64 ny nx B n.
Hypothesis Bo : bounded64 ny nx O o.
Local Notation g := (8.01 / h ^ 2).

Lemma nu_val : finite64 nu' /\ fval nu' = (-1) ^ (N + 1) * fval nu.
Proof.
  cbn [nmul NumF64]. unfold sign_pow. rewrite <- sign_pow_nat. unfold sign_pow. cbn [nofZ NumF64 NumR].
  pose proof (mul_sign (Z.even (Z.of_nat N + 1)) nu F2) as H. cbv zeta in H. unfold f64_ofZ.
  destruct (Z.even (Z.of_nat N + 1)); exact H.
Qed.
Lemma nu_abs : Rabs (fval nu') = Rabs (fval nu).
Proof.
  rewrite (proj2 nu_val), Rabs_mult, <- RPow_abs. replace (Rabs (-1)) with 1 by (rewrite Rabs_left; lra). rewrite pow1. ring.
Qed.
Lemma hp : 0 < h. Proof. apply (mag_pos 1), scale_mag, Sd. Qed.
Lemma ih2 : 0 < / h ^ 2. Proof. apply Rinv_0_lt_compat, pow_lt, hp. Qed.
Lemma gpos : 0 <= g.
Proof. apply Rlt_le, Rdiv_lt_0_compat; [lra|apply pow_lt, hp]. Qed.
Lemma jac_bound (f q : nat -> nat -> f64) F G i j : scale64 F -> scale64 G -> bounded64 ny nx F f -> bounded64 ny nx G q ->
  Rabs (jacobian ny nx h (values f) (values q) i j) <= 2 * (F * G) / h ^ 2.
Proof.
  intros SF SG Bf Bq. pose proof hp as Ph. rewrite jacobian_ara by lra. unfold ara, twelve_dx2. cbn [ndiv nmul nofZ npow NumR].
  assert (P2 : 0 < h ^ 2) by (apply pow_lt, Ph).
  assert (K : Rabs (nb_kernel (N := NumR) (fun a b => values f (sh ny i a) (sh nx j b)) (fun a b => values q (sh ny i a) (sh nx j b))) <= 24 * (F * G)).
  { apply (kernel_near F G (scale_mag _ SF) (scale_mag _ SG) (fun a b => f (sh ny i a) (sh nx j b)) (fun a b => q (sh ny i a) (sh nx j b)));
      intros a b; [apply Bf|apply Bq]; now apply sh_lt. }
  unfold ArakawaFacts.P. unfold Rdiv. rewrite Rabs_mult, (Rabs_right (/ _)) by (apply Rle_ge, Rlt_le, Rinv_0_lt_compat; lra).
  replace (2 * (F * G) * / h ^ 2) with (24 * (F * G) * / (12 * h ^ 2)) by (field; lra).
  apply Rmult_le_compat_r; [apply Rlt_le, Rinv_0_lt_compat; lra|exact K].
Qed.
Lemma cdy_bound i j : (i < ny)%nat -> (j < nx)%nat -> Rabs (cdy ny h (values phi) i j) <= P / h.
Proof.
  intros Hi Hj. pose proof (cd_diff ny nx dx Hy Hx Sd (values phi) (fun _ _ => 0) P i j) as D.
  destruct D as [D _]; auto.
  - intros a b Ha Hb. rewrite Rminus_0_r. now apply Bp.
  - replace (cdy ny h (fun _ _ => 0) i j) with 0 in D; [now rewrite Rminus_0_r in D|].
    unfold cdy. cbn [nsub nmul ndiv nofZ NumR]. unfold Rdiv. ring.
Qed.
Lemma lap_bound (f : nat -> nat -> f64) F m : 0 <= F -> bounded64 ny nx F f -> forall i j, (i < ny)%nat -> (j < nx)%nat ->
  Rabs (lap_iter m ny nx h (values f) i j) <= g ^ m * F.
Proof.
  intros HF Bf. pose proof ih2 as I. induction m as [|m IH]; intros i j Hi Hj.
  - cbn [lap_iter pow]. rewrite Rmult_1_l. now apply Bf.
  - cbn [lap_iter]. change (g ^ S m) with (g * g ^ m). apply Rle_trans with (8 / h ^ 2 * (g ^ m * F)).
    + apply (lap5_bound ny nx dx Hy Hx Sd); auto.
    + assert (0 <= g ^ m * F) by (apply Rmult_le_pos; [apply pow_le; unfold Rdiv; apply Rmult_le_pos; lra|assumption]).
      rewrite Rmult_assoc. apply Rmult_le_compat_r; [assumption|]. unfold Rdiv. apply Rmult_le_compat_r; [lra|lra].
Qed.

Definition k0 : R := 6 * INR N + 12.2 + (if zon then INR ny else 0).
Lemma k0_ok : 12.2 <= k0 /\ 6 * INR N + 1.1 <= k0 /\ k0 <= 8000000.
Proof.
  unfold k0. pose proof (pos_INR N). pose proof (pos_INR ny). destruct zon; [specialize (Hny eq_refl)|]; repeat split; lra.
Qed.
Definition a0 : R := if zon then (INR ny + 5.2) / 2 else 1.
Lemma cpl_near i j : (i < ny)%nat -> (j < nx)%nat ->
  near (gcpl ny zon phi n i j) (coupling p ny (values phi) (values n) i j) (a0 * uro * ((if zon then 2 else 1) * (P + B))) /\
  Rabs (coupling p ny (values phi) (values n) i j) <= (if zon then 2 else 1) * (P + B).
Proof.
  intros Hi Hj. unfold gcpl, coupling, a0. cbn [pzon nsub NumF64].
  pose proof (mag_pos _ _ (scale_mag _ SP)) as PP. pose proof (mag_pos _ _ (scale_mag _ SB)) as PB.
  pose proof (mag_huge3 1 _ ltac:(lia) (scale_mag _ SP)) as HP. pose proof (mag_huge3 1 _ ltac:(lia) (scale_mag _ SB)) as HB.
  pose proof uro_pos as U. pose proof uro_small as Us.
  assert (U1 : uro * (P + B) <= / 1000000000000 * (P + B)) by (apply Rmult_le_compat_r; lra).
  assert (U0 : 0 < uro * (P + B)) by (apply Rmult_lt_0_compat; lra).
  destruct zon.
  - specialize (Hny eq_refl). pose proof (pos_INR ny) as Pn.
    destruct (gdev_near ny P Hy Hny PP (mag_tiny 1 _ ltac:(lia) (scale_mag _ SP)) ltac:(lra) phi nx i j Bp Hi Hj) as [N1 M1].
    destruct (gdev_near ny B Hy Hny PB (mag_tiny 1 _ ltac:(lia) (scale_mag _ SB)) ltac:(lra) n nx i j Bn Hi Hj) as [N2 M2].
    assert (T : Rabs (ydev ny (values phi) i j - ydev ny (values n) i j) <= 2 * (P + B)) by (apply abs_inv in M1, M2; apply Rabs_le; lra).
    split; [|exact T].
    assert (K : (INR ny + 3.1) * (uro * (P + B)) <= 1000004 * (uro * (P + B))) by (apply Rmult_le_compat_r; lra).
    assert (K0 : 0 <= INR ny * (uro * (P + B))) by (apply Rmult_le_pos; lra).
    eapply near_mono; [apply (near_sub _ _ _ _ _ _ _ N1 N2 T)|].
    + lra.
    + assert (uro * ((INR ny + 3.1) * (uro * (P + B))) <= uro * (1000004 * (uro * (P + B)))) by (apply Rmult_le_compat_l; lra).
      assert (uro * (uro * (P + B)) <= / 1000000000000 * (uro * (P + B))) by (apply Rmult_le_compat_r; lra). lra.
  - pose proof (Bp i j Hi Hj) as [E1 E2]. pose proof (Bn i j Hi Hj) as [E3 E4].
    assert (T : Rabs (values phi i j - values n i j) <= 1 * (P + B)) by (unfold values; apply abs_inv in E2, E4; apply Rabs_le; lra).
    split; [|exact T].
    eapply near_mono; [apply (near_sub _ _ _ _ _ _ _ (near_self _ E1) (near_self _ E3) T)|]; lra.
Qed.
Lemma a0_ok : 0 <= a0 /\ a0 + 1.1 <= k0.
Proof.
  unfold a0, k0. pose proof (pos_INR N). pose proof (pos_INR ny). destruct zon; split; lra.
Qed.

Variables (S : R).
Hypothesis SS : scale64 S.
Lemma S_ok : 0 < S /\ 1000000 * S <= big /\ eta <= uro * S / 1000000 /\ eta <= S.
Proof.
  pose proof (scale_mag _ SS) as M. pose proof (mag_pos _ _ M) as PS. pose proof (mag_tiny 1 _ ltac:(lia) M) as T.
  split; [exact PS|]. split; [exact (mag_huge 1 _ ltac:(lia) M)|]. split; [exact T|]. rewrite uro_num in T. lra.
Qed.
Lemma start_near i j : (i < ny)%nat -> (j < nx)%nat -> size_c p P B <= S ->
  near (c1 ⊗ gcpl ny zon phi n i j) (fval c1 * coupling p ny (values phi) (values n) i j) (k0 * uro * size_c p P B + eta) /\
  Rabs (fval c1 * coupling p ny (values phi) (values n) i j) <= size_c p P B.
Proof.
  intros Hi Hj L. destruct (cpl_near i j Hi Hj) as [Nc Mc]. destruct S_ok as (PS & HB & _). destruct a0_ok as [A1 A2]. destruct k0_ok as (_ & _ & K).
  pose proof uro_pos as U. pose proof (mag_pos _ _ (scale_mag _ SP)) as PP. pose proof (mag_pos _ _ (scale_mag _ SB)) as PB.
  unfold size_c in *. cbn [pc1 pzon] in *.
  assert (PT : 0 <= (if zon then 2 else 1) * (P + B)) by (destruct zon; lra).
  set (T := (if zon then 2 else 1) * (P + B)) in *. clearbody T.
  assert (0 <= uro * (Rabs (fval c1) * T)) by (apply Rmult_le_pos; [lra|apply Rmult_le_pos; [apply Rabs_pos|assumption]]).
  split.
  - eapply near_mono; [apply (term_near c1 _ _ T a0 S F1 Nc Mc PT A1)|]; try assumption; try lra.
    + rewrite uro_num. lra.
    + assert ((a0 + 1.1) * (uro * (Rabs (fval c1) * T)) <= k0 * (uro * (Rabs (fval c1) * T))) by (apply Rmult_le_compat_r; assumption). lra.
  - rewrite Rabs_mult. apply Rmult_le_compat_l; [apply Rabs_pos|exact Mc].
Qed.
Lemma brk_near (f : nat -> nat -> f64) F i j : scale64 F -> bounded64 ny nx F f -> (i < ny)%nat -> (j < nx)%nat ->
  near (ara ny nx dx phi f i j) (jacobian ny nx h (values phi) (values f) i j) (11 * uro * (2 * (P * F) / h ^ 2)).
Proof.
  intros SF Bf Hi Hj. eapply near_mono; [apply (ara_round ny nx dx Hy Hx Fd Sd P F); assumption|]. pose proof hp. apply Req_le. field. lra.
Qed.
Lemma opp_abs x : finite64 x -> finite64 (SFopp x) /\ Rabs (fval (SFopp x)) = Rabs (fval x) /\ (fval x = 0 -> fval (SFopp x) = 0) /\ fval (SFopp x) = - fval x.
Proof.
  intros H. destruct (opp_exact x H) as [A E]. split; [exact A|]. split; [rewrite E; apply Rabs_Ropp|]. split; [|exact E]. intros Z. rewrite E, Z. ring.
Qed.

Ltac posn := repeat first [exact gpos | apply Rplus_le_le_0_compat | apply Rmult_le_pos | apply Rabs_pos | apply pow_le | lra].

Lemma g_o_near i j : (i < ny)%nat -> (j < nx)%nat -> size_o p h P B O <= S -> (forall k, (k < N)%nat -> scale64 (g ^ k * O)) ->
  near (g_o ny nx dx N c1 nu pb zon phi n o i j) (rhs_o p ny nx h (values phi) (values n) (values o) i j) (roundings p ny * uro * S).
Proof.
  intros Hi Hj L Sc. destruct S_ok as (PS & HB & HE & HE'). destruct k0_ok as (K1 & K2 & K3).
  pose proof uro_pos as U. pose proof eta_pos as Et. pose proof hp as Ph. pose proof ih2 as I2. pose proof (pos_INR N) as PN.
  pose proof (mag_pos _ _ (scale_mag _ SP)) as PP. pose proof (mag_pos _ _ (scale_mag _ SB)) as PB. pose proof (mag_pos _ _ (scale_mag _ SO)) as PO.
  assert (Zc : 0 <= size_c p P B) by (unfold size_c; cbn [pc1 pzon]; destruct zon; posn).
  assert (T1 : 0 <= 2 * (P * O) / h ^ 2) by (unfold Rdiv; posn).
  assert (T3 : 0 <= g ^ N * O) by posn.
  unfold size_o in L. cbn [pN pnu ppb pc1 pkap] in L.
  pose proof (Rabs_pos (fval pb)). pose proof (Rabs_pos (fval nu)).
  assert (Q1 : 0 <= Rabs (fval pb) * (2 * (P * O) / h ^ 2)) by posn. assert (Q3 : 0 <= Rabs (fval nu) * (g ^ N * O)) by posn.
  destruct (start_near i j Hi Hj) as [N0 M0]; [lra|].
  destruct (opp_abs pb F3) as (Fb & Ab & Zb & Vb). destruct nu_val as [Fn Vn].
  destruct (gterm_near pb (SFopp pb) (ara ny nx dx phi o) (fun i j => c1 ⊗ gcpl ny zon phi n i j) i j _ _ _ (2 * (P * O) / h ^ 2) 11 k0 eta S F3 Fb Zb N0 M0
    (brk_near o O i j SO Bo Hi Hj) (jac_bound phi o P O i j SP SO Bp Bo)) as [N1 M1]; try assumption; try lra.
  { rewrite uro_num. lra. }
  { rewrite Ab. lra. }
  rewrite Ab in N1, M1.
  destruct (lap_iter_round ny nx dx Hy Hx Fd Sd O o N Sc Bo) as [_ NL].
  destruct (gterm_near nu' nu' (lap_iter N ny nx dx o) (gterm pb (SFopp pb) (ara ny nx dx phi o) (fun i j => c1 ⊗ gcpl ny zon phi n i j)) i j _ (lap_iter N ny nx h (values o) i j) _ (g ^ N * O) (6 * INR N) (k0 + 1.01) (1.01 * (eta + eta)) S Fn Fn (fun x => x) N1 M1)
    as [N2 M2]; try assumption; try lra.
  { eapply near_mono; [apply (NL i j Hi Hj)|]. apply Req_le. ring. }
  { apply lap_bound; auto; lra. }
  { rewrite uro_num. lra. }
  { rewrite uro_num in HE. lra. }
  { rewrite nu_abs. lra. }
  rewrite nu_abs in N2, M2. unfold g_o. cbn [nopp NumF64].
  eapply near_mono; [eapply near_eq; [exact N2|]|].
  - unfold rhs_o, hyper. cbn [pN pnu ppb pc1 pkap]. rewrite Vb, Vn. ring.
  - unfold roundings. cbn [pN pzon]. fold k0.
    set (m := size_c p P B + Rabs (fval pb) * (2 * (P * O) / h ^ 2) + Rabs (fval nu) * (g ^ N * O)) in *.
    assert (Km : (k0 + 1.01 + 1.01) * (uro * m) <= (k0 + 1.01 + 1.01) * (uro * S)) by (apply Rmult_le_compat_l; [lra|apply Rmult_le_compat_l; lra]).
    assert (Kr : k0 * (uro * S) = (6 * INR N + 12.2 + (if zon then INR ny else 0)) * (uro * S)) by reflexivity.
    assert (0 < uro * S) by (apply Rmult_lt_0_compat; lra). lra.
Qed.
Lemma g_n_near i j : (i < ny)%nat -> (j < nx)%nat -> size_n p h P B <= S -> (forall k, (k < N)%nat -> scale64 (g ^ k * B)) ->
  near (g_n ny nx dx N c1 nu pb kap zon phi n i j) (rhs_n p ny nx h (values phi) (values n) i j) (roundings p ny * uro * S).
Proof.
  intros Hi Hj L Sc. destruct S_ok as (PS & HB & HE & HE'). destruct k0_ok as (K1 & K2 & K3).
  pose proof uro_pos as U. pose proof eta_pos as Et. pose proof hp as Ph. pose proof ih2 as I2. pose proof (pos_INR N) as PN.
  pose proof (mag_pos _ _ (scale_mag _ SP)) as PP. pose proof (mag_pos _ _ (scale_mag _ SB)) as PB.
  assert (Zc : 0 <= size_c p P B) by (unfold size_c; cbn [pc1 pzon]; destruct zon; posn).
  assert (T1 : 0 <= 2 * (P * B) / h ^ 2) by (unfold Rdiv; posn).
  assert (T2 : 0 <= P / h) by (apply Rlt_le, Rdiv_lt_0_compat; assumption).
  assert (T3 : 0 <= g ^ N * B) by posn.
  unfold size_n in L. cbn [pN pnu ppb pc1 pkap] in L.
  pose proof (Rabs_pos (fval pb)). pose proof (Rabs_pos (fval nu)). pose proof (Rabs_pos (fval kap)).
  assert (Q1 : 0 <= Rabs (fval pb) * (2 * (P * B) / h ^ 2)) by posn. assert (Q3 : 0 <= Rabs (fval nu) * (g ^ N * B)) by posn.
  assert (Q2 : 0 <= Rabs (fval kap) * (P / h)) by (apply Rmult_le_pos; assumption).
  destruct (start_near i j Hi Hj) as [N0 M0]; [lra|].
  destruct (opp_abs pb F3) as (Fb & Ab & Zb & Vb). destruct (opp_abs kap F4) as (Fk & Ak & Zk & Vk). destruct nu_val as [Fn Vn].
  destruct (gterm_near pb (SFopp pb) (ara ny nx dx phi n) (fun i j => c1 ⊗ gcpl ny zon phi n i j) i j _ _ _ (2 * (P * B) / h ^ 2) 11 k0 eta S F3 Fb Zb N0 M0
    (brk_near n B i j SB Bn Hi Hj) (jac_bound phi n P B i j SP SB Bp Bn)) as [N1 M1]; try assumption; try lra.
  { rewrite uro_num. lra. }
  { rewrite Ab. lra. }
  rewrite Ab in N1, M1.
  set (o1 := gterm pb (SFopp pb) (ara ny nx dx phi n) (fun i j => c1 ⊗ gcpl ny zon phi n i j)) in *.
  destruct (gterm_near kap (SFopp kap) (cdy ny dx phi) o1 i j _ (cdy ny h (values phi) i j) _ (P / h) 4 (k0 + 1.01) (1.01 * (eta + eta)) S F4 Fk Zk N1 M1)
    as [N2 M2]; try assumption; try lra.
  { eapply near_mono; [apply (cdy_round ny nx dx Hy Fd Sd P phi i j SP Bp Hi Hj)|]. apply Req_le. field. lra. }
  { now apply cdy_bound. }
  { rewrite uro_num. lra. }
  { rewrite uro_num in HE. lra. }
  { rewrite Ak. lra. }
  rewrite Ak in N2, M2.
  set (o2 := gterm kap (SFopp kap) (cdy ny dx phi) o1) in *.
  destruct (lap_iter_round ny nx dx Hy Hx Fd Sd B n N Sc Bn) as [_ NL].
  destruct (gterm_near nu' nu' (lap_iter N ny nx dx n) o2 i j _ (lap_iter N ny nx h (values n) i j) _ (g ^ N * B) (6 * INR N) (k0 + 1.01 + 1.01) (1.01 * (1.01 * (eta + eta) + eta)) S Fn Fn (fun x => x) N2 M2)
    as [N3 M3]; try assumption; try lra.
  { eapply near_mono; [apply (NL i j Hi Hj)|]. apply Req_le. ring. }
  { apply lap_bound; auto; lra. }
  { rewrite uro_num. lra. }
  { rewrite uro_num in HE. lra. }
  { rewrite nu_abs. lra. }
  rewrite nu_abs in N3, M3. unfold g_n. cbn [nopp nmul NumF64]. fold o1. fold o2.
  eapply near_mono; [eapply near_eq; [exact N3|]|].
  - unfold rhs_n, hyper. cbn [pN pnu ppb pc1 pkap]. rewrite Vb, Vk, Vn. ring.
  - unfold roundings. cbn [pN pzon]. fold k0.
    set (m := size_c p P B + Rabs (fval pb) * (2 * (P * B) / h ^ 2) + Rabs (fval kap) * (P / h) + Rabs (fval nu) * (g ^ N * B)) in *.
    assert (Km : (k0 + 1.01 + 1.01 + 1.01) * (uro * m) <= (k0 + 1.01 + 1.01 + 1.01) * (uro * S)) by (apply Rmult_le_compat_l; [lra|apply Rmult_le_compat_l; lra]).
    assert (Kr : k0 * (uro * S) = (6 * INR N + 12.2 + (if zon then INR ny else 0)) * (uro * S)) by reflexivity.
    assert (0 < uro * S) by (apply Rmult_lt_0_compat; lra). lra.
Qed.
End Main.

Lemma c97 ny nx dx : (0 < ny)%nat -> (0 < nx)%nat -> finite64 dx -> scale64 (fval dx) ->
  forall solver b dx0 N c1 nu pb kap zon, b = np_schemes solver \/ b = nb_schemes solver ->
  finite64 c1 -> finite64 nu -> finite64 pb -> finite64 kap -> INR N <= 1000000 -> (zon = true -> INR ny <= 1000000) ->
  let p := mkPar N (fval c1) (fval nu) (fval pb) (fval kap) zon in
  forall phi n o P B O dt age, scale64 P -> scale64 B -> scale64 O ->
  bounded64 ny nx P phi -> bounded64 ny nx B n -> bounded64 ny nx O o ->
  (forall k, (k < N)%nat -> scale64 ((8.01 / fval dx ^ 2) ^ k * B)) -> (forall k, (k < N)%nat -> scale64 ((8.01 / fval dx ^ 2) ^ k * O)) ->
  exists lg d, gradient_2d (hw_init b dx0 (Z.of_nat N) c1 nu pb kap zon false)
      [("density", grid ny nx n); ("omega", grid ny nx o); ("age", scal age)]%string (Some (grid ny nx phi)) dt dx = (lg, Ok d) /\
    exists dn do_, ns_get d "density" = Ok (grid ny nx dn) /\ ns_get d "omega" = Ok (grid ny nx do_) /\
    forall Sn So i j, size_n p (fval dx) P B <= Sn -> scale64 Sn -> size_o p (fval dx) P B O <= So -> scale64 So -> (i < ny)%nat -> (j < nx)%nat ->
      near (dn i j) (rhs_n p ny nx (fval dx) (values phi) (values n) i j) (roundings p ny * uro * Sn) /\
      near (do_ i j) (rhs_o p ny nx (fval dx) (values phi) (values n) (values o) i j) (roundings p ny * uro * So).
Proof.
  intros Hy Hx Fd Sd solver b dx0 N c1 nu pb kap zon Hb F1 F2 F3 F4 HN Hny p phi n o P B O dt age SP SB SO Bp Bn Bo SB' SO'.
  destruct (hw_eval ny nx dx Hy Hx solver b dx0 N c1 nu pb kap zon Hb phi n o dt age) as (lg & d & E & E1 & E2).
  exists lg, d. split; [exact E|]. exists (g_n ny nx dx N c1 nu pb kap zon phi n), (g_o ny nx dx N c1 nu pb zon phi n o).
  split; [exact E1|]. split; [exact E2|]. intros Sn So i j L1 S1 L2 S2 Hi Hj. split.
  - apply (g_n_near ny nx dx Hy Hx Fd Sd N c1 nu pb kap zon F1 F2 F3 F4 HN Hny phi n P B SP SB Bp Bn Sn S1 i j Hi Hj L1 SB').
  - apply (g_o_near ny nx dx Hy Hx Fd Sd N c1 nu pb kap zon F1 F2 F3 HN Hny phi n o P B O SP SB SO Bp Bn Bo So S2 i j Hi Hj L2 SO').
Qed.
