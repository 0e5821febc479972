(** Carried energy and enstrophy: the statements of C114 about the code. *)
From Coq Require Import List Arith ZArith Lia Bool Reals Lra Psatz String Permutation FunctionalExtensionality.
From Verif Require Import Num NdArray NdFacts ModelGradients Spec SpecFourier ModelProperties ModelHW ModelBackend
  SpecHW SpecPlasma SpecAccount HWFacts StepFacts HWProps PoissonFacts PoissonProps BalanceProps BalanceWit LogProps StepProps
  GradFacts ArakawaFacts LapFacts RhsFacts SymFacts DiagFacts AccountFacts AccountOde.
Import ListNotations.
Local Open Scope R_scope.

Section P.
Variables (b : backend R) (p : par) (ny nx : nat) (dx : R).
Hypothesis Hy : (0 < ny)%nat.
Hypothesis Hx : (0 < nx)%nat.
Hypothesis Hd : dx <> 0.
Hypothesis Hb : backend_ok ny nx b.
Local Notation F := (hw_rhs p ny nx dx).
Local Notation h := (hw_of b p dx true).
Let Hba : acts b ny nx dx (pN p) := backend_acts ny nx b dx (pN p) Hy Hx Hd Hb.

Lemma steps_acc (step : ns R -> M (ns R)) (Step : state -> state) gain lg dt :
  (forall pl n o phi a, plasma_ok true ny nx pl n o phi a -> agree ny nx phi (invlap ny nx dx o) ->
    exists pl', step pl = (lg, Ok pl') /\
      plasma_ok true ny nx pl' (fst (Step (n, o))) (snd (Step (n, o))) (invlap ny nx dx (snd (Step (n, o)))) (a + dt) /\
      Permutation (ns_keys pl') (ns_keys pl)) ->
  (forall pl n o phi a, plasma_ok true ny nx pl n o phi a -> agree ny nx phi (invlap ny nx dx o) ->
    exists lg' pl', step pl = (lg', Ok pl') /\ forall k e, In k ["dE"; "dU"]%string -> ns_get pl k = Ok (scal e) ->
      ns_get pl' k = Ok (scal (e + gain k (n, o)))) ->
  forall k pl n o phi a, plasma_ok true ny nx pl n o phi a -> agree ny nx phi (invlap ny nx dx o) ->
  let y' := iter_step Step k (n, o) in
  exists pl' phi', snd (steps step k pl) = Ok pl' /\
    plasma_ok true ny nx pl' (fst y') (snd y') phi' (a + INR k * dt) /\ agree ny nx phi' (invlap ny nx dx (snd y')) /\
    forall key e, In key ["dE"; "dU"]%string -> ns_get pl key = Ok (scal e) ->
      ns_get pl' key = Ok (scal (e + along Step (gain key) k (n, o))).
Proof.
  intros H1 H2. induction k as [|k IH]; intros pl n o phi a Hpl Hphi y'.
  - exists pl, phi. cbn. rewrite Rmult_0_l, Rplus_0_r. repeat split; auto; try apply Hpl.
    intros key e _ E. now rewrite Rplus_0_r.
  - destruct (H1 _ _ _ _ _ Hpl Hphi) as (pl1 & E1 & P1 & _).
    destruct (H2 _ _ _ _ _ Hpl Hphi) as (lg' & pl1' & E1' & G1). rewrite E1 in E1'. injection E1' as <- <-.
    destruct (IH _ _ _ _ _ P1 (fun i j _ _ => eq_refl)) as (pl2 & phi2 & E2 & P2 & A2 & G2).
    rewrite <- surjective_pairing in *. exists pl2, phi2. split; [|split; [|split]].
    + cbn [steps]. rewrite E1, mbind_ok. unfold tell. destruct (steps step k pl1) as [l r]. exact E2.
    + replace (a + INR (S k) * dt) with (a + dt + INR k * dt) by (rewrite S_INR; ring). exact P2.
    + exact A2.
    + intros key e Hi Hg. rewrite (G2 key _ Hi (G1 key e Hi Hg)). cbn [along]. do 2 f_equal. ring.
Qed.
Lemma rk4_carried pl n o phi a dt k : plasma_ok true ny nx pl n o phi a -> agree ny nx phi (invlap ny nx dx o) ->
  let y' := iter_step (rk4 F dt) k (n, o) in
  exists pl' phi', snd (steps (fun pl => rk4_step h pl dt dx) k pl) = Ok pl' /\
    plasma_ok true ny nx pl' (fst y') (snd y') phi' (a + INR k * dt) /\ agree ny nx phi' (invlap ny nx dx (snd y')) /\
    (forall e, ns_get pl "dE" = Ok (scal e) ->
       ns_get pl' "dE" = Ok (scal (e + along (rk4 F dt) (rk4_gain F (reported_dE p ny nx dx) dt) k (n, o)))) /\
    (forall u, ns_get pl "dU" = Ok (scal u) ->
       ns_get pl' "dU" = Ok (scal (u + along (rk4 F dt) (rk4_gain F (reported_dU p ny nx dx) dt) k (n, o)))).
Proof.
  intros Hpl Hphi.
  destruct (steps_acc (fun pl => rk4_step h pl dt dx) (rk4 F dt) (fun key => rk4_gain F (rate p ny nx dx key) dt) (rk4_log p true) dt) with (k := k) (pl := pl) (n := n) (o := o) (phi := phi) (a := a)
    as (pl' & phi' & E & P & A & G); auto.
  - intros. now apply (rk4_step_grid b p dx true ny nx dx Hy Hx Hba) with (phi := phi0).
  - intros. now apply (rk4_acc b p true ny nx dx Hy Hx Hba) with (phi := phi0) (a := a0).
  - exists pl', phi'. repeat (split; [assumption|]). split.
    + intros e He. exact (G "dE"%string e (or_introl eq_refl) He).
    + intros e He. exact (G "dU"%string e (or_intror (or_introl eq_refl)) He).
Qed.
Lemma euler_carried pl n o phi a dt k : plasma_ok true ny nx pl n o phi a -> agree ny nx phi (invlap ny nx dx o) ->
  let y' := iter_step (euler F dt) k (n, o) in
  exists pl' phi', snd (steps (fun pl => euler_step h pl dt dx) k pl) = Ok pl' /\
    plasma_ok true ny nx pl' (fst y') (snd y') phi' (a + INR k * dt) /\ agree ny nx phi' (invlap ny nx dx (snd y')) /\
    (forall e, ns_get pl "dE" = Ok (scal e) ->
       ns_get pl' "dE" = Ok (scal (e + along (euler F dt) (euler_gain (reported_dE p ny nx dx) dt) k (n, o)))) /\
    (forall u, ns_get pl "dU" = Ok (scal u) ->
       ns_get pl' "dU" = Ok (scal (u + along (euler F dt) (euler_gain (reported_dU p ny nx dx) dt) k (n, o)))).
Proof.
  intros Hpl Hphi.
  destruct (steps_acc (fun pl => euler_step h pl dt dx) (euler F dt) (fun key => euler_gain (rate p ny nx dx key) dt) (euler_log p true) dt) with (k := k) (pl := pl) (n := n) (o := o) (phi := phi) (a := a)
    as (pl' & phi' & E & P & A & G); auto.
  - intros. now apply (euler_step_grid b p dx true ny nx dx Hy Hx Hba) with (phi := phi0).
  - intros. now apply (euler_acc b p true ny nx dx Hy Hx Hba) with (phi := phi0) (a := a0).
  - exists pl', phi'. repeat (split; [assumption|]). split.
    + intros e He. exact (G "dE"%string e (or_introl eq_refl) He).
    + intros e He. exact (G "dU"%string e (or_intror (or_introl eq_refl)) He).
Qed.

(** ideal system, Euler: the carried numbers lag behind by exactly dt^2 times
    the energy (enstrophy) of the slopes *)
Lemma euler_ideal pl n o phi a e u dt k : pnu p = 0 -> pkap p = 1 -> pzon p = false ->
  plasma_ok true ny nx pl n o phi a -> agree ny nx phi (invlap ny nx dx o) ->
  ns_get pl "dE" = Ok (scal e) -> ns_get pl "dU" = Ok (scal u) ->
  exists pl' n' o' phi' e' u', snd (steps (fun pl => euler_step h pl dt dx) k pl) = Ok pl' /\
    plasma_ok true ny nx pl' n' o' phi' (a + INR k * dt) /\ agree ny nx phi' (invlap ny nx dx o') /\
    ns_get pl' "dE" = Ok (scal e') /\ ns_get pl' "dU" = Ok (scal u') /\
    energy ny nx dx (n', o') - e' = energy ny nx dx (n, o) - e + dt ^ 2 * along (euler F dt) (fun y => energy ny nx dx (F y)) k (n, o) /\
    enstrophy ny nx (n', o') - u' = enstrophy ny nx (n, o) - u + dt ^ 2 * along (euler F dt) (fun y => enstrophy ny nx (F y)) k (n, o) /\
    energy ny nx dx (n, o) - e <= energy ny nx dx (n', o') - e' /\
    enstrophy ny nx (n, o) - u <= enstrophy ny nx (n', o') - u'.
Proof.
  intros Hn Hk Hz Hpl Hphi He Hu. destruct (euler_carried pl n o phi a dt k Hpl Hphi) as (pl' & phi' & E & P & A & GE & GU).
  set (y' := iter_step (euler F dt) k (n, o)) in *.
  eexists pl', (fst y'), (snd y'), phi', _, _. split; [exact E|]. split; [exact P|]. split; [exact A|].
  split; [exact (GE e He)|]. split; [exact (GU u Hu)|]. rewrite <- surjective_pairing.
  pose proof (euler_along p ny nx dx (gE ny nx dx) (reported_dE p ny nx dx) dt (n, o) k (wf_gE ny nx dx Hy Hx Hd)
    (fun z => ideal_E p ny nx dx Hy Hx Hd z Hn Hk Hz)) as L1.
  pose proof (euler_along p ny nx dx gU (reported_dU p ny nx dx) dt (n, o) k (wf_gU ny nx)
    (fun z => ideal_U p ny nx dx Hy Hx Hd z Hn Hk)) as L2.
  cbv zeta in L1, L2. fold y' in L1, L2. rewrite !gE_eq in L1. rewrite !gU_eq in L2.
  assert (X1 : forall y, along (euler F dt) (fun z => fev ny nx (gE ny nx dx) (F z) (F z)) k y = along (euler F dt) (fun z => energy ny nx dx (F z)) k y).
  { clear. induction k as [|k IH]; intros y; cbn [along]; [reflexivity|]. now rewrite gE_eq, IH. }
  assert (X2 : forall y, along (euler F dt) (fun z => fev ny nx gU (F z) (F z)) k y = along (euler F dt) (fun z => enstrophy ny nx (F z)) k y).
  { clear. induction k as [|k IH]; intros y; cbn [along]; [reflexivity|]. now rewrite gU_eq, IH. }
  rewrite X1 in L1. rewrite X2 in L2. split; [lra|]. split; [lra|].
  assert (Pos : forall g y, (forall z, 0 <= g z) -> 0 <= along (euler F dt) g k y).
  { clear. intros g y H. revert y. induction k as [|k IH]; intros y; cbn [along]; [lra|]. pose proof (H y). pose proof (IH (euler F dt y)). lra. }
  pose proof (Pos _ (n, o) (fun z => energy_pos ny nx dx Hy Hx Hd (F z))). pose proof (Pos _ (n, o) (fun z => enstrophy_pos ny nx Hy Hx (F z))).
  pose proof (pow2_ge_0 dt). split; nra.
Qed.
(** ideal system, rk4: fourth order *)
Lemma rk4_ideal n o T : pnu p = 0 -> pkap p = 1 -> pzon p = false -> 0 <= T ->
  exists C h0, 0 <= C /\ 0 < h0 /\ forall pl phi a e u dt k,
    plasma_ok true ny nx pl n o phi a -> agree ny nx phi (invlap ny nx dx o) ->
    ns_get pl "dE" = Ok (scal e) -> ns_get pl "dU" = Ok (scal u) -> 0 < dt <= h0 -> INR k * dt <= T ->
    exists pl' n' o' phi' e' u', snd (steps (fun pl => rk4_step h pl dt dx) k pl) = Ok pl' /\
      plasma_ok true ny nx pl' n' o' phi' (a + INR k * dt) /\ agree ny nx phi' (invlap ny nx dx o') /\
      ns_get pl' "dE" = Ok (scal e') /\ ns_get pl' "dU" = Ok (scal u') /\
      Rabs ((e' - e) - (energy ny nx dx (n', o') - energy ny nx dx (n, o))) <= C * dt ^ 4 /\
      Rabs ((u' - u) - (enstrophy ny nx (n', o') - enstrophy ny nx (n, o))) <= C * dt ^ 4.
Proof.
  intros Hn Hk Hz HT. destruct (carried_ideal p ny nx dx Hy Hx Hd (n, o) T Hn Hk Hz HT) as (C & h0 & HC & Hh & HG).
  exists C, h0. split; [exact HC|]. split; [exact Hh|]. intros pl phi a e u dt k Hpl Hphi He Hu Hdt HkT.
  destruct (rk4_carried pl n o phi a dt k Hpl Hphi) as (pl' & phi' & E & P & A & GE & GU).
  destruct (HG dt k Hdt HkT) as [G1 G2].
  set (y' := iter_step (rk4 F dt) k (n, o)) in *.
  eexists pl', (fst y'), (snd y'), phi', _, _. split; [exact E|]. split; [exact P|]. split; [exact A|].
  split; [exact (GE e He)|]. split; [exact (GU u Hu)|]. rewrite <- surjective_pairing. split.
  - eapply Rle_trans; [|exact G1]. apply Req_le. f_equal. unfold rr. lra.
  - eapply Rle_trans; [|exact G2]. apply Req_le. f_equal. unfold rr. lra.
Qed.
(** any parameters: the carried numbers are fourth-order quadratures of the
    reported rates along the solution *)
Lemma rk4_quadrature Y E U T : 0 <= T -> hw_solution p ny nx dx Y T ->
  (forall t, 0 <= t <= T -> derivable_pt_lim E t (reported_dE p ny nx dx (Y t))) ->
  (forall t, 0 <= t <= T -> derivable_pt_lim U t (reported_dU p ny nx dx (Y t))) ->
  exists C h0, 0 <= C /\ 0 < h0 /\ forall pl phi a e u dt k,
    plasma_ok true ny nx pl (fst (Y 0)) (snd (Y 0)) phi a -> agree ny nx phi (invlap ny nx dx (snd (Y 0))) ->
    ns_get pl "dE" = Ok (scal e) -> ns_get pl "dU" = Ok (scal u) -> 0 < dt <= h0 -> INR k * dt <= T ->
    exists pl' e' u', snd (steps (fun pl => rk4_step h pl dt dx) k pl) = Ok pl' /\
      ns_get pl' "dE" = Ok (scal e') /\ ns_get pl' "dU" = Ok (scal u') /\
      Rabs ((e' - e) - (E (INR k * dt) - E 0)) <= C * dt ^ 4 /\
      Rabs ((u' - u) - (U (INR k * dt) - U 0)) <= C * dt ^ 4.
Proof.
  intros HT HY HE HU. destruct (carried_order p ny nx dx Hy Hx Hd Y E U T HT HY HE HU) as (C & h0 & HC & Hh & HG).
  exists C, h0. split; [exact HC|]. split; [exact Hh|]. intros pl phi a e u dt k Hpl Hphi He Hu Hdt HkT.
  destruct (rk4_carried pl _ _ phi a dt k Hpl Hphi) as (pl' & phi' & Ex & P & A & GE & GU).
  destruct (HG dt k Hdt HkT) as (_ & G1 & G2). rewrite <- surjective_pairing in *.
  eexists pl', _, _. split; [exact Ex|]. split; [exact (GE e He)|]. split; [exact (GU u Hu)|]. split.
  - eapply Rle_trans; [|exact G1]. apply Req_le. f_equal. unfold rr. lra.
  - eapply Rle_trans; [|exact G2]. apply Req_le. f_equal. unfold rr. lra.
Qed.

(** without TEST_CONSERVATION such a plasma cannot be stepped *)
Lemma ns_map_key (f : string -> arr R -> nd R) (d : ns R) :
  (forall k v, In (k, v) d -> f k v = Exn KeyError \/ exists w, f k v = Ok w) ->
  (exists k v, In (k, v) d /\ f k v = Exn KeyError) -> ns_map f d = Exn KeyError.
Proof.
  induction d as [|[k v] d IH]; intros H (k0 & v0 & Hi & E); [destruct Hi|]. cbn [ns_map].
  destruct (H k v (or_introl eq_refl)) as [K|(w & K)]; rewrite K; cbn [bind]; [reflexivity|].
  destruct Hi as [Hi|Hi]; [injection Hi as -> ->; congruence|].
  rewrite IH; [reflexivity|intros; apply H; now right|eauto].
Qed.
Lemma madd_key ks ks' y z s s' : (exists k, In k ks /\ ~ In k ks') ->
  madd (nsmap ks (V ny nx (fst y) (snd y) s)) (nsmap ks' (V ny nx (fst z) (snd z) s')) = ([], Exn KeyError).
Proof.
  intros (k0 & H0 & N0). unfold madd, mlift. f_equal. unfold ns_add. apply ns_map_key.
  - intros k v Hi. apply in_map_iff in Hi as (k1 & E & Hk). injection E as <- <-.
    destruct (in_dec string_dec k1 ks') as [I|N].
    + right. rewrite ns_get_in by exact I. cbn [bind]. unfold V, add_.
      destruct (String.eqb k1 "density"); [rewrite lift2_grid; eauto|].
      destruct (String.eqb k1 "omega"); [rewrite lift2_grid; eauto|]. rewrite lift2_scal. eauto.
    + left. rewrite ns_get_out by exact N. reflexivity.
  - exists k0, (V ny nx (fst y) (snd y) s k0). split; [apply in_map_iff; eauto|]. rewrite ns_get_out by exact N0. reflexivity.
Qed.
Lemma gradient_2d_off ks n o s phi dt : keys_ok true ks ->
  gradient_2d (hw_of b p dx false) (nsmap ks (V ny nx n o s)) (Some (grid ny nx phi)) dt dx =
  (grad_log p false, Ok (nsmap (gkeys false true) (V ny nx (rhs_n p ny nx dx phi n) (rhs_o p ny nx dx phi n o)
        (gvals p dx ny nx dx phi n o (s "age"%string + dt))))).
Proof.
  intros Hk. unfold gradient_2d.
  assert (E : existsb (fun k => ns_has (nsmap ks (V ny nx n o s)) k) reserved = false).
  { apply not_true_is_false. intros H. apply existsb_exists in H as (k & Hr & Hh).
    now rewrite (reserved_out true) in Hh. }
  rewrite E.
  assert (E' : ns_has (nsmap ks (V ny nx n o s)) "debug" = false).
  { apply not_true_is_false. rewrite ns_has_in. intros Hi. apply (ko_sub _ _ Hk) in Hi. cbn in Hi.
    repeat destruct Hi as [Hi|Hi]; try discriminate; tauto. }
  rewrite E'. rewrite !ns_get_in by apply Hk. rewrite V_density, V_omega, V_age.
  exact (hw2d_gradient_grid b p dx false ny nx dx Hy Hx Hba n o phi dt (Some (s "age"%string))).
Qed.
Lemma off_raises pl n o phi a dt : plasma_ok true ny nx pl n o phi a ->
  (In "dE"%string (ns_keys pl) \/ In "dU"%string (ns_keys pl)) ->
  snd (euler_step (hw_of b p dx false) pl dt dx) = Exn KeyError /\
  snd (rk4_step (hw_of b p dx false) pl dt dx) = Exn KeyError.
Proof.
  intros Hpl Hk0. destruct (plasma_canon true ny nx _ _ _ _ _ Hpl) as (s & Hk & Ha & Ey).
  set (ks := ksrem "phi" (ns_keys pl)) in *.
  assert (Hx0 : exists k, In k ks /\ ~ In k (gkeys false true)).
  { destruct Hk0 as [K|K]; eexists; (split; [apply in_ksrem; split; [exact K|discriminate]|cbn; intuition discriminate]). }
  set (y := (n, o) : state).
  set (z := (rhs_n p ny nx dx phi n, rhs_o p ny nx dx phi n o) : state). split.
  - unfold euler_step. rewrite Ey, (po_p _ _ _ _ _ _ _ _ Hpl), gradient_2d_off, mbind_ok by exact Hk.
    change (rhs_n p ny nx dx phi n) with (fst z). change (rhs_o p ny nx dx phi n o) with (snd z).
    rewrite mscale_V, mbind_lift.
    change (V ny nx n o s) with (V ny nx (fst y) (snd y) s). rewrite madd_key by exact Hx0. reflexivity.
  - unfold rk4_step. rewrite Ey. unfold mget at 1. rewrite (po_p _ _ _ _ _ _ _ _ Hpl), mbind_lift.
    unfold stage at 1. rewrite gradient_2d_off, mbind_ok by exact Hk.
    change (rhs_n p ny nx dx phi n) with (fst z). change (rhs_o p ny nx dx phi n o) with (snd z).
    unfold mscale at 1. rewrite V_scale.
    match goal with |- context [nsmap (gkeys false true) (V ny nx (fscale dt (fst z)) (fscale dt (snd z)) ?s1)] =>
      change (V ny nx (fscale dt (fst z)) (fscale dt (snd z)) s1) with (V ny nx (fst (sscale dt z)) (snd (sscale dt z)) s1) end.
    unfold mlift at 1. rewrite tell_pair, mbind_ok. rewrite mscale_V, mbind_lift.
    change (V ny nx n o s) with (V ny nx (fst y) (snd y) s). rewrite madd_key by exact Hx0. reflexivity.
Qed.
End P.

(** a plasma carrying two numbers *)
Definition pl2 (ny nx : nat) (n o phi : field) (a e u : R) : ns R :=
  (pl0 ny nx n o phi a ++ [("dE", scal e); ("dU", scal u)]%string)%list.
Lemma pl2_ok ny nx n o phi a e u : plasma_ok true ny nx (pl2 ny nx n o phi a e u) n o phi a.
Proof.
  constructor; try reflexivity.
  - cbn. repeat constructor; cbn; intuition discriminate.
  - cbn. intros k H. intuition (subst; auto 10).
  - intros k v [<-|[<-|[]]] H; cbn in H; injection H as <-; eauto.
Qed.
Lemma get_energy_grid ny nx n phi d : (0 < ny)%nat -> (0 < nx)%nat ->
  get_energy (Ok (grid ny nx n)) (Ok (grid ny nx phi)) d =
  Ok (scal (gmean ny nx (fun i j => n i j ^ 2 + (cdx nx d phi i j ^ 2 + cdy ny d phi i j ^ 2)) / 2)).
Proof. intros Hy Hx. exact (energy_stack [] ny nx Hy Hx (fun _ => n) (fun _ => phi) d). Qed.

(** alternating fields on two cells: the central differences vanish *)
Local Notation lam := (/ PI ^ 2).
Local Notation pw := (pW 1 0 1 1 false).
Lemma lam_pos : 0 < lam.
Proof. apply Rinv_0_lt_compat, pow_lt, PI_RGT_0. Qed.
Lemma sh11 i k : (i < 1)%nat -> sh 1 i k = 0%nat.
Proof. intros _. assert (sh 1 i k < 1)%nat by (apply sh_lt; lia). lia. Qed.
Lemma cdx2 d f i j : (j < 2)%nat -> cdx 2 d f i j = 0.
Proof. intros Hj. destruct j as [|[|j]]; [| |lia]; unfold cdx; cbn; unfold Rdiv; ring. Qed.
Lemma cdy1 d f i j : (i < 1)%nat -> cdy 1 d f i j = 0.
Proof. intros Hi. unfold cdy. rewrite !sh11 by assumption. cbn. unfold Rdiv. ring. Qed.
Lemma F_zig : sagree 1 2 (hw_rhs pw 1 2 1 (zig, zig)) (fscale (- (1 + lam)) zig, fscale (- (1 + lam)) zig).
Proof.
  assert (J0 : forall i j, (i < 1)%nat -> (j < 2)%nat -> jacobian 1 2 1 (invlap 1 2 1 zig) zig i j = 0).
  { intros i j Hi Hj. rewrite (jac_ext 1 2 1 ltac:(lia) ltac:(lia) ltac:(lra) _ zig (fscale (- lam) zig) zig).
    - rewrite jacobian_ara by lra.
      replace (fscale (- lam) zig) with (fadd (fscale (- lam) zig) (fscale 0 zig)) by (extensionality a; extensionality c; unfold fadd, fscale; ring).
      rewrite ara_lin_l, !ara_self. ring.
    - intros a c Ha Hc. rewrite <- phiw_ok by assumption. reflexivity.
    - intros a c _ _. reflexivity. }
  split; intros i j Hi Hj; cbn [hw_rhs fst snd]; unfold rhs_n, rhs_o, coupling, fscale; cbn [pc1 ppb pkap pzon pW];
    rewrite ?cdy1, J0, (hyper_nu0 pw) by (assumption || reflexivity);
    rewrite <- (phiw_ok i j Hi Hj); unfold phiw; ring.
Qed.
Lemma mean_zig c : gmean 1 2 (fun i j => (c * zig i j) ^ 2) = c ^ 2.
Proof. unfold gmean, gsum. cbn. field. Qed.
Lemma code_energy_step dt e u : exists pl' n' phi' e',
  snd (euler_step (hw_of np_backend pw 1 true) (pl2 1 2 zig zig phiw 0 e u) dt 1) = Ok pl' /\
  ns_get pl' "density" = Ok (grid 1 2 n') /\ ns_get pl' "phi" = Ok (grid 1 2 phi') /\ ns_get pl' "dE" = Ok (scal e') /\
  e' = e - dt * (1 + lam) ^ 2 /\
  get_energy (Ok (grid 1 2 zig)) (Ok (grid 1 2 phiw)) 1 = Ok (scal (1 / 2)) /\
  get_energy (Ok (grid 1 2 n')) (Ok (grid 1 2 phi')) 1 = Ok (scal (1 / 2 - dt * (1 + lam) + dt ^ 2 * (1 + lam) ^ 2 / 2)).
Proof.
  assert (H1 : (0 < 1)%nat) by lia. assert (H2 : (0 < 2)%nat) by lia. assert (Hd : 1 <> 0) by lra.
  destruct (euler_carried np_backend pw 1 2 1 H1 H2 Hd (or_introl eq_refl) (pl2 1 2 zig zig phiw 0 e u) zig zig phiw 0 dt 1
    (pl2_ok _ _ _ _ _ _ _ _) phiw_ok) as (pl' & phi' & E & P & A & GE & _).
  cbn [iter_step steps] in E, P, A.
  assert (En : snd (euler_step (hw_of np_backend pw 1 true) (pl2 1 2 zig zig phiw 0 e u) dt 1) = Ok pl').
  { destruct (euler_step (hw_of np_backend pw 1 true) (pl2 1 2 zig zig phiw 0 e u) dt 1) as [l [r|x]]; cbn in E |- *; congruence. }
  eexists pl', _, phi', _. split; [exact En|]. split; [apply (po_n _ _ _ _ _ _ _ _ P)|]. split; [apply (po_p _ _ _ _ _ _ _ _ P)|].
  split; [apply (GE e); reflexivity|]. destruct F_zig as [Fn Fo]. split; [|split].
  - cbn [along]. unfold euler_gain, reported_dE. cbn [fst snd pc1 pW].
    rewrite (mn_ext 1 2 (fun i j => zig i j * cdy 1 1 (invlap 1 2 1 zig) i j) (fun i j => 0 * zig i j)) by (intros; rewrite cdy1 by assumption; ring).
    rewrite (mn_ext 1 2 (fun i j => (zig i j - invlap 1 2 1 zig i j) ^ 2) (fun i j => ((1 + lam) * zig i j) ^ 2))
      by (intros i j Hi Hj; rewrite <- (phiw_ok i j Hi Hj); unfold phiw; ring).
    rewrite (mn_ext 1 2 (fun i j => zig i j * hyper pw 1 2 1 zig i j - invlap 1 2 1 zig i j * hyper pw 1 2 1 (invlap 1 2 1 zig) i j) (fun i j => 0 * zig i j))
      by (intros; rewrite !(hyper_nu0 pw) by reflexivity; ring).
    rewrite !mn_scal, mean_zig. ring.
  - rewrite get_energy_grid by assumption.
    rewrite (mn_ext 1 2 _ (fun i j => (1 * zig i j) ^ 2)) by (intros; rewrite cdx2, cdy1 by assumption; ring).
    rewrite mean_zig. do 2 f_equal. field.
  - rewrite get_energy_grid by assumption.
    rewrite (mn_ext 1 2 _ (fun i j => ((1 - dt * (1 + lam)) * zig i j) ^ 2)).
    + rewrite mean_zig. do 2 f_equal. field. apply PI_neq0.
    + intros i j Hi Hj. rewrite cdx2, cdy1 by assumption. unfold euler. cbn [sadd sscale fst snd]. unfold fadd, fscale.
      rewrite (Fn i j Hi Hj). cbn [fst]. unfold fscale. ring.
Qed.
Lemma code_energy_refuted :
  ~ (forall p n o phi, pnu p = 0 -> pkap p = 1 -> pzon p = false -> agree 1 2 phi (invlap 1 2 1 o) ->
     exists C h0, 0 < h0 /\ forall e u dt E, 0 < dt <= h0 -> get_energy (Ok (grid 1 2 n)) (Ok (grid 1 2 phi)) 1 = Ok (scal E) ->
     exists pl' n' phi' e' E', snd (euler_step (hw_of np_backend p 1 true) (pl2 1 2 n o phi 0 e u) dt 1) = Ok pl' /\
       ns_get pl' "density" = Ok (grid 1 2 n') /\ ns_get pl' "phi" = Ok (grid 1 2 phi') /\ ns_get pl' "dE" = Ok (scal e') /\
       get_energy (Ok (grid 1 2 n')) (Ok (grid 1 2 phi')) 1 = Ok (scal E') /\
       Rabs ((e' - e) - (E' - E)) <= C * dt ^ 2).
Proof.
  intros H. destruct (H pw zig zig phiw eq_refl eq_refl eq_refl phiw_ok) as (C & h0 & Hh & G).
  assert (Sc : forall x z : R, Ok (scal x) = Ok (scal z) -> x = z) by (intros x z K; injection K; auto).
  pose proof lam_pos as L. set (m := lam) in *.
  set (dt := Rmin h0 (m * (1 + m) / (2 * (Rabs C + 1)))).
  pose proof (Rabs_pos C) as PC. pose proof (Rle_abs C) as LC.
  assert (0 < m * (1 + m) / (2 * (Rabs C + 1))) by (apply Rdiv_lt_0_compat; nra).
  assert (D1 : 0 < dt) by (apply Rmin_glb_lt; assumption).
  assert (D2 : dt <= m * (1 + m) / (2 * (Rabs C + 1))) by apply Rmin_r.
  destruct (code_energy_step dt 0 0) as (pl' & n' & phi' & e' & E & En & Ep & Ee & Ve & V0 & V1).
  destruct (G 0 0 dt (1 / 2) (conj D1 (Rmin_l _ _)) V0) as (pl2' & n2 & phi2 & e2 & E2 & F & Fn & Fp & Fe & W & Bd).
  rewrite E in F. injection F as <-. rewrite En in Fn. rewrite Ep in Fp. rewrite Ee in Fe.
  rewrite <- Fn, <- Fp, V1 in W. apply Sc in W. apply Sc in Fe. subst e2 E2. rewrite Ve in Bd. fold m in Bd.
  assert (D3 : dt * (2 * (Rabs C + 1)) <= m * (1 + m)).
  { apply (Rmult_le_compat_r (2 * (Rabs C + 1))) in D2; [|lra]. unfold Rdiv in D2. rewrite Rmult_assoc, Rinv_l in D2; lra. }
  assert (B2 : dt * (m * (1 + m)) <= C * dt ^ 2).
  { eapply Rle_trans; [|exact Bd]. rewrite <- Rabs_Ropp. eapply Rle_trans; [|apply Rle_abs].
    assert (0 <= dt ^ 2 * (1 + m) ^ 2 / 2) by (pose proof (pow2_ge_0 dt); pose proof (pow2_ge_0 (1 + m)); nra). nra. }
  assert (B3 : m * (1 + m) <= C * dt) by (apply (Rmult_le_reg_l dt); [assumption|lra]).
  assert (C * dt <= Rabs C * dt) by (apply Rmult_le_compat_r; lra). nra.
Qed.
