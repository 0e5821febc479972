(** Property C141: superposition and independent modes without the bracket. *)
From Coq Require Import List Arith ZArith Lia Bool Reals Lra Psatz String.
From Verif Require Import Num NdArray NdFacts Spec SumFacts Cplx DftFacts ModelHW ModelBackend SpecHW SpecPlasma HWFacts StepFacts RhsFacts HWProps BalanceWit SpecZonal ZonalFacts RunHWWit
  SpecLinear LinearFacts PropAdvect PropScale.
Import ListNotations.
Local Open Scope R_scope.

(** With poisson_bracket_coeff = 0: combined fields give combined results,
    after any number of steps. *)
Theorem C141_superposition ny nx dx : (0 < ny)%nat -> (0 < nx)%nat -> dx <> 0 -> forall b dx0 test, backend_ok ny nx b ->
  forall step p u v pl1 pl2 pl3 n o phi n2 o2 phi2 t t2 t3 dt m, step = rk4_step \/ step = euler_step -> ppb p = 0 ->
  plasma_ok test ny nx pl1 n o phi t -> agree ny nx phi (invlap ny nx dx o) -> plasma_ok test ny nx pl2 n2 o2 phi2 t2 -> agree ny nx phi2 (invlap ny nx dx o2) ->
  plasma_ok test ny nx pl3 (combined u v n n2) (combined u v o o2) (combined u v phi phi2) t3 ->
  exists pl1' pl2' pl3' n' o' phi' n2' o2' phi2',
    snd (steps (fun pl => step (hw_of b p dx0 test) pl dt dx) m pl1) = Ok pl1' /\ plasma_ok test ny nx pl1' n' o' phi' (t + INR m * dt) /\
    snd (steps (fun pl => step (hw_of b p dx0 test) pl dt dx) m pl2) = Ok pl2' /\ plasma_ok test ny nx pl2' n2' o2' phi2' (t2 + INR m * dt) /\
    snd (steps (fun pl => step (hw_of b p dx0 test) pl dt dx) m pl3) = Ok pl3' /\
    plasma_ok test ny nx pl3' (combined u v n' n2') (combined u v o' o2') (combined u v phi' phi2') (t3 + INR m * dt).
Proof. exact (c141_super ny nx dx). Qed.
Print Assumptions C141_superposition.
(** The coefficients of a mode depend on nothing but the coefficients of that
    mode at the start. *)
Theorem C141_modes ny nx dx : (0 < ny)%nat -> (0 < nx)%nat -> dx <> 0 -> forall b dx0 test, backend_ok ny nx b ->
  forall step p k l pl1 pl2 n o phi n2 o2 phi2 t t2 dt m, step = rk4_step \/ step = euler_step -> ppb p = 0 -> (k < ny)%nat -> (l < nx)%nat ->
  plasma_ok test ny nx pl1 n o phi t -> agree ny nx phi (invlap ny nx dx o) -> plasma_ok test ny nx pl2 n2 o2 phi2 t2 -> agree ny nx phi2 (invlap ny nx dx o2) ->
  coefficient ny nx k l n = coefficient ny nx k l n2 -> coefficient ny nx k l o = coefficient ny nx k l o2 ->
  exists pl1' pl2' n' o' phi' n2' o2' phi2',
    snd (steps (fun pl => step (hw_of b p dx0 test) pl dt dx) m pl1) = Ok pl1' /\ plasma_ok test ny nx pl1' n' o' phi' (t + INR m * dt) /\
    snd (steps (fun pl => step (hw_of b p dx0 test) pl dt dx) m pl2) = Ok pl2' /\ plasma_ok test ny nx pl2' n2' o2' phi2' (t2 + INR m * dt) /\
    coefficient ny nx k l n' = coefficient ny nx k l n2' /\ coefficient ny nx k l o' = coefficient ny nx k l o2' /\
    coefficient ny nx k l phi' = coefficient ny nx k l phi2'.
Proof. exact (c141_modes ny nx dx). Qed.
Print Assumptions C141_modes.

(** With the bracket it fails: a flow along y, which has no part in the mode
    (1, 0), changes the coefficient (1, 0) of the density of one cell. *)
Definition cell01 : field := fun i j => match i, j with O, 1%nat => 1 | _, _ => 0 end.
Lemma w4 z : wn 4 z = mkC (cos (IZR z * (PI / 2))) (sin (IZR z * (PI / 2))).
Proof. unfold wn, cis. apply C_eq; cbn [re im]; f_equal; cbn; field. Qed.
Lemma w4_0 : wn 4 0 = mkC 1 0. Proof. rewrite w4, Rmult_0_l, cos_0, sin_0. reflexivity. Qed.
Lemma w4_1 : wn 4 (-1) = mkC 0 (-1).
Proof. rewrite w4. replace (IZR (-1) * (PI / 2)) with (- (PI / 2)) by (cbn; field). rewrite cos_neg, sin_neg, cos_PI2, sin_PI2. apply C_eq; cbn; ring. Qed.
Lemma w4_2 : wn 4 (-2) = mkC (-1) 0.
Proof. rewrite w4. replace (IZR (-2) * (PI / 2)) with (- PI) by (cbn; field). rewrite cos_neg, sin_neg, cos_PI, sin_PI. apply C_eq; cbn; ring. Qed.
Lemma w4_3 : wn 4 (-3) = mkC 0 1.
Proof. rewrite w4. replace (IZR (-3) * (PI / 2)) with (- (3 * (PI / 2))) by (cbn; field). rewrite cos_neg, sin_neg, cos_3PI2, sin_3PI2. apply C_eq; cbn; ring. Qed.
Definition rowsum (f : field) (i : nat) : R := f i 0%nat + f i 1%nat + f i 2%nat + f i 3%nat.
Lemma coef10 f : coefficient 4 4 1 0 f = mkC (rowsum f 0 - rowsum f 2) (rowsum f 3 - rowsum f 1).
Proof.
  unfold coefficient, dft2, rowsum. cbn [csum Z.of_nat Z.mul Pos.of_succ_nat Pos.succ Pos.mul Z.opp]. rewrite w4_0, w4_1, w4_2, w4_3.
  apply C_eq; cbn; ring.
Qed.
Theorem C141_bracket_refuted : exists p pl pl2 n o phi o2 phi2 pl' pl2' n' o' phi' n2 o2' phi2', ppb p = 1 /\
  plasma_ok true 4 4 pl n o phi 0 /\ agree 4 4 phi (invlap 4 4 1 o) /\ plasma_ok true 4 4 pl2 n o2 phi2 0 /\ agree 4 4 phi2 (invlap 4 4 1 o2) /\
  coefficient 4 4 1 0 o = coefficient 4 4 1 0 o2 /\
  snd (steps (fun pl => euler_step (hw_of np_backend p 1 true) pl 1 1) 1 pl) = Ok pl' /\ plasma_ok true 4 4 pl' n' o' phi' 1 /\
  snd (steps (fun pl => euler_step (hw_of np_backend p 1 true) pl 1 1) 1 pl2) = Ok pl2' /\ plasma_ok true 4 4 pl2' n2 o2' phi2' 1 /\
  coefficient 4 4 1 0 n' <> coefficient 4 4 1 0 n2.
Proof.
  set (p := mkPar 1 0 0 1 0 false). set (phi := invlap 4 4 1 flow4). set (z := fun _ _ : nat => 0). set (phi2 := invlap 4 4 1 z).
  assert (Hy : (0 < 4)%nat) by lia. assert (H1 : (1 : R) <> 0) by lra. assert (Hb : backend_ok 4 4 np_backend) by now left.
  destruct (traj 4 4 1 Hy Hy H1 np_backend 1 true Hb true p (pl0 4 4 cell01 flow4 phi 0) cell01 flow4 phi 0 1 1 (pl0_ok _ _ _ _ _ _ _) (fun _ _ _ _ => eq_refl))
    as (pl' & phi' & S1 & Q1 & _).
  destruct (traj 4 4 1 Hy Hy H1 np_backend 1 true Hb true p (pl0 4 4 cell01 z phi2 0) cell01 z phi2 0 1 1 (pl0_ok _ _ _ _ _ _ _) (fun _ _ _ _ => eq_refl))
    as (pl2' & phi2' & S2 & Q2 & _).
  replace (0 + INR 1 * 1) with 1 in Q1, Q2 by (cbn; ring). cbn [iter_step spec_of] in Q1, Q2.
  eexists p, _, _, cell01, flow4, phi, z, phi2, pl', pl2', _, _, phi', _, _, phi2'. split; [reflexivity|].
  split; [apply pl0_ok|]. split; [intros i j _ _; reflexivity|]. split; [apply pl0_ok|]. split; [intros i j _ _; reflexivity|].
  split; [rewrite !coef10; apply C_eq; unfold rowsum, flow4, co4, z; cbn [re im]; ring|]. split; [exact S1|]. split; [exact Q1|]. split; [exact S2|]. split; [exact Q2|].
  set (J := jacobian 4 4 1 phi cell01). set (J2 := jacobian 4 4 1 phi2 cell01).
  assert (E1 : forall i j, fst (euler (hw_rhs p 4 4 1) 1 (cell01, flow4)) i j = cell01 i j - J i j).
  { intros i j. change (cell01 i j + 1 * (0 * coupling p 4 phi cell01 i j - 1 * J i j - 0 * cdy 4 1 phi i j + (-1) ^ 2 * 0 * lap_iter 1 4 4 1 cell01 i j) = cell01 i j - J i j). ring. }
  assert (E2 : forall i j, fst (euler (hw_rhs p 4 4 1) 1 (cell01, z)) i j = cell01 i j - J2 i j).
  { intros i j. change (cell01 i j + 1 * (0 * coupling p 4 phi2 cell01 i j - 1 * J2 i j - 0 * cdy 4 1 phi2 i j + (-1) ^ 2 * 0 * lap_iter 1 4 4 1 cell01 i j) = cell01 i j - J2 i j). ring. }
  set (c := 4 / PI ^ 2). assert (Q : 0 < c) by (apply Rdiv_lt_0_compat; [lra|apply pow_lt, PI_RGT_0]).
  assert (K : forall i j, (i < 4)%nat -> (j < 4)%nat -> J i j = jacobian 4 4 1 (fun _ j => - c * co4 j) cell01 i j).
  { intros i j Hi Hj. apply (jac_ext 4 4 1 Hy Hy H1 _ cell01 (fun _ j => - c * co4 j) cell01 flow_value (fun _ _ _ _ => eq_refl) i j). }
  assert (K2 : forall i j, (i < 4)%nat -> (j < 4)%nat -> J2 i j = 0).
  { intros i j Hi Hj. unfold J2. rewrite (jac_ext 4 4 1 Hy Hy H1 phi2 cell01 z cell01 (fun i j Hi Hj => invlap_const 4 4 1 0 i j Hy Hy H1 Hi Hj) (fun _ _ _ _ => eq_refl) i j).
    unfold jacobian, jac_pp, jac_px, jac_xp, z. field. }
  intros E. rewrite !coef10 in E. apply (f_equal im) in E. cbn [im] in E. unfold rowsum in E. rewrite !E1, !E2 in E. rewrite !K, !K2 in E by lia.
  unfold jacobian, jac_pp, jac_px, jac_xp in E.
  change (sh 4 0 1) with 1%nat in E. change (sh 4 1 1) with 2%nat in E. change (sh 4 2 1) with 3%nat in E. change (sh 4 3 1) with 0%nat in E.
  change (sh 4 0 (-1)) with 3%nat in E. change (sh 4 1 (-1)) with 0%nat in E. change (sh 4 2 (-1)) with 1%nat in E. change (sh 4 3 (-1)) with 2%nat in E.
  change (sh 4 0 0) with 0%nat in E. change (sh 4 1 0) with 1%nat in E. change (sh 4 2 0) with 2%nat in E. change (sh 4 3 0) with 3%nat in E.
  cbn [co4 cell01] in E. lra.
Qed.
Print Assumptions C141_bracket_refuted.
Example C141_case : let p := mkPar 3 1 0.1 0 1 true in ppb p = 0 /\
  plasma_ok true 4 4 (pl0 4 4 row0 flow4 (invlap 4 4 1 flow4) 0) row0 flow4 (invlap 4 4 1 flow4) 0 /\
  plasma_ok true 4 4 (pl0 4 4 cell01 row0 (invlap 4 4 1 row0) 0) cell01 row0 (invlap 4 4 1 row0) 0 /\
  coefficient 4 4 1 0 row0 = mkC 4 0 /\ coefficient 4 4 1 0 (fun i j => 4 * cell01 i j) = mkC 4 0 /\ combined 2 3 row0 cell01 0 1 = 5.
Proof.
  cbv zeta. cbn [ppb]. split; [reflexivity|]. split; [apply pl0_ok|]. split; [apply pl0_ok|]. rewrite !coef10. unfold rowsum, row0, cell01, combined.
  split; [apply C_eq; cbn; ring|]. split; [apply C_eq; cbn; ring|ring].
Qed.
