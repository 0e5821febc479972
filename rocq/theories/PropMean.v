(** Property C140: constants in the fields evolve by themselves. *)
From Coq Require Import List Arith ZArith Lia Bool Reals Lra Psatz String.
From Verif Require Import Num NdArray NdFacts Spec SumFacts LapFacts GradFacts ModelHW ModelBackend SpecHW SpecPlasma HWFacts StepFacts RhsFacts HWProps BalanceWit SpecZonal ZonalFacts
  SpecMean MeanFacts SpecWave WaveDiff SpecAdvect AdvectFacts PropAdvect PropScale.
Import ListNotations.
Local Open Scope R_scope.

(** Constants c and d added to density and vorticity: after m steps the
    density has c q^m more, the vorticity d - c + c q^m more, and everything
    else, in particular the potential, is as without them. *)
Theorem C140_constants ny nx dx : (0 < ny)%nat -> (0 < nx)%nat -> dx <> 0 -> forall b dx0 test, backend_ok ny nx b ->
  forall step p pl pl2 n o phi t t2 dt m c d q, (1 <= pN p)%nat ->
  step = rk4_step /\ q = decay4 (mean_rate p * dt) \/ step = euler_step /\ q = decay1 (mean_rate p * dt) ->
  plasma_ok test ny nx pl n o phi t -> agree ny nx phi (invlap ny nx dx o) -> plasma_ok test ny nx pl2 (plus_const c n) (plus_const d o) phi t2 ->
  exists pl' pl2' n' o' phi',
    snd (steps (fun pl => step (hw_of b p dx0 test) pl dt dx) m pl) = Ok pl' /\ plasma_ok test ny nx pl' n' o' phi' (t + INR m * dt) /\
    snd (steps (fun pl => step (hw_of b p dx0 test) pl dt dx) m pl2) = Ok pl2' /\
    plasma_ok test ny nx pl2' (plus_const (c * q ^ m) n') (plus_const (d - c + c * q ^ m) o') phi' (t2 + INR m * dt).
Proof. exact (c140 ny nx dx). Qed.
Print Assumptions C140_constants.
(** The means of the fields follow the same law, whatever the fields. *)
Theorem C140_means ny nx dx : (0 < ny)%nat -> (0 < nx)%nat -> dx <> 0 -> forall b dx0 test, backend_ok ny nx b ->
  forall step p pl n o phi t dt m q, (1 <= pN p)%nat ->
  step = rk4_step /\ q = decay4 (mean_rate p * dt) \/ step = euler_step /\ q = decay1 (mean_rate p * dt) ->
  plasma_ok test ny nx pl n o phi t -> agree ny nx phi (invlap ny nx dx o) ->
  exists pl' n' o' phi', snd (steps (fun pl => step (hw_of b p dx0 test) pl dt dx) m pl) = Ok pl' /\ plasma_ok test ny nx pl' n' o' phi' (t + INR m * dt) /\
    gmean ny nx n' = gmean ny nx n * q ^ m /\ gmean ny nx o' = gmean ny nx o - gmean ny nx n + gmean ny nx n * q ^ m /\ gmean ny nx phi' = 0.
Proof. exact (c140_mean ny nx dx). Qed.
Print Assumptions C140_means.
(** With the zonal coupling nothing happens to them; with the plain coupling
    the factor is at most 1 up to c1 dt = 2.78 (Euler: 2) and larger than 1
    from 2.79 (Euler: beyond 2) on. *)
Theorem C140_factor p dt : (pzon p = true -> decay4 (mean_rate p * dt) = 1 /\ decay1 (mean_rate p * dt) = 1) /\
  (pzon p = false -> 0 <= pc1 p * dt ->
    (pc1 p * dt <= 2.78 -> Rabs (decay4 (mean_rate p * dt)) <= 1) /\ (2.79 <= pc1 p * dt -> 1.007 <= decay4 (mean_rate p * dt)) /\
    (pc1 p * dt <= 2 <-> Rabs (decay1 (mean_rate p * dt)) <= 1) /\ (0 < pc1 p * dt < 1 -> 0 < decay4 (mean_rate p * dt) < 1)).
Proof.
  unfold mean_rate. split.
  - intros ->. unfold decay4, decay1. split; field.
  - intros ->. set (z := pc1 p * dt). intros Hz. assert (E : decay4 z = growth4R (- z)) by (unfold decay4, growth4R; field). rewrite E.
    split; [intros H; apply Rabs_le; now apply growth4R_le1|]. split; [now apply growth4R_gt1|]. split.
    + unfold decay1. split; intros H; [apply Rabs_le; lra|]. pose proof (Rle_abs (- (1 - z))) as Q. rewrite Rabs_Ropp in Q. lra.
    + intros [H0 H1]. rewrite <- E. unfold decay4. assert (Z2 : 0 < z ^ 2) by nra. assert (Z3 : 0 < z ^ 3) by (cbn; nra). assert (Z4 : 0 < z ^ 4) by (cbn; nra).
      assert (z ^ 4 < z ^ 3) by (cbn in *; nra). assert (z ^ 3 < z ^ 2) by (cbn in *; nra). assert (z ^ 2 < z) by (cbn in *; nra). split; lra.
Qed.
Print Assumptions C140_factor.
(** N = 0 is different: the vorticity then also decays, so its constant is not
    d - c + c q^m. *)
Theorem C140_order_zero_refuted : exists p pl n o phi pl' n' o' phi', pN p = 0%nat /\
  plasma_ok true 4 4 pl n o phi 0 /\ agree 4 4 phi (invlap 4 4 1 o) /\
  snd (steps (fun pl => euler_step (hw_of np_backend p 1 true) pl 1 1) 1 pl) = Ok pl' /\ plasma_ok true 4 4 pl' n' o' phi' 1 /\
  gmean 4 4 o' <> gmean 4 4 o - gmean 4 4 n + gmean 4 4 n * decay1 (mean_rate p * 1).
Proof.
  set (p := mkPar 0 0 (1 / 2) 0 0 false). set (z := fun _ _ : nat => 0). set (u := fun _ _ : nat => 1). set (phi := invlap 4 4 1 u).
  assert (Hy : (0 < 4)%nat) by lia. assert (H1 : (1 : R) <> 0) by lra. assert (Hb : backend_ok 4 4 np_backend) by now left.
  destruct (traj 4 4 1 Hy Hy H1 np_backend 1 true Hb true p (pl0 4 4 z u phi 0) z u phi 0 1 1 (pl0_ok _ _ _ _ _ _ _) (fun _ _ _ _ => eq_refl))
    as (pl' & phi' & S1 & Q1 & _).
  replace (0 + INR 1 * 1) with 1 in Q1 by (cbn; ring). cbn [iter_step spec_of] in Q1.
  eexists p, _, z, u, phi, pl', _, _, phi'. split; [reflexivity|].
  split; [apply pl0_ok|]. split; [intros i j _ _; reflexivity|]. split; [exact S1|]. split; [exact Q1|].
  assert (G : forall c f, (forall i j, f i j = c) -> gmean 4 4 f = c).
  { intros c f E. unfold gmean, gsum. cbn [rsum INR]. rewrite !E. field. }
  rewrite (G (1 / 2)); [rewrite (G 1 u), (G 0 z) by reflexivity; lra|].
  intros i j. change (1 + 1 * (0 * coupling p 4 (invlap 4 4 1 u) z i j - 0 * jacobian 4 4 1 (invlap 4 4 1 u) u i j + (-1) ^ 1 * (1 / 2) * 1) = 1 / 2). field.
Qed.
Print Assumptions C140_order_zero_refuted.
Example C140_case : let p := mkPar 3 1 0.1 1 1 false in
  (1 <= pN p)%nat /\ plasma_ok true 4 4 (pl0 4 4 row0 flow4 (invlap 4 4 1 flow4) 0) row0 flow4 (invlap 4 4 1 flow4) 0 /\
  plasma_ok true 4 4 (pl0 4 4 (plus_const 2 row0) (plus_const 3 flow4) (invlap 4 4 1 flow4) 0) (plus_const 2 row0) (plus_const 3 flow4) (invlap 4 4 1 flow4) 0 /\
  decay4 (mean_rate p * 1) = 3 / 8 /\ gmean 4 4 row0 = 1 / 4.
Proof.
  cbv zeta. cbn [pN]. split; [lia|]. split; [apply pl0_ok|]. split; [apply pl0_ok|]. split.
  - unfold decay4, mean_rate. cbn. field.
  - unfold gmean, gsum. cbn [rsum INR row0]. field.
Qed.
