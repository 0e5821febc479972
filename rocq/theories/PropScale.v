(** Property C136: units of amplitude and time, and small amplitudes. *)
From Coq Require Import List Arith ZArith Lia Bool Reals Lra Psatz String.
From Verif Require Import Num NdArray NdFacts Spec SumFacts ModelHW ModelBackend SpecHW SpecPlasma HWFacts StepFacts RhsFacts HWProps BalanceWit SpecZonal ZonalFacts
  SpecScale ScaleFacts ScaleTop SpecAdvect AdvectFacts PropAdvect.
Import ListNotations.
Local Open Scope R_scope.

(** Fields a times as large, rates tau times as large, steps tau times as
    short: any number of steps gives fields a times as large. *)
Theorem C136_units ny nx dx : (0 < ny)%nat -> (0 < nx)%nat -> dx <> 0 -> forall b dx0 test, backend_ok ny nx b ->
  forall step a tau p q pl pl2 n o phi t t2 dt m, step = rk4_step \/ step = euler_step -> rescaled a tau p q ->
  plasma_ok test ny nx pl n o phi t -> agree ny nx phi (invlap ny nx dx o) -> plasma_ok test ny nx pl2 (fscale a n) (fscale a o) (fscale a phi) t2 ->
  exists pl' pl2' n' o' phi',
    snd (steps (fun pl => step (hw_of b p dx0 test) pl (tau * dt) dx) m pl) = Ok pl' /\ plasma_ok test ny nx pl' n' o' phi' (t + INR m * (tau * dt)) /\
    snd (steps (fun pl => step (hw_of b q dx0 test) pl dt dx) m pl2) = Ok pl2' /\
    plasma_ok test ny nx pl2' (fscale a n') (fscale a o') (fscale a phi') (t2 + INR m * dt).
Proof. exact (c136_units ny nx dx). Qed.
Print Assumptions C136_units.
(** Started from a times given fields, the program stays within K a^2 of a
    times what it does to them with poisson_bracket_coeff = 0; K does not
    depend on a. *)
Theorem C136_small_amplitudes ny nx dx : (0 < ny)%nat -> (0 < nx)%nat -> dx <> 0 -> forall b dx0 test, backend_ok ny nx b ->
  forall step p n o dt m, step = rk4_step \/ step = euler_step ->
  exists K, 0 <= K /\ forall a pl pl0 phi t t0, Rabs a <= 1 ->
    plasma_ok test ny nx pl (fscale a n) (fscale a o) (fscale a phi) t -> plasma_ok test ny nx pl0 n o phi t0 -> agree ny nx phi (invlap ny nx dx o) ->
    exists pl' pl0' n' o' phi' n0 o0 phi0,
      snd (steps (fun pl => step (hw_of b p dx0 test) pl dt dx) m pl) = Ok pl' /\ plasma_ok test ny nx pl' n' o' phi' (t + INR m * dt) /\
      snd (steps (fun pl => step (hw_of b (linear_part p) dx0 test) pl dt dx) m pl0) = Ok pl0' /\ plasma_ok test ny nx pl0' n0 o0 phi0 (t0 + INR m * dt) /\
      forall i j, (i < ny)%nat -> (j < nx)%nat -> Rabs (n' i j - a * n0 i j) <= K * a ^ 2 /\ Rabs (o' i j - a * o0 i j) <= K * a ^ 2.
Proof. exact (c136_small ny nx dx). Qed.
Print Assumptions C136_small_amplitudes.
(** Without the change of poisson_bracket_coeff it fails: twice the fields do
    not give twice the result (the density of one row in the flow of C135). *)
Definition flow4 : field := fun _ j => co4 j.
Theorem C136_same_bracket_refuted : exists p pl pl2 n o phi pl' pl2' n' o' phi' n2 o2 phi2,
  plasma_ok true 4 4 pl n o phi 0 /\ agree 4 4 phi (invlap 4 4 1 o) /\ plasma_ok true 4 4 pl2 (fscale 2 n) (fscale 2 o) (fscale 2 phi) 0 /\
  snd (steps (fun pl => euler_step (hw_of np_backend p 1 true) pl 1 1) 1 pl) = Ok pl' /\ plasma_ok true 4 4 pl' n' o' phi' 1 /\
  snd (steps (fun pl => euler_step (hw_of np_backend p 1 true) pl 1 1) 1 pl2) = Ok pl2' /\ plasma_ok true 4 4 pl2' n2 o2 phi2 1 /\
  n2 1%nat 1%nat <> 2 * n' 1%nat 1%nat.
Proof.
  set (p := mkPar 1 0 0 1 0 false). set (phi := invlap 4 4 1 flow4).
  assert (Hy : (0 < 4)%nat) by lia. assert (H1 : (1 : R) <> 0) by lra. assert (Hb : backend_ok 4 4 np_backend) by now left.
  assert (A2 : agree 4 4 (fscale 2 phi) (invlap 4 4 1 (fscale 2 flow4))).
  { intros i j Hi Hj. now rewrite sc_invlap. }
  destruct (traj 4 4 1 Hy Hy H1 np_backend 1 true Hb true p (pl0 4 4 row0 flow4 phi 0) row0 flow4 phi 0 1 1 (pl0_ok _ _ _ _ _ _ _) (fun _ _ _ _ => eq_refl))
    as (pl' & phi' & S1 & Q1 & _).
  destruct (traj 4 4 1 Hy Hy H1 np_backend 1 true Hb true p (pl0 4 4 (fscale 2 row0) (fscale 2 flow4) (fscale 2 phi) 0) (fscale 2 row0) (fscale 2 flow4) (fscale 2 phi) 0 1 1 (pl0_ok _ _ _ _ _ _ _) A2)
    as (pl2' & phi2 & S2 & Q2 & _).
  replace (0 + INR 1 * 1) with 1 in Q1, Q2 by (cbn; ring). cbn [iter_step spec_of] in Q1, Q2.
  eexists p, _, _, row0, flow4, phi, pl', pl2', _, _, phi', _, _, phi2.
  split; [apply pl0_ok|]. split; [intros i j _ _; reflexivity|]. split; [apply pl0_ok|]. split; [exact S1|]. split; [exact Q1|]. split; [exact S2|]. split; [exact Q2|].
  unfold euler. change (snd (fscale 2 row0, fscale 2 flow4)) with (fscale 2 flow4).
  pose proof (rhs_n_ext p 4 4 1 Hy Hy H1 (invlap 4 4 1 (fscale 2 flow4)) (fscale 2 row0) (fscale 2 phi) (fscale 2 row0)
    (fun i j Hi Hj => eq_sym (A2 i j Hi Hj)) (fun _ _ _ _ => eq_refl) 1%nat 1%nat ltac:(lia) ltac:(lia)) as R2.
  change (2 * row0 1 1 + 1 * rhs_n p 4 4 1 (invlap 4 4 1 (fscale 2 flow4)) (fscale 2 row0) 1 1
    <> 2 * (row0 1 1 + 1 * rhs_n p 4 4 1 phi row0 1 1)). rewrite R2.
  unfold rhs_n. rewrite sc_jac, sc_cdy. unfold hyper. cbn [p pN pc1 pnu ppb pkap]. fold phi.
  pose proof C135_jac as J. fold flow4 in J. fold phi in J.
  set (j := jacobian 4 4 1 phi row0 1 1) in *. unfold fscale, row0. intros E. ring_simplify in E. lra.
Qed.
Print Assumptions C136_same_bracket_refuted.
(** amplitudes halved and times in thirds *)
Example C136_case : let p := mkPar 3 1 0.1 1 1 true in let q := mkPar 3 3 0.3 6 3 true in
  rescaled (1 / 2) 3 p q /\ plasma_ok true 4 4 (pl0 4 4 row0 flow4 (invlap 4 4 1 flow4) 0) row0 flow4 (invlap 4 4 1 flow4) 0 /\
  plasma_ok true 4 4 (pl0 4 4 (fscale (1 / 2) row0) (fscale (1 / 2) flow4) (fscale (1 / 2) (invlap 4 4 1 flow4)) 0)
    (fscale (1 / 2) row0) (fscale (1 / 2) flow4) (fscale (1 / 2) (invlap 4 4 1 flow4)) 0 /\ ppb p <> 0.
Proof.
  cbv zeta. unfold rescaled. cbn [pN pzon pc1 pnu pkap ppb]. split; [repeat split; lra|]. split; [apply pl0_ok|]. split; [apply pl0_ok|lra].
Qed.
