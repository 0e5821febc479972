(** Property C135: the step size limit of advection by a steady flow. *)
From Coq Require Import List Arith ZArith Lia Bool Reals Lra Psatz String.
From Verif Require Import Num NdArray NdFacts ModelArakawa ArakawaFacts Spec SumFacts SpecWave WaveHW Cplx ModelHW ModelBackend SpecHW SpecPlasma HWFacts StepFacts RhsFacts HWProps PoissonFacts PoissonProps PoissonRound
  BalanceWit SpecZonal SpecAdvect AdvectTop.
Import ListNotations.
Local Open Scope R_scope.

(** The bracket with a field whose values differ by at most D is bounded by
    D / dx^2. *)
Theorem C135_bracket_norm ny nx dx : (0 < ny)%nat -> (0 < nx)%nat -> dx <> 0 -> forall D f g h, 0 <= D -> spread ny nx D f ->
  np_periodic_arakawa_vec (Ok (grid ny nx f)) (Ok (grid ny nx g)) dx = Ok (grid ny nx h) ->
  inner ny nx h h <= (D / dx ^ 2) ^ 2 * inner ny nx g g.
Proof. exact (c135_bracket ny nx dx). Qed.
Print Assumptions C135_bracket_norm.
(** Flows that do not change: vorticities with identical rows, and single
    waves when there is no background gradient. *)
Theorem C135_steady_rows ny nx dx : (0 < ny)%nat -> (0 < nx)%nat -> dx <> 0 -> forall p o, xonly ny nx o -> steady_flow p ny nx dx o.
Proof. exact (steady_zonal ny nx dx). Qed.
Theorem C135_steady_wave ny nx dx : (0 < ny)%nat -> (0 < nx)%nat -> dx <> 0 -> forall p k l z o, pkap p = 0 -> fits ny nx k l ->
  agree ny nx o (pwave ny nx k l z) -> steady_flow p ny nx dx o.
Proof. exact (steady_wave ny nx dx). Qed.
Print Assumptions C135_steady_wave.
(** Without coupling and viscosity an RK4 step leaves such a flow alone, and
    changes the mean square of the density by exactly this ... *)
Theorem C135_rk4_change ny nx dx : (0 < ny)%nat -> (0 < nx)%nat -> dx <> 0 -> forall b dx0 test, backend_ok ny nx b ->
  forall p o, pc1 p = 0 -> pnu p = 0 -> steady_flow p ny nx dx o -> let flow := invlap ny nx dx o in
  forall pl n phi a dt, plasma_ok test ny nx pl n o phi a -> agree ny nx phi flow ->
  exists pl' n', snd (rk4_step (hw_of b p dx0 test) pl dt dx) = Ok pl' /\ plasma_ok test ny nx pl' n' o phi (a + dt) /\
    msq ny nx n' = msq ny nx n - dt ^ 6 * ppb p ^ 6 / 72 * msq ny nx (brackets 3 ny nx dx flow n)
                   + dt ^ 8 * ppb p ^ 8 / 576 * msq ny nx (brackets 4 ny nx dx flow n).
Proof. exact (c135_rk4 ny nx dx). Qed.
Print Assumptions C135_rk4_change.
(** ... and an Euler step by this, which is never a decrease. *)
Theorem C135_euler_change ny nx dx : (0 < ny)%nat -> (0 < nx)%nat -> dx <> 0 -> forall b dx0 test, backend_ok ny nx b ->
  forall p o, pc1 p = 0 -> pnu p = 0 -> steady_flow p ny nx dx o -> let flow := invlap ny nx dx o in
  forall pl n phi a dt, plasma_ok test ny nx pl n o phi a -> agree ny nx phi flow ->
  exists pl' n', snd (euler_step (hw_of b p dx0 test) pl dt dx) = Ok pl' /\ plasma_ok test ny nx pl' n' o phi (a + dt) /\
    msq ny nx n' = msq ny nx n + dt ^ 2 * ppb p ^ 2 * msq ny nx (brackets 1 ny nx dx flow n).
Proof. exact (c135_euler ny nx dx). Qed.
Print Assumptions C135_euler_change.
(** With dt |poisson_bracket_coeff| (max phi - min phi) / dx^2 at most 2 sqrt 2
    any number of RK4 steps does not increase the mean square ... *)
Theorem C135_rk4_contracts ny nx dx : (0 < ny)%nat -> (0 < nx)%nat -> dx <> 0 -> forall b dx0 test, backend_ok ny nx b ->
  forall p o, pc1 p = 0 -> pnu p = 0 -> steady_flow p ny nx dx o -> let flow := invlap ny nx dx o in
  forall D pl n phi a dt m, plasma_ok test ny nx pl n o phi a -> agree ny nx phi flow ->
  spread ny nx D flow -> Rabs (dt * ppb p) * D / dx ^ 2 <= 2 * sqrt 2 ->
  exists pl' n', snd (steps (fun pl => rk4_step (hw_of b p dx0 test) pl dt dx) m pl) = Ok pl' /\
    plasma_ok test ny nx pl' n' o phi (a + INR m * dt) /\ msq ny nx n' <= msq ny nx n.
Proof. exact (c135_contracts ny nx dx). Qed.
Print Assumptions C135_rk4_contracts.
(** ... and some limit there must be: beyond some dt one step increases it,
    for every density on which the flow acts. *)
Theorem C135_rk4_grows ny nx dx : (0 < ny)%nat -> (0 < nx)%nat -> dx <> 0 -> forall b dx0 test, backend_ok ny nx b ->
  forall p o, pc1 p = 0 -> pnu p = 0 -> steady_flow p ny nx dx o -> let flow := invlap ny nx dx o in
  forall pl n phi a, plasma_ok test ny nx pl n o phi a -> agree ny nx phi flow -> ppb p <> 0 -> 0 < msq ny nx (brackets 1 ny nx dx flow n) ->
  exists dt0, 0 < dt0 /\ forall dt, dt0 < dt -> exists pl' n', snd (rk4_step (hw_of b p dx0 test) pl dt dx) = Ok pl' /\
    plasma_ok test ny nx pl' n' o phi (a + dt) /\ msq ny nx n < msq ny nx n'.
Proof. exact (c135_grows ny nx dx). Qed.
Print Assumptions C135_rk4_grows.

(** one period along x in four columns, the density in the first of four rows;
    the potential varies by less than 1 and dt = 2 is within the limit *)
Definition co4 (j : nat) : R := match j with O => 1 | 2%nat => - 1 | _ => 0 end.
Definition row0 (i j : nat) : R := match i with O => 1 | _ => 0 end.
Lemma pw4 i j : (j < 4)%nat -> pwave 4 4 0 1 (mkC 1 0) i j = co4 j.
Proof.
  intros Hj. unfold pwave, phase. cbn [re im]. rewrite Rmult_0_l, Rminus_0_r, Rmult_1_l.
  replace (2 * PI * 0 / INR 4 * INR i + 2 * PI * 1 / INR 4 * INR j) with (INR j * (PI / 2)) by (cbn; field).
  destruct j as [|[|[|[|j]]]]; [| | | |lia]; cbn [co4 INR].
  - now rewrite Rmult_0_l, cos_0.
  - rewrite Rmult_1_l. apply cos_PI2.
  - replace ((1 + 1) * (PI / 2)) with PI by field. apply cos_PI.
  - replace ((1 + 1 + 1) * (PI / 2)) with (3 * (PI / 2)) by ring. apply cos_3PI2.
Qed.
Lemma flow_value i j : (i < 4)%nat -> (j < 4)%nat -> invlap 4 4 1 (fun _ j : nat => co4 j) i j = - (4 / PI ^ 2) * co4 j.
Proof.
  intros Hi Hj. rewrite (invlap_ext 4 4 1 _ (pwave 4 4 0 1 (mkC 1 0))) by (intros a c _ Hc; symmetry; now apply pw4).
  rewrite invlap_pwave; [|lia|lia|lra|repeat split; cbn; lia]. rewrite pwave_scal, pw4 by assumption. unfold ksq. f_equal. f_equal. cbn. field. apply PI_neq0.
Qed.
Lemma C135_jac : jacobian 4 4 1 (invlap 4 4 1 (fun _ j : nat => co4 j)) row0 1 1 < 0.
Proof.
  rewrite (jac_ext 4 4 1 ltac:(lia) ltac:(lia) ltac:(lra) _ row0 (fun _ j => - (4 / PI ^ 2) * co4 j) row0 flow_value (fun _ _ _ _ => eq_refl)).
  assert (Q : 0 < 4 / PI ^ 2) by (apply Rdiv_lt_0_compat; [lra|apply pow_lt, PI_RGT_0]). set (c := 4 / PI ^ 2) in *. unfold jacobian, jac_pp, jac_px, jac_xp.
  change (sh 4 1 1) with 2%nat. change (sh 4 1 (-1)) with 0%nat. change (sh 4 1 0) with 1%nat. cbn [co4 row0].
  match goal with |- ?x < 0 => replace x with (- c / 2) by field end. lra.
Qed.
Example C135_case : let o := fun _ j : nat => co4 j in let flow := invlap 4 4 1 o in let p := mkPar 1 0 0 1 1 false in
  plasma_ok true 4 4 (pl0 4 4 row0 o flow 0) row0 o flow 0 /\ steady_flow p 4 4 1 o /\ spread 4 4 1 flow /\
  Rabs (2 * ppb p) * 1 / 1 ^ 2 <= 2 * sqrt 2 /\ 0 < msq 4 4 (brackets 1 4 4 1 flow row0) /\ pc1 p = 0 /\ pnu p = 0.
Proof.
  cbv zeta. set (o := fun _ j : nat => co4 j). set (flow := invlap 4 4 1 o).
  assert (V : forall i j, (i < 4)%nat -> (j < 4)%nat -> flow i j = - (4 / PI ^ 2) * co4 j) by exact flow_value.
  pose proof PI2_3_2 as P3. assert (Q : 0 < 4 / PI ^ 2 <= 1 / 2).
  { assert (9 < PI ^ 2) by nra. assert (K : 4 / PI ^ 2 * PI ^ 2 = 4) by (field; apply PI_neq0).
    assert (0 < / PI ^ 2) by (apply Rinv_0_lt_compat; lra). split; [unfold Rdiv; lra|]. apply (Rmult_le_reg_r (PI ^ 2)); [lra|]. rewrite K. lra. }
  split; [apply pl0_ok|]. split; [apply C135_steady_rows; [lia|lia|lra|now intros ? ? _ _]|].
  assert (B : forall j, - 1 <= co4 j <= 1) by (intros [|[|[|j]]]; cbn; lra).
  split; [intros i j i' j' Hi Hj Hi' Hj'; rewrite !V by assumption; pose proof (B j); pose proof (B j'); nra|].
  split; [|split; [|split; reflexivity]].
  - cbn [ppb]. rewrite Rabs_pos_eq by lra. assert (1 <= sqrt 2) by (rewrite <- sqrt_1 at 1; apply sqrt_le_1; lra). lra.
  - unfold msq, gmean. apply Rdiv_lt_0_compat; [|cbn; lra].
    assert (N : 0 < brackets 1 4 4 1 flow row0 1 1 ^ 2).
    { cbn [brackets]. pose proof C135_jac as J. fold o in J. fold flow in J. nra. }
    eapply Rlt_le_trans; [exact N|]. apply (PoissonRound.gsum_term 4 4 (fun i j => brackets 1 4 4 1 flow row0 i j ^ 2)); [intros; apply pow2_ge_0|lia|lia].
Qed.
