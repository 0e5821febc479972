(** Property C146: the unit of length. *)
From Coq Require Import List Arith ZArith Lia Bool Reals Lra Psatz String FunctionalExtensionality.
From Verif Require Import Num NdArray NdFacts Spec GradFacts SumFacts LapFacts Cplx SpecFourier DftFacts ModelHW ModelBackend SpecHW SpecPlasma HWFacts StepFacts RhsFacts HWProps
  BalanceWit PoissonRound SpecZonal ZonalFacts SpecScale ScaleFacts SpecLength PropAdvect PropScale.
Import ListNotations.
Local Open Scope R_scope.

Section L.
Variables (ny nx : nat) (dx s : R).
Hypothesis Hd : dx <> 0.
Hypothesis Hs : s <> 0.
Hypothesis Hy : (0 < ny)%nat.
Hypothesis Hx : (0 < nx)%nat.
Lemma le_invlap f i j : invlap ny nx (s * dx) f i j = s ^ 2 * invlap ny nx dx f i j.
Proof.
  unfold invlap. change (s ^ 2 * re ?z) with (re (Cscal (s ^ 2) z)). f_equal. rewrite <- idft2_scal. apply idft2_ext. intros k l _ _.
  destruct ((k =? 0)%nat && (l =? 0)%nat)%bool; [apply C_eq; cbn; ring|]. rewrite Cscal_Cscal. f_equal. unfold lap_symbol.
  assert (A : INR ny <> 0) by (apply not_0_INR; lia). assert (B : INR nx <> 0) by (apply not_0_INR; lia).
  set (u := 2 * PI * IZR (sfreq ny k)). set (v := 2 * PI * IZR (sfreq nx l)).
  replace (- ((u / (INR ny * (s * dx))) ^ 2 + (v / (INR nx * (s * dx))) ^ 2)) with (/ s ^ 2 * (- ((u / (INR ny * dx)) ^ 2 + (v / (INR nx * dx)) ^ 2))) by (field; repeat split; assumption).
  rewrite Rinv_mult. rewrite Rinv_inv. reflexivity.
Qed.
Lemma le_lap m f i j : (s ^ 2) ^ m * lap_iter m ny nx (s * dx) f i j = lap_iter m ny nx dx f i j.
Proof.
  revert i j. induction m as [|m IH]; intros i j; cbn [lap_iter]; [cbn; ring|]. unfold lap5. rewrite <- !IH. cbn [nadd nsub nmul ndiv nofZ npow NumR pow]. cbn. field; repeat split; assumption || lra.
Qed.
Lemma le_jac f g i j : jacobian ny nx (s * dx) (fun i j => s ^ 2 * f i j) g i j = jacobian ny nx dx f g i j.
Proof. unfold jacobian, jac_pp, jac_px, jac_xp. field; repeat split; assumption || lra. Qed.
Lemma le_cdy f i j : cdy ny (s * dx) (fun i j => s ^ 2 * f i j) i j = s * cdy ny dx f i j.
Proof. unfold cdy. cbn [nadd nsub nmul ndiv nofZ NumR]. field. repeat split; assumption || lra. Qed.
Lemma le_rhs p q : resized s p q -> pc1 p = 0 -> hw_rhs q ny nx (s * dx) = hw_rhs p ny nx dx.
Proof.
  intros (E1 & E2 & E3 & E4 & E5 & E6) Z. extensionality y. unfold hw_rhs.
  replace (invlap ny nx (s * dx) (snd y)) with (fun i j => s ^ 2 * invlap ny nx dx (snd y) i j) by (extensionality i; extensionality j; symmetry; apply le_invlap).
  f_equal; extensionality i; extensionality j; unfold rhs_n, rhs_o, hyper; rewrite le_jac, E1, E3, E4, E5, Z, <- (le_lap (pN p)), <- ?E6.
  - rewrite le_cdy. ring.
  - ring.
Qed.
End L.

(** Without coupling, a grid s times as wide with viscosity and background
    gradient in the new unit gives the same density and vorticity, and a
    potential s^2 times as large. *)
Theorem C146_length ny nx dx s : (0 < ny)%nat -> (0 < nx)%nat -> dx <> 0 -> s <> 0 -> forall b dx0 test, backend_ok ny nx b ->
  forall step p q pl pl2 n o phi phi2 t t2 dt m, step = rk4_step \/ step = euler_step -> resized s p q -> pc1 p = 0 ->
  plasma_ok test ny nx pl n o phi t -> agree ny nx phi (invlap ny nx dx o) -> plasma_ok test ny nx pl2 n o phi2 t2 -> agree ny nx phi2 (fscale (s ^ 2) phi) ->
  exists pl' pl2' n' o' phi' phi2',
    snd (steps (fun pl => step (hw_of b p dx0 test) pl dt dx) m pl) = Ok pl' /\ plasma_ok test ny nx pl' n' o' phi' (t + INR m * dt) /\
    snd (steps (fun pl => step (hw_of b q dx0 test) pl dt (s * dx)) m pl2) = Ok pl2' /\ plasma_ok test ny nx pl2' n' o' phi2' (t2 + INR m * dt) /\
    agree ny nx phi2' (fscale (s ^ 2) phi').
Proof.
  intros Hy Hx Hd Hs b dx0 test Hb step p q pl pl2 n o phi phi2 t t2 dt m St Rz C P A P2 A2. destruct (code_e step St) as [e ->].
  assert (Hsd : s * dx <> 0) by (now apply Rmult_integral_contrapositive_currified).
  assert (B2 : agree ny nx phi2 (invlap ny nx (s * dx) o)).
  { intros i j Hi Hj. rewrite A2 by assumption. unfold fscale. rewrite A by assumption. symmetry. now apply le_invlap. }
  destruct (traj ny nx dx Hy Hx Hd b dx0 test Hb e p pl n o phi t dt m P A) as (pl' & phi' & S1 & Q1 & F1).
  destruct (traj ny nx (s * dx) Hy Hx Hsd b dx0 test Hb e q pl2 n o phi2 t2 dt m P2 B2) as (pl2' & phi2' & S2 & Q2 & F2).
  rewrite (le_rhs ny nx dx s Hd Hs Hy Hx p q Rz C) in Q2, F2.
  eexists pl', pl2', _, _, phi', phi2'. split; [exact S1|]. split; [exact Q1|]. split; [exact S2|]. split; [exact Q2|].
  intros i j Hi Hj. unfold fscale. rewrite F1, F2 by assumption. now apply le_invlap.
Qed.
Print Assumptions C146_length.
(** With coupling the length is fixed: c1 compares the potential with the
    density. *)
Theorem C146_coupled_refuted : exists p q pl pl2 n o phi phi2 pl' pl2' n' o' phi' n2 o2 phi2',
  resized 2 p q /\ pc1 p = 1 /\
  plasma_ok true 4 4 pl n o phi 0 /\ agree 4 4 phi (invlap 4 4 1 o) /\ plasma_ok true 4 4 pl2 n o phi2 0 /\ agree 4 4 phi2 (fscale (2 ^ 2) phi) /\
  snd (steps (fun pl => euler_step (hw_of np_backend p 1 true) pl 1 1) 1 pl) = Ok pl' /\ plasma_ok true 4 4 pl' n' o' phi' 1 /\
  snd (steps (fun pl => euler_step (hw_of np_backend q 1 true) pl 1 (2 * 1)) 1 pl2) = Ok pl2' /\ plasma_ok true 4 4 pl2' n2 o2 phi2' 1 /\
  n2 0%nat 0%nat <> n' 0%nat 0%nat.
Proof.
  set (p := mkPar 1 1 0 0 0 false). set (phi := invlap 4 4 1 flow4). set (phi2 := invlap 4 4 (2 * 1) flow4).
  assert (Hy : (0 < 4)%nat) by lia. assert (H1 : (1 : R) <> 0) by lra. assert (H2 : 2 * 1 <> 0) by lra. assert (H3 : (2 : R) <> 0) by lra. assert (Hb : backend_ok 4 4 np_backend) by now left.
  destruct (traj 4 4 1 Hy Hy H1 np_backend 1 true Hb true p (pl0 4 4 flow4 flow4 phi 0) flow4 flow4 phi 0 1 1 (pl0_ok _ _ _ _ _ _ _) (fun _ _ _ _ => eq_refl)) as (pl' & phi' & S1 & Q1 & _).
  destruct (traj 4 4 (2 * 1) Hy Hy H2 np_backend 1 true Hb true p (pl0 4 4 flow4 flow4 phi2 0) flow4 flow4 phi2 0 1 1 (pl0_ok _ _ _ _ _ _ _) (fun _ _ _ _ => eq_refl)) as (pl2' & phi2' & S2 & Q2 & _).
  replace (0 + INR 1 * 1) with 1 in Q1, Q2 by (cbn; ring). cbn [iter_step spec_of] in Q1, Q2.
  eexists p, p, _, _, flow4, flow4, phi, phi2, pl', pl2', _, _, phi', _, _, phi2'.
  split; [repeat split; cbn; ring|]. split; [reflexivity|]. split; [apply pl0_ok|]. split; [intros i j _ _; reflexivity|]. split; [apply pl0_ok|].
  split; [intros i j _ _; unfold phi2, fscale; apply le_invlap; assumption|]. split; [exact S1|]. split; [exact Q1|]. split; [exact S2|]. split; [exact Q2|].
  assert (E : forall d, fst (euler (hw_rhs p 4 4 d) 1 (flow4, flow4)) 0%nat 0%nat = invlap 4 4 d flow4 0%nat 0%nat).
  { intros d. set (g := invlap 4 4 d flow4). change (flow4 0%nat 0%nat + 1 * (1 * (g 0%nat 0%nat - flow4 0%nat 0%nat) - 0 * jacobian 4 4 d g flow4 0 0 - 0 * cdy 4 d g 0 0 + (-1) ^ 2 * 0 * lap_iter 1 4 4 d flow4 0 0) = g 0%nat 0%nat). ring. }
  rewrite !E, le_invlap by assumption. change flow4 with (fun _ j : nat => co4 j). rewrite flow_value by lia. cbn [co4].
  assert (Q : 0 < 4 / PI ^ 2) by (apply Rdiv_lt_0_compat; [lra|apply pow_lt, PI_RGT_0]). lra.
Qed.
Print Assumptions C146_coupled_refuted.
(** a doubled box: all terms but the coupling, N = 2 *)
Example C146_case : resized 2 (mkPar 2 0 1 1 1 false) (mkPar 2 0 16 1 (1 / 2) false) /\
  plasma_ok true 4 4 (pl0 4 4 row0 flow4 (invlap 4 4 1 flow4) 0) row0 flow4 (invlap 4 4 1 flow4) 0 /\ invlap 4 4 1 flow4 0%nat 0%nat <> 0.
Proof.
  split; [repeat split; cbn; lra|]. split; [apply pl0_ok|]. change flow4 with (fun _ j : nat => co4 j). rewrite flow_value by lia. cbn [co4].
  assert (Q : 0 < 4 / PI ^ 2) by (apply Rdiv_lt_0_compat; [lra|apply pow_lt, PI_RGT_0]). lra.
Qed.
