(** Property C148: the gradient bounds the growth. *)
From Coq Require Import List Arith ZArith Lia Bool Reals Lra Psatz String.
From Verif Require Import Num NdArray Spec SpecFourier SpecHW SpecPlasma SpecAccount ModelHW ModelBackend
  SpecIdeal BalanceWit HwExist AccountOde HWProps StepProps BalanceProps IdealFacts IdealProps DecayFacts GrowthFacts.
Import ListNotations.
Local Open Scope R_scope.

(** Exact solutions with c1 >= 0 and nu >= 0: the energy grows at most like
    exp(|kappa| t), whatever the grid, the spacing, the bracket coefficient, the
    coupling, the viscosity and its order; the enstrophy gains at most what the
    energy is allowed to gain. *)
Theorem C148_solution p ny nx dx Y T :
  (0 < ny)%nat -> (0 < nx)%nat -> 0 < dx -> 0 <= pc1 p -> 0 <= pnu p -> hw_solution p ny nx dx Y T ->
  forall t, 0 <= t <= T ->
  energy ny nx dx (Y t) <= energy ny nx dx (Y 0) * exp (Rabs (pkap p) * t) /\
  enstrophy ny nx (Y t) <= enstrophy ny nx (Y 0) + energy ny nx dx (Y 0) * (exp (Rabs (pkap p) * t) - 1).
Proof.
  intros Hy Hx Hd Hc Hn HY t Ht. split; [now apply (sol_E p ny nx dx Hy Hx Hd Y T)|now apply (sol_U p ny nx dx Hy Hx Hd Y T)].
Qed.
(** The rates themselves: at every state the tendencies of the code raise
    energy and enstrophy by at most |kappa| times the energy per unit time. *)
Theorem C148_rates p ny nx dx y :
  (0 < ny)%nat -> (0 < nx)%nat -> 0 < dx -> 0 <= pc1 p -> 0 <= pnu p ->
  let phi := invlap ny nx dx (snd y) in let d := hw_rhs p ny nx dx y in
  gmean ny nx (fun i j => fst y i j * fst d i j - phi i j * snd d i j) <= Rabs (pkap p) * energy ny nx dx y /\
  gmean ny nx (fun i j => (fst y i j - snd y i j) * (fst d i j - snd d i j)) <= Rabs (pkap p) * energy ny nx dx y.
Proof.
  intros Hy Hx Hd Hc Hn phi d. split.
  - pose proof (growth_E p ny nx dx Hy Hx Hd y Hc Hn) as G. rewrite rateE in G by (first [assumption|lra]).
    unfold E_rate in G. rewrite mn_sub. exact G.
  - pose proof (growth_U p ny nx dx Hy Hx Hd y Hn) as G. rewrite (rateU p ny nx dx) in G. exact G.
Qed.
(** Runge-Kutta steps of the code up to any fixed time: the same bounds up to a
    term of fourth order in the step. *)
Theorem C148_rk4 b p dx0 test ny nx dx n o T :
  (0 < ny)%nat -> (0 < nx)%nat -> 0 < dx -> backend_ok ny nx b -> 0 <= pc1 p -> 0 <= pnu p -> 0 <= T ->
  exists C h0, 0 <= C /\ 0 < h0 /\ forall pl phi a dt k,
    plasma_ok test ny nx pl n o phi a -> agree ny nx phi (invlap ny nx dx o) -> 0 < dt <= h0 -> INR k * dt <= T ->
    exists pl' n' o' phi', snd (steps (fun pl => rk4_step (hw_of b p dx0 test) pl dt dx) k pl) = Ok pl' /\
      plasma_ok test ny nx pl' n' o' phi' (a + INR k * dt) /\ agree ny nx phi' (invlap ny nx dx o') /\
      energy ny nx dx (n', o') <= energy ny nx dx (n, o) * exp (Rabs (pkap p) * (INR k * dt)) + C * dt ^ 4 /\
      enstrophy ny nx (n', o') <= enstrophy ny nx (n, o) + energy ny nx dx (n, o) * (exp (Rabs (pkap p) * (INR k * dt)) - 1) + C * dt ^ 4.
Proof.
  intros Hy Hx Hd Hb Hc Hn HT. assert (Hd0 : dx <> 0) by lra.
  destruct (bounded_rk4 p ny nx dx Hy Hx Hd (gE ny nx dx) (energy ny nx dx) (n, o) T
    (fun t => energy ny nx dx (n, o) * exp (Rabs (pkap p) * t)) (wf_gE ny nx dx Hy Hx Hd0) (gE_eq ny nx dx) HT) as (C1 & h1 & P1 & Q1 & G1).
  { intros Y HY Y0 t Ht. rewrite <- Y0. now apply (sol_E p ny nx dx Hy Hx Hd Y T). }
  destruct (bounded_rk4 p ny nx dx Hy Hx Hd gU (enstrophy ny nx) (n, o) T
    (fun t => enstrophy ny nx (n, o) + energy ny nx dx (n, o) * (exp (Rabs (pkap p) * t) - 1)) (wf_gU ny nx) (gU_eq ny nx) HT) as (C2 & h2 & P2 & Q2 & G2).
  { intros Y HY Y0 t Ht. rewrite <- Y0. now apply (sol_U p ny nx dx Hy Hx Hd Y T). }
  exists (C1 + C2), (Rmin h1 h2). split; [lra|]. split; [now apply Rmin_glb_lt|].
  intros pl phi a dt k Hpl Hphi [Hdt Hm] Hk.
  assert (A1 : 0 < dt <= h1) by (split; [lra|eapply Rle_trans; [exact Hm|apply Rmin_l]]).
  assert (A2 : 0 < dt <= h2) by (split; [lra|eapply Rle_trans; [exact Hm|apply Rmin_r]]).
  destruct (c19 b p dx0 test ny nx dx Hy Hx Hd0 Hb pl n o phi a dt k Hpl Hphi) as (pl' & phi' & R1 & R2 & R3 & _).
  eexists pl', _, _, phi'. split; [exact R1|]. split; [exact R2|]. split; [exact R3|]. rewrite <- surjective_pairing.
  assert (P : 0 <= dt ^ 4) by (apply pow_le; lra).
  pose proof (G1 dt k A1 Hk) as B1. pose proof (G2 dt k A2 Hk) as B2. cbv beta in B1, B2. split; nra.
Qed.

(** The sign of the coupling matters: with c1 < 0 the energy can grow without
    any gradient. *)
Theorem C148_negative_refuted :
  ~ (forall p Y T, 0 <= pnu p -> hw_solution p 4 4 1 Y T ->
     forall t, 0 <= t <= T -> energy 4 4 1 (Y t) <= energy 4 4 1 (Y 0) * exp (Rabs (pkap p) * t)).
Proof.
  intros H. destruct (hw_exists pneg 4 4 1) as (K & _ & Ex); [lia|lia|lra|].
  destruct (Ex (nneg, cw 1 0) 1) as (Y & HY & Y0 & _); [lra|]. specialize (H pneg Y 1 (Rle_refl 0) HY).
  destruct (grows pneg 4 4 1 (gE 4 4 1) (energy 4 4 1) Y 1 (wf_gE 4 4 1 ltac:(lia) ltac:(lia) R1_neq_R0) (gE_eq 4 4 1) HY) as (t & Ht & G); [lra| |].
  - rewrite Y0. rewrite rateE by (first [lia|lra]). exact neg_E.
  - specialize (H t ltac:(lra)). change (pkap pneg) with 0 in H. rewrite Rabs_R0, Rmult_0_l, exp_0 in H. lra.
Qed.

(** the hypotheses hold with every term switched on, and for a state whose
    energy does grow *)
Example C148_case : let p := pW 1 1 1 1 true in
  0 < pnu p /\ 0 < pc1 p /\ 0 < ppb p /\ 0 < pkap p /\
  plasma_ok false 4 4 (pl0 4 4 (cw 1 0) (cw 0 1) phi4 0) (cw 1 0) (cw 0 1) phi4 0 /\ agree 4 4 phi4 (invlap 4 4 1 (cw 0 1)) /\
  (exists Y, hw_solution p 4 4 1 Y 1 /\ Y 0 = (cw 1 0, cw 0 1)) /\
  exists Y t, hw_solution pgr 4 4 1 Y 1 /\ 0 < t <= 1 /\ energy 4 4 1 (Y 0) < energy 4 4 1 (Y t).
Proof.
  cbv zeta. cbn [pW pnu pc1 ppb pkap]. do 4 (split; [lra|]). split; [apply pl0_ok|].
  split; [intros i j _ _; reflexivity|]. split.
  - destruct (hw_exists (pW 1 1 1 1 true) 4 4 1) as (K & _ & E); [lia|lia|lra|]. destruct (E (cw 1 0, cw 0 1) 1) as (Y & H1 & H2 & _); [lra|]. eauto.
  - destruct (hw_exists pgr 4 4 1) as (K & _ & Ex); [lia|lia|lra|].
    destruct (Ex (ngr, cw 1 0) 1) as (Y & HY & Y0 & _); [lra|]. exists Y.
    destruct (grows pgr 4 4 1 (gE 4 4 1) (energy 4 4 1) Y 1 (wf_gE 4 4 1 ltac:(lia) ltac:(lia) R1_neq_R0) (gE_eq 4 4 1) HY) as (t & Ht & G); [lra| |].
    + rewrite Y0. rewrite rateE by (first [lia|lra]). exact grow_E.
    + exists t. auto.
Qed.

Print Assumptions C148_solution.
Print Assumptions C148_rates.
Print Assumptions C148_rk4.
Print Assumptions C148_negative_refuted.
