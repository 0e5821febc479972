(** Property C151: without a gradient viscosity makes the potential vorticity uniform. *)
From Coq Require Import List Arith ZArith Lia Bool Reals Lra Psatz String.
From Verif Require Import Num NdArray Spec SpecFourier SpecHW SpecPlasma SpecAccount ModelHW ModelBackend
  SpecIdeal BalanceWit HwExist AccountOde HWProps StepProps BalanceProps IdealFacts IdealProps DecayFacts GrowthFacts
  SpecFade FadeFacts SpecMix MixFacts.
Import ListNotations.
Local Open Scope R_scope.

(** Exact solutions with kappa = 0, nu >= 0 and order N >= 1: the spread of
    n - o around its mean decays at least like
    exp(- 2 nu (4 sin(pi/max(ny,nx))^2/dx^2)^N t), for every c1 of either sign,
    every bracket coefficient and both forms of the coupling. *)
Theorem C151_solution p ny nx dx Y T :
  (0 < ny)%nat -> (0 < nx)%nat -> 0 < dx -> (1 <= pN p)%nat -> 0 <= pnu p -> pkap p = 0 -> hw_solution p ny nx dx Y T ->
  forall t, 0 <= t <= T -> spread ny nx (Y t) <= spread ny nx (Y 0) * exp (- (2 * (pnu p * slowest ny nx dx ^ pN p)) * t).
Proof. intros Hy Hx Hd HN Hn Hk. exact (sol_V p ny nx dx Hy Hx Hd HN Hn Hk Y T). Qed.
(** Runge-Kutta steps of the code: the same bound up to a term of fourth order. *)
Theorem C151_rk4 b p dx0 test ny nx dx n o T :
  (0 < ny)%nat -> (0 < nx)%nat -> 0 < dx -> backend_ok ny nx b -> (1 <= pN p)%nat -> 0 <= pnu p -> pkap p = 0 -> 0 <= T ->
  exists C h0, 0 <= C /\ 0 < h0 /\ forall pl phi a dt k,
    plasma_ok test ny nx pl n o phi a -> agree ny nx phi (invlap ny nx dx o) -> 0 < dt <= h0 -> INR k * dt <= T ->
    exists pl' n' o' phi', snd (steps (fun pl => rk4_step (hw_of b p dx0 test) pl dt dx) k pl) = Ok pl' /\
      plasma_ok test ny nx pl' n' o' phi' (a + INR k * dt) /\ agree ny nx phi' (invlap ny nx dx o') /\
      spread ny nx (n', o') <= spread ny nx (n, o) * exp (- (2 * (pnu p * slowest ny nx dx ^ pN p)) * (INR k * dt)) + C * dt ^ 4.
Proof.
  intros Hy Hx Hd Hb HN Hn Hk HT. assert (Hd0 : dx <> 0) by lra.
  destruct (bounded_rk4 p ny nx dx Hy Hx Hd (gV ny nx) (spread ny nx) (n, o) T
    (fun t => spread ny nx (n, o) * exp (- (2 * (pnu p * slowest ny nx dx ^ pN p)) * t))
    (wf_gV ny nx) (gV_eq ny nx) HT) as (C & h0 & HC & Hh & G).
  { intros Y HY Y0 t Ht. rewrite <- Y0. now apply (C151_solution p ny nx dx Y T). }
  exists C, h0. split; [exact HC|]. split; [exact Hh|]. intros pl phi a dt k Hpl Hphi Hdt Hkt.
  destruct (c19 b p dx0 test ny nx dx Hy Hx Hd0 Hb pl n o phi a dt k Hpl Hphi) as (pl' & phi' & R1 & R2 & R3 & _).
  eexists pl', _, _, phi'. split; [exact R1|]. split; [exact R2|]. split; [exact R3|]. rewrite <- surjective_pairing. now apply G.
Qed.
(** With a gradient the spread can grow. *)
Theorem C151_gradient_refuted :
  ~ (forall p Y T, (1 <= pN p)%nat -> 0 <= pnu p -> hw_solution p 4 4 1 Y T -> forall t, 0 <= t <= T ->
     spread 4 4 (Y t) <= spread 4 4 (Y 0) * exp (- (2 * (pnu p * slowest 4 4 1 ^ pN p)) * t)).
Proof.
  intros H. destruct (hw_exists pgr 4 4 1) as (K & _ & Ex); [lia|lia|lra|].
  destruct (Ex (ngr, cw 1 0) 1) as (Y & HY & Y0 & _); [lra|]. specialize (H pgr Y 1 ltac:(cbn; lia) (Rle_refl 0) HY).
  destruct (grows pgr 4 4 1 (gV 4 4) (spread 4 4) Y 1 (wf_gV 4 4) (gV_eq 4 4) HY) as (t & Ht & G); [lra| |].
  - rewrite Y0. exact grow_V.
  - specialize (H t ltac:(lra)). cbn [pgr pW pnu pN] in H. rewrite Rmult_0_l, Rmult_0_r, Ropp_0, Rmult_0_l, exp_0 in H. lra.
Qed.

(** hypotheses met with a negative coupling and a bracket that does not vanish;
    the rate of decay is positive and the spread is not zero *)
Example C151_case : let p := pW (-1) 1 1 0 false in
  (1 <= pN p)%nat /\ 0 < pnu p /\ pc1 p < 0 /\ 0 < ppb p /\ pkap p = 0 /\ slowest 4 4 1 = 2 /\
  plasma_ok false 4 4 (pl0 4 4 (cw 1 0) (cw 0 1) phi4 0) (cw 1 0) (cw 0 1) phi4 0 /\ agree 4 4 phi4 (invlap 4 4 1 (cw 0 1)) /\
  (pv (cw 1 0, cw 0 1) 0%nat 2%nat = 2 /\ pv (cw 1 0, cw 0 1) 0%nat 0%nat = 0) /\
  exists Y, hw_solution p 4 4 1 Y 1 /\ Y 0 = (cw 1 0, cw 0 1).
Proof.
  cbv zeta. cbn [pW pN pnu pc1 ppb pkap]. split; [lia|]. do 3 (split; [lra|]). split; [reflexivity|]. split.
  { unfold slowest. replace (PI / INR (Nat.max 4 4)) with (PI / 4) by (cbn [Nat.max INR]; field).
    rewrite sin_PI4. assert (Q : (1 / sqrt 2) ^ 2 = / 2).
    { unfold Rdiv. rewrite Rmult_1_l. cbn [pow]. rewrite Rmult_1_r, <- Rinv_mult, sqrt_sqrt by lra. reflexivity. }
    rewrite Q. lra. }
  split; [apply pl0_ok|]. split; [intros i j _ _; reflexivity|].
  split; [unfold pv; cbn [fst snd]; rewrite !cw10, !cw01, ?cosv0, ?cosv2; lra|].
  destruct (hw_exists (pW (-1) 1 1 0 false) 4 4 1) as (K & _ & E); [lia|lia|lra|]. destruct (E (cw 1 0, cw 0 1) 1) as (Y & H1 & H2 & _); [lra|]. eauto.
Qed.

Print Assumptions C151_solution.
Print Assumptions C151_rk4.
Print Assumptions C151_gradient_refuted.
