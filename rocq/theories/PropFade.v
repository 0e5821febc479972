(** Property C149: strong viscosity ends everything. *)
From Coq Require Import List Arith ZArith Lia Bool Reals Lra Psatz String FunctionalExtensionality.
From Verif Require Import Num NdArray Spec LapFacts RhsFacts SpecFourier SpecHW SpecPlasma SpecAccount ModelHW ModelBackend
  SpecIdeal BalanceWit HwExist OdeFacts AccountOde HWProps StepProps BalanceProps IdealFacts IdealProps SpecMean MeanFacts SymFacts HWFacts DecayFacts GrowthFacts
  SpecFade FadeFacts.
Import ListNotations.
Local Open Scope R_scope.

(** Exact solutions with c1 >= 0, nu >= 0 and order N >= 1: the energy of the
    deviations from the mean density changes at most like
    exp((|kappa| - 2 nu (4 sin(pi/max(ny,nx))^2/dx^2)^N) t). *)
Theorem C149_solution p ny nx dx Y T :
  (0 < ny)%nat -> (0 < nx)%nat -> 0 < dx -> (1 <= pN p)%nat -> 0 <= pnu p -> 0 <= pc1 p -> hw_solution p ny nx dx Y T ->
  forall t, 0 <= t <= T ->
  dev_energy ny nx dx (Y t) <= dev_energy ny nx dx (Y 0) * exp ((Rabs (pkap p) - 2 * (pnu p * slowest ny nx dx ^ pN p)) * t).
Proof. intros Hy Hx Hd HN Hn Hc. exact (sol_Q p ny nx dx Hy Hx Hd HN Hn Y T Hc). Qed.
(** So with |kappa| < 2 nu slowest^N every deviation dies out: for every level
    there is a time, depending on the initial energy only, after which every
    solution stays below it. *)
Theorem C149_dies_out p ny nx dx e E0 :
  (0 < ny)%nat -> (0 < nx)%nat -> 0 < dx -> (1 <= pN p)%nat -> 0 <= pnu p -> 0 <= pc1 p ->
  Rabs (pkap p) < 2 * (pnu p * slowest ny nx dx ^ pN p) -> 0 < e -> 0 < E0 ->
  exists t0, 0 <= t0 /\ forall Y T, hw_solution p ny nx dx Y T -> dev_energy ny nx dx (Y 0) <= E0 ->
    forall t, t0 <= t <= T -> dev_energy ny nx dx (Y t) <= e.
Proof.
  intros Hy Hx Hd HN Hn Hc Hk He H0. set (r := 2 * (pnu p * slowest ny nx dx ^ pN p) - Rabs (pkap p)). assert (Hr : 0 < r) by (unfold r; lra).
  exists (Rmax 0 (ln (E0 / e) / r)). split; [apply Rmax_l|]. intros Y T HY HE t Ht.
  pose proof (Rmax_l 0 (ln (E0 / e) / r)). pose proof (Rmax_r 0 (ln (E0 / e) / r)).
  pose proof (C149_solution p ny nx dx Y T Hy Hx Hd HN Hn Hc HY t ltac:(lra)) as S.
  replace ((Rabs (pkap p) - 2 * (pnu p * slowest ny nx dx ^ pN p)) * t) with (- (r * t)) in S by (unfold r; ring).
  assert (L : ln (E0 / e) <= r * t).
  { replace (ln (E0 / e)) with (r * (ln (E0 / e) / r)) by (field; lra). apply Rmult_le_compat_l; lra. }
  assert (X : exp (- (r * t)) <= e / E0).
  { replace (e / E0) with (exp (- ln (E0 / e))).
    - destruct (Req_dec (ln (E0 / e)) (r * t)) as [->|Hne]; [lra|left; apply exp_increasing; lra].
    - rewrite exp_Ropp, exp_ln by (apply Rdiv_lt_0_compat; lra). field. split; lra. }
  pose proof (exp_pos (- (r * t))).
  assert (dev_energy ny nx dx (Y 0) * exp (- (r * t)) <= E0 * (e / E0)); [|replace (E0 * (e / E0)) with e in * by (field; lra); lra].
  apply Rle_trans with (E0 * exp (- (r * t))); [apply Rmult_le_compat_r; lra|apply Rmult_le_compat_l; lra].
Qed.
(** Runge-Kutta steps of the code: the same bound up to a term of fourth order. *)
Theorem C149_rk4 b p dx0 test ny nx dx n o T :
  (0 < ny)%nat -> (0 < nx)%nat -> 0 < dx -> backend_ok ny nx b -> (1 <= pN p)%nat -> 0 <= pnu p -> 0 <= pc1 p -> 0 <= T ->
  exists C h0, 0 <= C /\ 0 < h0 /\ forall pl phi a dt k,
    plasma_ok test ny nx pl n o phi a -> agree ny nx phi (invlap ny nx dx o) -> 0 < dt <= h0 -> INR k * dt <= T ->
    exists pl' n' o' phi', snd (steps (fun pl => rk4_step (hw_of b p dx0 test) pl dt dx) k pl) = Ok pl' /\
      plasma_ok test ny nx pl' n' o' phi' (a + INR k * dt) /\ agree ny nx phi' (invlap ny nx dx o') /\
      dev_energy ny nx dx (n', o') <=
        dev_energy ny nx dx (n, o) * exp ((Rabs (pkap p) - 2 * (pnu p * slowest ny nx dx ^ pN p)) * (INR k * dt)) + C * dt ^ 4.
Proof.
  intros Hy Hx Hd Hb HN Hn Hc HT. assert (Hd0 : dx <> 0) by lra.
  destruct (bounded_rk4 p ny nx dx Hy Hx Hd (gQ ny nx dx) (dev_energy ny nx dx) (n, o) T
    (fun t => dev_energy ny nx dx (n, o) * exp ((Rabs (pkap p) - 2 * (pnu p * slowest ny nx dx ^ pN p)) * t))
    (wf_gQ ny nx dx Hy Hx Hd) (gQ_eq ny nx dx) HT) as (C & h0 & HC & Hh & G).
  { intros Y HY Y0 t Ht. rewrite <- Y0. now apply (C149_solution p ny nx dx Y T). }
  exists C, h0. split; [exact HC|]. split; [exact Hh|]. intros pl phi a dt k Hpl Hphi Hdt Hk.
  destruct (c19 b p dx0 test ny nx dx Hy Hx Hd0 Hb pl n o phi a dt k Hpl Hphi) as (pl' & phi' & R1 & R2 & R3 & _).
  eexists pl', _, _, phi'. split; [exact R1|]. split; [exact R2|]. split; [exact R3|]. rewrite <- surjective_pairing. now apply G.
Qed.

(** The mean density is not damped: in zonal mode a uniform density keeps its
    energy for ever. *)
Definition pfade : par := pW 1 1 1 0 true.
Lemma uniform_rest i j : fst (hw_rhs pfade 4 4 1 (fconst 1, fconst 0)) i j = 0 /\ snd (hw_rhs pfade 4 4 1 (fconst 1, fconst 0)) i j = 0.
Proof.
  assert (P : invlap 4 4 1 (fconst 0) = fconst 0).
  { replace (fconst 0) with (fadd (fscale 0 (fconst 0)) (fscale 0 (fconst 0))) at 1 by (extensionality a; extensionality c; unfold fadd, fscale, fconst; ring).
    extensionality a. extensionality c. rewrite invlap_lin by (first [lia|lra]). unfold fconst. ring. }
  cbn [hw_rhs fst snd]. rewrite P.
  assert (D1 : hyper pfade 4 4 1 (fconst 1) i j = 0).
  { unfold hyper. change (fconst 1) with (fun _ _ : nat => 1). replace (fun _ _ : nat => 1) with (plus_const 1 (fconst 0)).
    - rewrite mc_lap by (cbn; lia). exact (hyper_c0 1 1 1 0 true 4 4 i j).
    - extensionality a. extensionality c. unfold plus_const, fconst. ring. }
  pose proof (hyper_c0 1 1 1 0 true 4 4 i j : hyper pfade 4 4 1 (fconst 0) i j = 0) as D0.
  assert (Y1 : forall c, ydev 4 (fconst c) i j = 0) by (intros c; unfold ydev, yavg, fconst; cbn [rsum INR]; field).
  split; [unfold rhs_n|unfold rhs_o]; unfold coupling; cbn [pzon pfade pW]; rewrite !Y1.
  - fold pfade. rewrite D1, (cdy_const 4 1 0). unfold jacobian, jac_pp, jac_px, jac_xp, fconst. cbn [pc1 ppb pkap pfade pW]. field.
  - fold pfade. rewrite D0. unfold jacobian, jac_pp, jac_px, jac_xp, fconst. cbn [pc1 ppb pkap pfade pW]. field.
Qed.
Lemma uniform_solution T : hw_solution pfade 4 4 1 (fun _ => (fconst 1, fconst 0)) T.
Proof.
  intros t i j Ht Hi Hj. destruct (uniform_rest i j) as [A B]. split.
  - rewrite A. apply derivable_pt_lim_const.
  - rewrite B. apply derivable_pt_lim_const.
Qed.
Theorem C149_mean_refuted :
  ~ (forall p Y T, (1 <= pN p)%nat -> 0 <= pnu p -> 0 <= pc1 p -> hw_solution p 4 4 1 Y T -> forall t, 0 <= t <= T ->
     energy 4 4 1 (Y t) <= energy 4 4 1 (Y 0) * exp ((Rabs (pkap p) - 2 * (pnu p * slowest 4 4 1 ^ pN p)) * t)).
Proof.
  intros H. specialize (H pfade (fun _ => (fconst 1, fconst 0)) 1 ltac:(cbn; lia) ltac:(cbn; lra) ltac:(cbn; lra) (uniform_solution 1) 1 ltac:(lra)).
  cbv beta in H.
  assert (E : energy 4 4 1 (fconst 1, fconst 0) = 1 / 2).
  { unfold energy, spec_energy. cbn [fst snd].
    rewrite (mn_ext 4 4 (fun i j => fconst 1 i j ^ 2) (fun _ _ => 1)) by (intros; unfold fconst; ring).
    rewrite (mn_ext 4 4 (fun i j => invlap 4 4 1 (fconst 0) i j * fconst 0 i j) (fun _ _ => 0)) by (intros; unfold fconst; ring).
    rewrite !gmean_c by lia. lra. }
  rewrite E in H.
  assert (S : 0 < slowest 4 4 1).
  { unfold slowest. assert (0 < sin (PI / INR (Nat.max 4 4))).
    - pose proof PI_RGT_0. apply sin_gt_0; cbn [Nat.max INR]; lra.
    - pose proof (pow_lt _ 2 H0). lra. }
  cbn [pfade pW pkap pnu pN] in H. rewrite Rabs_R0, pow_1 in H.
  assert (exp ((0 - 2 * (1 * slowest 4 4 1)) * 1) < exp 0) by (apply exp_increasing; lra). rewrite exp_0 in *. lra.
Qed.

(** all terms switched on, and the viscosity above the threshold *)
Example C149_case : let p := pW 1 1 1 1 true in
  (1 <= pN p)%nat /\ 0 < pnu p /\ 0 < pc1 p /\ 0 < ppb p /\ 0 < pkap p /\
  Rabs (pkap p) < 2 * (pnu p * slowest 4 4 1 ^ pN p) /\
  plasma_ok false 4 4 (pl0 4 4 (cw 1 0) (cw 0 1) phi4 0) (cw 1 0) (cw 0 1) phi4 0 /\ agree 4 4 phi4 (invlap 4 4 1 (cw 0 1)) /\
  exists Y, hw_solution p 4 4 1 Y 1 /\ Y 0 = (cw 1 0, cw 0 1).
Proof.
  cbv zeta. cbn [pW pN pnu pc1 ppb pkap]. split; [lia|]. do 4 (split; [lra|]). split.
  { rewrite Rabs_R1. unfold slowest. replace (PI / INR (Nat.max 4 4)) with (PI / 4) by (cbn [Nat.max INR]; field).
    rewrite sin_PI4. assert (Q : (1 / sqrt 2) ^ 2 = / 2).
    { unfold Rdiv. rewrite Rmult_1_l. cbn [pow]. rewrite Rmult_1_r, <- Rinv_mult, sqrt_sqrt by lra. reflexivity. }
    rewrite Q. lra. }
  split; [apply pl0_ok|]. split; [intros i j _ _; reflexivity|].
  destruct (hw_exists (pW 1 1 1 1 true) 4 4 1) as (K & _ & E); [lia|lia|lra|]. destruct (E (cw 1 0, cw 0 1) 1) as (Y & H1 & H2 & _); [lra|]. eauto.
Qed.

Print Assumptions C149_solution.
Print Assumptions C149_dies_out.
Print Assumptions C149_rk4.
Print Assumptions C149_mean_refuted.
