(** Property C147: without a background gradient nothing grows. *)
From Coq Require Import List Arith ZArith Lia Bool Reals Lra Psatz String.
From Verif Require Import Num NdArray Spec SpecFourier SpecHW SpecPlasma SpecAccount ModelHW ModelBackend
  SpecIdeal BalanceWit HwExist AccountOde HWProps StepProps BalanceProps IdealFacts IdealProps DecayFacts.
Import ListNotations.
Local Open Scope R_scope.

(** Exact solutions with kappa = 0, c1 >= 0, nu >= 0: the energy never
    increases; the enstrophy does not either, for every c1.  Any bracket
    coefficient, any order of hyper-diffusion, with or without the zonal form of
    the coupling. *)
Theorem C147_solution p ny nx dx Y T :
  (0 < ny)%nat -> (0 < nx)%nat -> dx <> 0 -> pkap p = 0 -> 0 <= pnu p -> hw_solution p ny nx dx Y T ->
  (0 <= pc1 p -> forall s t, 0 <= s -> s <= t -> t <= T -> energy ny nx dx (Y t) <= energy ny nx dx (Y s)) /\
  (forall s t, 0 <= s -> s <= t -> t <= T -> enstrophy ny nx (Y t) <= enstrophy ny nx (Y s)).
Proof.
  intros Hy Hx Hd Ek Hn HY. split; [intros Hc|].
  - apply (visc_solution p ny nx dx (gE ny nx dx) (energy ny nx dx) Y T (wf_gE ny nx dx Hy Hx Hd) (gE_eq ny nx dx)); [|exact HY].
    intros y. now apply decay_E.
  - apply (visc_solution p ny nx dx gU (enstrophy ny nx) Y T (wf_gU ny nx) (gU_eq ny nx)); [|exact HY].
    intros y. now apply decay_U.
Qed.
(** Runge-Kutta steps of the code up to any fixed time: what they add to either
    is at most of fourth order in the step. *)
Theorem C147_rk4 b p dx0 test ny nx dx n o T :
  (0 < ny)%nat -> (0 < nx)%nat -> dx <> 0 -> backend_ok ny nx b -> pkap p = 0 -> 0 <= pnu p -> 0 <= T ->
  exists C h0, 0 <= C /\ 0 < h0 /\ forall pl phi a dt k,
    plasma_ok test ny nx pl n o phi a -> agree ny nx phi (invlap ny nx dx o) -> 0 < dt <= h0 -> INR k * dt <= T ->
    exists pl' n' o' phi', snd (steps (fun pl => rk4_step (hw_of b p dx0 test) pl dt dx) k pl) = Ok pl' /\
      plasma_ok test ny nx pl' n' o' phi' (a + INR k * dt) /\ agree ny nx phi' (invlap ny nx dx o') /\
      (0 <= pc1 p -> energy ny nx dx (n', o') <= energy ny nx dx (n, o) + C * dt ^ 4) /\
      enstrophy ny nx (n', o') <= enstrophy ny nx (n, o) + C * dt ^ 4.
Proof.
  intros Hy Hx Hd Hb Ek Hn HT.
  assert (GE : exists C h0, 0 <= C /\ 0 < h0 /\ forall dt k, 0 < dt <= h0 -> INR k * dt <= T -> 0 <= pc1 p ->
    energy ny nx dx (iter_step (rk4 (hw_rhs p ny nx dx) dt) k (n, o)) <= energy ny nx dx (n, o) + C * dt ^ 4).
  { destruct (Rle_dec 0 (pc1 p)) as [Hc|Hc].
    - destruct (decay_rk4 p ny nx dx Hy Hx Hd (gE ny nx dx) (energy ny nx dx) (n, o) T (wf_gE ny nx dx Hy Hx Hd) (gE_eq ny nx dx)
        (fun y => decay_E p ny nx dx Hy Hx Hd y Ek Hc Hn) HT) as (C & h0 & H1 & H2 & H3).
      exists C, h0. split; [exact H1|]. split; [exact H2|]. intros. now apply H3.
    - exists 0, 1. split; [lra|]. split; [lra|]. intros. contradiction. }
  destruct GE as (C1 & h1 & P1 & Q1 & G1).
  destruct (decay_rk4 p ny nx dx Hy Hx Hd gU (enstrophy ny nx) (n, o) T (wf_gU ny nx) (gU_eq ny nx)
        (fun y => decay_U p ny nx dx Hy Hx Hd y Ek Hn) HT) as (C2 & h2 & P2 & Q2 & G2).
  exists (C1 + C2), (Rmin h1 h2). split; [lra|]. split; [now apply Rmin_glb_lt|].
  intros pl phi a dt k Hpl Hphi [Hdt Hm] Hk.
  assert (0 < dt <= h1) by (split; [lra|eapply Rle_trans; [exact Hm|apply Rmin_l]]).
  assert (0 < dt <= h2) by (split; [lra|eapply Rle_trans; [exact Hm|apply Rmin_r]]).
  destruct (c19 b p dx0 test ny nx dx Hy Hx Hd Hb pl n o phi a dt k Hpl Hphi) as (pl' & phi' & R1 & R2 & R3 & _).
  eexists pl', _, _, phi'. split; [exact R1|]. split; [exact R2|]. split; [exact R3|]. rewrite <- surjective_pairing.
  assert (P : 0 <= dt ^ 4) by (apply pow_le; lra).
  split; [intros Hc; pose proof (G1 dt k ltac:(assumption) Hk Hc)|pose proof (G2 dt k ltac:(assumption) Hk)]; nra.
Qed.

(** With a gradient both can grow, coupling and viscosity switched off. *)
Theorem C147_gradient_refuted :
  ~ (forall p Y T, 0 <= pc1 p -> 0 <= pnu p -> hw_solution p 4 4 1 Y T ->
     forall t, 0 <= t -> t <= T -> energy 4 4 1 (Y t) <= energy 4 4 1 (Y 0)) /\
  ~ (forall p Y T, 0 <= pc1 p -> 0 <= pnu p -> hw_solution p 4 4 1 Y T ->
     forall t, 0 <= t -> t <= T -> enstrophy 4 4 (Y t) <= enstrophy 4 4 (Y 0)).
Proof.
  destruct (hw_exists pgr 4 4 1) as (K & _ & Ex); [lia|lia|lra|].
  destruct (Ex (ngr, cw 1 0) 1) as (Y & HY & Y0 & _); [lra|].
  split; intros H; specialize (H pgr Y 1 (Rle_refl 0) (Rle_refl 0) HY).
  - destruct (grows pgr 4 4 1 (gE 4 4 1) (energy 4 4 1) Y 1 (wf_gE 4 4 1 ltac:(lia) ltac:(lia) R1_neq_R0) (gE_eq 4 4 1) HY) as (t & Ht & G); [lra| |].
    + rewrite Y0. rewrite rateE by (first [lia|lra]). exact grow_E.
    + specialize (H t ltac:(lra) ltac:(lra)). lra.
  - destruct (grows pgr 4 4 1 gU (enstrophy 4 4) Y 1 (wf_gU 4 4) (gU_eq 4 4) HY) as (t & Ht & G); [lra| |].
    + rewrite Y0. rewrite (rateU pgr 4 4 1). exact grow_U.
    + specialize (H t ltac:(lra) ltac:(lra)). lra.
Qed.
(** One Euler step of the code can raise the energy even then. *)
Theorem C147_euler_refuted :
  ~ (forall p n o phi dt pl', 0 <= pc1 p -> 0 <= pnu p -> pkap p = 0 -> agree 4 4 phi (invlap 4 4 1 o) ->
     snd (euler_step (hw_of np_backend p 1 false) (pl0 4 4 n o phi 0) dt 1) = Ok pl' ->
     forall n' o', ns_get pl' "density" = Ok (grid 4 4 n') -> ns_get pl' "omega" = Ok (grid 4 4 o') ->
     energy 4 4 1 (n', o') <= energy 4 4 1 (n, o)).
Proof.
  intros H. destruct (c19_euler np_backend pid 1 false 4 4 1 ltac:(lia) ltac:(lia) R1_neq_R0 (or_introl eq_refl)
    (pl0 4 4 (cw 1 0) (cw 0 1) phi4 0) (cw 1 0) (cw 0 1) phi4 0 1 1 (pl0_ok _ _ _ _ _ _ _) (fun i j _ _ => eq_refl)) as (pl' & phi' & E & P & _).
  cbn [iter_step steps] in E, P.
  assert (En : snd (euler_step (hw_of np_backend pid 1 false) (pl0 4 4 (cw 1 0) (cw 0 1) phi4 0) 1 1) = Ok pl').
  { destruct (euler_step (hw_of np_backend pid 1 false) (pl0 4 4 (cw 1 0) (cw 0 1) phi4 0) 1 1) as [l [r|x]]; cbn in E |- *; congruence. }
  assert (G := H pid (cw 1 0) (cw 0 1) phi4 1 pl' (Rle_refl 0) (Rle_refl 0) eq_refl (fun i j _ _ => eq_refl) En _ _ (po_n _ _ _ _ _ _ _ _ P) (po_o _ _ _ _ _ _ _ _ P)).
  rewrite <- surjective_pairing in G. pose proof strict_gain as Sg.
  pose proof (steady_euler pid 4 4 1 (kinetic 4 4 1) 1 (cw 1 0, cw 0 1) 1
    (full_steady pid 4 4 1 ltac:(lia) ltac:(lia) ltac:(lra) (kinetic 4 4 1) eq_refl eq_refl eq_refl (fu_flow 4 4 1 _ (fi_kin 4 4 1)))) as Kn.
  cbn [iter_step along] in Kn. pose proof (kin_pos 4 4 1 ltac:(lia) ltac:(lia) ltac:(lra) (hw_rhs pid 4 4 1 (cw 1 0, cw 0 1))) as Kp.
  rewrite pow1 in Kn.
  assert (X : forall y, energy 4 4 1 y = (mean_nn 4 4 y + kinetic 4 4 1 y) / 2).
  { intros y. unfold energy, spec_energy, mean_nn, kinetic. lra. }
  rewrite !X in G. lra.
Qed.

(** the hypotheses hold with all terms but the gradient switched on *)
Example C147_case : let p := pW 1 1 1 0 true in
  pkap p = 0 /\ 0 < pnu p /\ 0 < pc1 p /\ 0 < ppb p /\
  plasma_ok false 4 4 (pl0 4 4 (cw 1 0) (cw 0 1) phi4 0) (cw 1 0) (cw 0 1) phi4 0 /\ agree 4 4 phi4 (invlap 4 4 1 (cw 0 1)) /\
  jacobian 4 4 1 phi4 (cw 1 0) 1 1 = - / (PI / 2) ^ 2 /\
  exists Y, hw_solution p 4 4 1 Y 1 /\ Y 0 = (cw 1 0, cw 0 1).
Proof.
  cbv zeta. split; [reflexivity|]. cbn [pW pnu pc1 ppb]. do 3 (split; [lra|]). split; [apply pl0_ok|].
  split; [intros i j _ _; reflexivity|]. split; [exact bracket_value|].
  destruct (hw_exists (pW 1 1 1 0 true) 4 4 1) as (K & _ & E); [lia|lia|lra|]. destruct (E (cw 1 0, cw 0 1) 1) as (Y & H1 & H2 & _); [lra|]. eauto.
Qed.

Print Assumptions C147_solution.
Print Assumptions C147_rk4.
Print Assumptions C147_gradient_refuted.
Print Assumptions C147_euler_refuted.
