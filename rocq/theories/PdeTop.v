(** Convergence of the code to the partial differential equations: constants
    that depend on the box, the time, the parameters and a bound of the
    derivatives only. *)
From Coquelicot Require Import Coquelicot.
From Coq Require Import List Arith ZArith Lia Bool Reals Lra Psatz String.
From Verif Require Import Num NdArray NdFacts Spec SpecFourier SpecHW SpecPlasma ModelHW ModelBackend ModelIO ModelRun ModelRunHW SpecIO SpecRun SpecRunHW
  SpecConv SpecSmooth RhsFacts HWProps OdeFacts OdeExist RkOrder StepProps RunHWFacts RunHWTop HwExist HwConv NormFacts SymbolFacts PdeStab SpecPde PdeConv.
Import ListNotations.
Local Open Scope R_scope.

Definition gbox (Ly Lx : R) : R := (2 * PI) ^ 2 / (Ly ^ 2 + Lx ^ 2).
Lemma gap_box ny nx h Ly Lx : fills ny nx h Ly Lx -> gap ny nx h = gbox Ly Lx.
Proof. intros (_ & _ & _ & <- & <-). reflexivity. Qed.
Lemma rms_dist_sq ny nx y z : (0 < ny)%nat -> (0 < nx)%nat ->
  rms_dist ny nx y z ^ 2 = nm ny nx (fsub (fst y) (fst z)) ^ 2 + nm ny nx (fsub (snd y) (snd z)) ^ 2.
Proof.
  intros Hy Hx. rewrite !nm_sq by assumption. unfold rms_dist. rewrite pow2_sqrt; [unfold msq2; now rewrite <- !ip_msq|].
  unfold msq2. rewrite <- !ip_msq. pose proof (ip_pos ny nx Hy Hx (fst (sdiff y z))). pose proof (ip_pos ny nx Hy Hx (snd (sdiff y z))). lra.
Qed.
Lemma rms_dist_pos ny nx y z : 0 <= rms_dist ny nx y z. Proof. apply sqrt_pos. Qed.
Lemma rms_dist_comp ny nx y z : (0 < ny)%nat -> (0 < nx)%nat ->
  nm ny nx (fsub (fst y) (fst z)) <= rms_dist ny nx y z /\ nm ny nx (fsub (snd y) (snd z)) <= rms_dist ny nx y z.
Proof.
  intros Hy Hx. pose proof (rms_dist_sq ny nx y z Hy Hx) as E. pose proof (rms_dist_pos ny nx y z) as P0.
  pose proof (nm_pos ny nx (fsub (fst y) (fst z))) as P1. pose proof (nm_pos ny nx (fsub (snd y) (snd z))) as P2.
  split; apply Rsqr_incr_0_var; trivial; unfold Rsqr; nra.
Qed.
Lemma rms_dist_add ny nx y z : (0 < ny)%nat -> (0 < nx)%nat ->
  rms_dist ny nx y z <= nm ny nx (fsub (fst y) (fst z)) + nm ny nx (fsub (snd y) (snd z)).
Proof.
  intros Hy Hx. pose proof (rms_dist_sq ny nx y z Hy Hx) as E. pose proof (rms_dist_pos ny nx y z) as P0.
  pose proof (nm_pos ny nx (fsub (fst y) (fst z))) as P1. pose proof (nm_pos ny nx (fsub (snd y) (snd z))) as P2.
  apply Rsqr_incr_0_var; [unfold Rsqr; nra|lra].
Qed.
Lemma rms_dist_within ny nx e y z : (0 < ny)%nat -> (0 < nx)%nat -> 0 <= e -> within ny nx e y z -> rms_dist ny nx y z <= 2 * e.
Proof.
  intros Hy Hx He H. eapply Rle_trans; [apply rms_dist_add; assumption|].
  assert (nm ny nx (fsub (fst y) (fst z)) <= e) by (apply nm_bd; try assumption; intros i j Hi Hj; now apply H).
  assert (nm ny nx (fsub (snd y) (snd z)) <= e) by (apply nm_bd; try assumption; intros i j Hi Hj; now apply H). lra.
Qed.
Lemma rms_dist_tri ny nx y z w : (0 < ny)%nat -> (0 < nx)%nat -> rms_dist ny nx y w <= 2 * (rms_dist ny nx y z + rms_dist ny nx z w).
Proof.
  intros Hy Hx. eapply Rle_trans; [apply rms_dist_add; assumption|].
  destruct (rms_dist_comp ny nx y z Hy Hx) as [A1 A2], (rms_dist_comp ny nx z w Hy Hx) as [B1 B2].
  assert (T : forall f g k, nm ny nx (fsub f k) <= nm ny nx (fsub f g) + nm ny nx (fsub g k)).
  { intros f g k. rewrite (nm_ext ny nx (fsub f k) (fadd (fsub f g) (fsub g k))) by (intros i j _ _; unfold fadd, fsub; ring). apply nm_add; assumption. }
  pose proof (T (fst y) (fst z) (fst w)). pose proof (T (snd y) (snd z) (snd w)). lra.
Qed.

Lemma exp_le x y : x <= y -> exp x <= exp y.
Proof. intros [H| ->]; [left; now apply exp_increasing|right; reflexivity]. Qed.

Section T.
Variables (p : par) (Ly Lx T M : R).
Hypothesis HLy : 0 < Ly.
Hypothesis HLx : 0 < Lx.
Hypothesis HT : 0 <= T.
Hypothesis Hnu : 0 <= pnu p.
Let A := Rabs (Ag p M (gbox Ly Lx)).
Let C0 := (1 + 2 * A * T) * exp (5 * A * T).
Lemma A_pos : 0 <= A. Proof. apply Rabs_pos. Qed.
Lemma C0_ge : 1 <= C0.
Proof.
  pose proof A_pos. assert (0 <= 2 * A * T) by (apply Rmult_le_pos; lra). assert (0 <= 5 * A * T) by (apply Rmult_le_pos; lra).
  assert (1 <= exp (5 * A * T)) by (rewrite <- exp_0; apply exp_le; assumption). unfold C0. nra.
Qed.
Lemma semi_rms Q O P ny nx h Y : pde_solution p Ly Lx T M Q O P -> fills ny nx h Ly Lx -> hw_solution p ny nx h Y T ->
  forall t, 0 <= t <= T -> rms_dist ny nx (Y t) (at_grid h Q O t) <= C0 * (rms_dist ny nx (Y 0) (at_grid h Q O 0) + h ^ 2).
Proof.
  intros HS HF HY t Ht. pose proof (gap_box _ _ _ _ _ HF) as G. destruct HF as (Hy & Hx & Hh & E1 & E2).
  assert (AA : Ag p M (gap ny nx h) = A).
  { rewrite G. unfold A. symmetry. apply Rabs_pos_eq. rewrite <- G. destruct HS as [_ _ Sp Sdt _ _]. destruct (Sp 0) as [X _]; [lra|]. destruct (Sdt 0) as (PU & QU & Z & _); [lra|].
    exact (Acon_pos p ny nx h M Hy Hx Hh _ _ (P 0) PU QU X Z). }
  rewrite <- E1, <- E2 in HS. pose proof (semi_energy p ny nx h M T Q O P Y Hy Hx Hh Hnu HT HS HY t Ht) as B. rewrite AA in B.
  pose proof A_pos as PA. pose proof C0_ge as PC. set (e0 := rms_dist ny nx (Y 0) (at_grid h Q O 0)).
  assert (P0 : 0 <= e0) by apply rms_dist_pos. assert (PH : 0 <= h ^ 2) by apply pow2_ge_0.
  assert (MP : forall s, 0 <= msq2 ny nx s) by (intros s; unfold msq2; rewrite <- !ip_msq; pose proof (ip_pos ny nx Hy Hx (fst s)); pose proof (ip_pos ny nx Hy Hx (snd s)); lra).
  assert (S0 : msq2 ny nx (sdiff (Y 0) (at_grid h Q O 0)) = e0 ^ 2) by (unfold e0, rms_dist; now rewrite pow2_sqrt).
  rewrite S0 in B. unfold rms_dist at 1. rewrite <- (sqrt_pow2 (C0 * (e0 + h ^ 2))) by (apply Rmult_le_pos; lra). apply sqrt_le_1_alt.
  apply Rle_trans with (1 := B). apply Rle_trans with (C0 * (e0 + h ^ 2) ^ 2).
  2:{ rewrite Rpow_mult_distr. apply Rmult_le_compat_r; [apply pow2_ge_0|]. nra. }
  unfold C0. set (H := h ^ 2) in *. assert (0 <= 5 * A * t) by (apply Rmult_le_pos; lra).
  assert (EX : exp (5 * A * t) <= exp (5 * A * T)) by (apply exp_le; apply Rmult_le_compat_l; lra). pose proof (exp_pos (5 * A * t)).
  assert (Hq : 0 <= H ^ 2) by apply pow2_ge_0. assert (He : 0 <= e0 ^ 2) by apply pow2_ge_0. assert (Hm : 0 <= e0 * H) by (now apply Rmult_le_pos).
  assert (PT : 0 <= 2 * A * T) by (apply Rmult_le_pos; lra).
  assert (X : e0 ^ 2 + 2 * A * H ^ 2 * t <= (1 + 2 * A * T) * (e0 + H) ^ 2).
  { assert (2 * A * H ^ 2 * t <= 2 * A * T * H ^ 2).
    { replace (2 * A * H ^ 2 * t) with (2 * A * t * H ^ 2) by ring. apply Rmult_le_compat_r; [exact Hq|]. apply Rmult_le_compat_l; lra. }
    replace ((e0 + H) ^ 2) with (e0 ^ 2 + H ^ 2 + 2 * (e0 * H)) by ring.
    assert (0 <= 2 * A * T * (e0 ^ 2)) by (now apply Rmult_le_pos). assert (0 <= 2 * A * T * (2 * (e0 * H))) by (apply Rmult_le_pos; lra). lra. }
  assert (X0 : 0 <= e0 ^ 2 + 2 * A * H ^ 2 * t).
  { assert (0 <= 2 * A * H ^ 2 * t) by (apply Rmult_le_pos; [apply Rmult_le_pos; lra|lra]). lra. }
  apply Rle_trans with ((1 + 2 * A * T) * (e0 + H) ^ 2 * exp (5 * A * T)); [|right; ring].
  apply Rmult_le_compat; lra.
Qed.

Let q := 1 + / gbox Ly Lx.
Let r := Rabs (pcon (gbox Ly Lx) M).
Let S := sqrt (Ly * Lx).
Let C1 := 2 * q * C0 + r.
Definition Cbox : R := (1 + S) * C1.
Lemma gbox_pos : 0 < gbox Ly Lx.
Proof. unfold gbox. pose proof PI_RGT_0. apply Rmult_lt_0_compat; [nra|]. apply Rinv_0_lt_compat. nra. Qed.
Lemma q_ge : 1 <= q. Proof. unfold q. pose proof (Rinv_0_lt_compat _ gbox_pos). lra. Qed.
Lemma C1_pos : 0 <= C1.
Proof. unfold C1. pose proof q_ge. pose proof C0_ge. assert (0 <= r) by apply Rabs_pos. assert (0 <= q * C0) by (apply Rmult_le_pos; lra). lra. Qed.
Lemma Cbox_pos : 0 <= Cbox.
Proof. unfold Cbox. pose proof C1_pos. assert (0 <= S) by apply sqrt_pos. apply Rmult_le_pos; lra. Qed.
Lemma point_bd ny nx h f B : fills ny nx h Ly Lx -> nm ny nx f <= B -> forall i j, (i < ny)%nat -> (j < nx)%nat -> Rabs (f i j) <= S / h * B.
Proof.
  intros (Hy & Hx & Hh & E1 & E2) HB i j Hi Hj. assert (P0 := nm_pos ny nx f).
  assert (SP : 0 <= S) by apply sqrt_pos. assert (IH : 0 < / h) by (now apply Rinv_0_lt_compat).
  assert (SH : 0 <= S / h) by (apply Rmult_le_pos; lra).
  apply Rsqr_incr_0_var; [|apply Rmult_le_pos; lra]. rewrite <- Rsqr_abs. unfold Rsqr.
  pose proof (point_nm ny nx Hy Hx f i j Hi Hj) as K.
  assert (EC : INR ny * INR nx = (S / h) ^ 2).
  { unfold Rdiv. rewrite Rpow_mult_distr. unfold S. rewrite pow2_sqrt by (apply Rmult_le_pos; lra). rewrite <- E1, <- E2. field. lra. }
  rewrite EC in K. apply Rle_trans with ((S / h) ^ 2 * nm ny nx f ^ 2); [lra|].
  replace (S / h * B * (S / h * B)) with ((S / h) ^ 2 * B ^ 2) by ring. apply Rmult_le_compat_l; [apply pow2_ge_0|]. nra.
Qed.
(** any state near the semi-discrete solution that starts at the samples *)
Lemma box_near Q O P ny nx h Y : pde_solution p Ly Lx T M Q O P -> fills ny nx h Ly Lx -> hw_solution p ny nx h Y T -> Y 0 = at_grid h Q O 0 ->
  exists C', 0 <= C' /\ forall t e y, 0 <= t <= T -> 0 <= e -> within ny nx e y (Y t) ->
    rms_dist ny nx y (at_grid h Q O t) <= Cbox * h ^ 2 + C' * e /\ within ny nx (Cbox * h + C' * e) y (at_grid h Q O t) /\
    let psi := fsub (invlap ny nx h (snd y)) (sample h (P t 0%nat 0%nat)) in
    nm ny nx psi <= Cbox * h ^ 2 + C' * e /\ forall i j, (i < ny)%nat -> (j < nx)%nat -> Rabs (psi i j) <= Cbox * h + C' * e.
Proof.
  intros HS HF HY Y0. pose proof HF as (Hy & Hx & Hh & E1 & E2). pose proof q_ge as Hq. pose proof C0_ge as HC. pose proof C1_pos as HC1.
  assert (SP : 0 <= S) by apply sqrt_pos. assert (IH : 0 < / h) by (now apply Rinv_0_lt_compat). assert (SH : 0 <= S / h) by (apply Rmult_le_pos; lra).
  exists ((1 + S / h) * (4 * q)). split; [apply Rmult_le_pos; lra|]. intros t e y Ht He Hw.
  assert (PH : 0 <= h ^ 2) by apply pow2_ge_0.
  assert (R1 : rms_dist ny nx y (at_grid h Q O t) <= 2 * C0 * h ^ 2 + 4 * e).
  { eapply Rle_trans; [apply (rms_dist_tri ny nx y (Y t)); assumption|]. pose proof (rms_dist_within ny nx e y (Y t) Hy Hx He Hw).
    pose proof (semi_rms Q O P ny nx h Y HS HF HY t Ht) as B. rewrite Y0 in B.
    assert (Z : rms_dist ny nx (at_grid h Q O 0) (at_grid h Q O 0) <= 0).
    { apply Rle_trans with (2 * 0); [|lra]. apply rms_dist_within; try assumption; [lra|]. intros i j _ _. unfold Rminus. rewrite !Rplus_opp_r, Rabs_R0. lra. }
    assert (C0 * (rms_dist ny nx (at_grid h Q O 0) (at_grid h Q O 0) + h ^ 2) <= C0 * h ^ 2) by (apply Rmult_le_compat_l; lra). lra. }
  set (B := C1 * h ^ 2 + 4 * q * e).
  assert (RB : 2 * C0 * h ^ 2 + 4 * e <= B).
  { unfold B, C1. assert (0 <= r) by apply Rabs_pos.
    assert (X1 : 2 * C0 * h ^ 2 <= (2 * q * C0 + r) * h ^ 2) by (apply Rmult_le_compat_r; [exact PH|nra]). assert (X2 : 4 * e <= 4 * q * e) by nra. lra. }
  assert (R2 : nm ny nx (fsub (invlap ny nx h (snd y)) (sample h (P t 0%nat 0%nat))) <= B).
  { pose proof (gap_box _ _ _ _ _ HF) as G. rewrite <- E1, <- E2 in HS. destruct HS as [_ _ Sp _ Spo Sme]. destruct (Sp t Ht) as [Sp1 Sp2], (Spo t Ht) as (c & Hc).
    pose proof (psi_bd p ny nx h M Hy Hx Hh (P t 0%nat 0%nat) (P t 0%nat 0%nat) (O t 0%nat 0%nat) (P t) (P t) (P t) (P t 0%nat 0%nat) (P t 0%nat 0%nat) c Sp1 Sp2 Hc (Sme t Ht) (snd y) (snd y)) as [K _].
    rewrite G in K. fold q in K. destruct (rms_dist_comp ny nx y (at_grid h Q O t) Hy Hx) as [_ D]. cbn [at_grid snd] in D.
    assert (X : pcon (gbox Ly Lx) M * h ^ 2 <= r * h ^ 2) by (apply Rmult_le_compat_r; [exact PH|apply Rle_abs]).
    assert (X' : q * nm ny nx (fsub (snd y) (sample h (O t 0%nat 0%nat))) <= q * (2 * C0 * h ^ 2 + 4 * e)) by (apply Rmult_le_compat_l; lra).
    unfold B, C1. apply Rle_trans with (1 := K). lra. }
  assert (BB : B <= Cbox * h ^ 2 + (1 + S / h) * (4 * q) * e).
  { unfold B, Cbox. assert (0 <= C1 * h ^ 2) by (now apply Rmult_le_pos). assert (0 <= 4 * q * e) by (apply Rmult_le_pos; lra).
    assert (0 <= S * (C1 * h ^ 2)) by (now apply Rmult_le_pos). assert (0 <= S / h * (4 * q * e)) by (now apply Rmult_le_pos). lra. }
  assert (BP : S / h * B <= Cbox * h + (1 + S / h) * (4 * q) * e).
  { unfold B, Cbox. assert (0 <= 4 * q * e) by (apply Rmult_le_pos; lra). assert (0 <= C1 * h) by (apply Rmult_le_pos; lra).
    replace (S / h * (C1 * h ^ 2 + 4 * q * e)) with (S * (C1 * h) + S / h * (4 * q * e)) by (field; lra). lra. }
  split; [lra|]. split; [|split; [lra|]].
  - destruct (rms_dist_comp ny nx y (at_grid h Q O t) Hy Hx) as [D1 D2]. intros i j Hi Hj.
    split; (eapply Rle_trans; [|exact BP]).
    + exact (point_bd ny nx h (fsub (fst y) (fst (at_grid h Q O t))) B HF ltac:(lra) i j Hi Hj).
    + exact (point_bd ny nx h (fsub (snd y) (snd (at_grid h Q O t))) B HF ltac:(lra) i j Hi Hj).
  - intros i j Hi Hj. eapply Rle_trans; [|exact BP]. exact (point_bd ny nx h _ B HF R2 i j Hi Hj).
Qed.

(** ** RK4 steps *)
Lemma pde_rk4 Q O P ny nx h b dx0 test pl phi a : pde_solution p Ly Lx T M Q O P -> fills ny nx h Ly Lx -> backend_ok ny nx b ->
  plasma_ok test ny nx pl (sample h (Q 0 0%nat 0%nat)) (sample h (O 0 0%nat 0%nat)) phi a ->
  agree ny nx phi (invlap ny nx h (sample h (O 0 0%nat 0%nat))) ->
  exists C' h0, 0 <= C' /\ 0 < h0 /\ forall dt k, 0 < dt <= h0 -> INR k * dt <= T ->
    exists pl' n' o' phi', snd (steps (fun pl => rk4_step (hw_of b p dx0 test) pl dt h) k pl) = Ok pl' /\
      plasma_ok test ny nx pl' n' o' phi' (a + INR k * dt) /\
      rms_dist ny nx (n', o') (at_grid h Q O (INR k * dt)) <= Cbox * h ^ 2 + C' * dt ^ 4 /\
      within ny nx (Cbox * h + C' * dt ^ 4) (n', o') (at_grid h Q O (INR k * dt)).
Proof.
  intros HS HF Hb Hpl Hphi. pose proof HF as (Hy & Hx & Hh & E1 & E2).
  destruct (conv_rk4 b p dx0 test ny nx h pl _ _ phi a T Hy Hx ltac:(lra) Hb Hpl Hphi HT) as (Y & HY & Y0 & K & h0 & HK & Hh0 & HG).
  destruct (box_near Q O P ny nx h Y HS HF HY Y0) as (C' & HC' & HN).
  exists (C' * K), h0. split; [now apply Rmult_le_pos|]. split; [exact Hh0|]. intros dt k Hdt Hk.
  destruct (HG dt k Hdt Hk) as (pl' & n' & o' & phi' & R1 & R2 & R3). exists pl', n', o', phi'. split; [exact R1|]. split; [exact R2|].
  rewrite !Rmult_assoc.
  destruct (HN (INR k * dt) (K * dt ^ 4) (n', o')) as (N1 & N2 & _); [split; [apply Rmult_le_pos; [apply pos_INR|lra]|exact Hk]| |exact R3|now split].
  apply Rmult_le_pos; [exact HK|]. apply pow_le; lra.
Qed.
(** ** frames *)
Lemma pde_frames Q O P ny nx h phi0 : pde_solution p Ly Lx T M Q O P -> fills ny nx h Ly Lx ->
  exists C' h0, 0 <= C' /\ 0 < h0 /\ forall dt j, 0 < dt <= h0 -> INR j * dt <= T ->
    near_pde ny nx h (Cbox * h ^ 2 + C' * dt ^ 4) (Cbox * h + C' * dt ^ 4) Q O P (hw_frame p ny nx h dt (at_grid h Q O 0) phi0 j).
Proof.
  intros HS HF. pose proof HF as (Hy & Hx & Hh & E1 & E2). assert (Hd : h <> 0) by lra.
  destruct (hw_exists p ny nx h Hy Hx Hd) as (K0 & _ & Ex). destruct (Ex (at_grid h Q O 0) T HT) as (Y & HY & Y0 & _).
  destruct (rk4_global_hw p ny nx h Hy Hx Hd Y T HT HY) as (K & h0 & HK & Hh0 & HG).
  destruct (box_near Q O P ny nx h Y HS HF HY Y0) as (C' & HC' & HN).
  exists (C' * K), h0. split; [now apply Rmult_le_pos|]. split; [exact Hh0|]. intros dt j Hdt Hj.
  specialize (HG dt j Hdt Hj). rewrite Y0 in HG. rewrite !Rmult_assoc.
  destruct (HN (INR j * dt) (K * dt ^ 4) (hw_states p ny nx h dt (at_grid h Q O 0) j)) as (N1 & N2 & N3 & N4);
    [split; [apply Rmult_le_pos; [apply pos_INR|lra]|exact Hj]|apply Rmult_le_pos; [exact HK|apply pow_le; lra]|exact HG|].
  unfold near_pde, hw_frame. cbn [f_t f_n f_o f_p]. rewrite <- surjective_pairing. split; [exact N1|]. split; [exact N2|].
  intros Hpos. destruct j as [|j]; [cbn in Hpos; lra|]. cbn [Nat.eqb]. split.
  - unfold nm in N3. rewrite ip_msq in N3. exact N3.
  - exact N4.
Qed.
End T.
