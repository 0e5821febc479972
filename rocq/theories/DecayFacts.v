(** No growth without a background gradient (C147): signs of the rates. *)
From Coq Require Import List Arith ZArith Lia Bool Reals Lra Psatz String FunctionalExtensionality Permutation.
From Verif Require Import Num NdArray NdFacts Spec GradFacts SumFacts LapFacts
  Cplx DftFacts SpecFourier PoissonFacts PoissonProps ModelHW ModelBackend
  SpecHW SpecPlasma HWFacts StepFacts RhsFacts SymFacts BalanceProps BalanceWit OdeFacts RkOrder
  SmoothFacts PdeConv PdeStab HwExist HwConv DiagProps SpecConv SpecAccount AccountOde HWProps StepProps
  SpecWave WaveHW WaveStab WaveDiff SpecIdeal IdealFacts IdealProps.
Import ListNotations.
Local Open Scope R_scope.

Section I.
Variables (p : par) (ny nx : nat) (dx : R).
Hypothesis Hy : (0 < ny)%nat.
Hypothesis Hx : (0 < nx)%nat.
Hypothesis Hd : dx <> 0.
Local Notation S_ := (invlap ny nx dx).
Local Notation mn := (gmean ny nx).
Local Notation Fs := (hw_rhs p ny nx dx).
Local Notation fev := (fev ny nx).
Local Notation wf := (wf ny nx).
Local Notation D := (hyper p ny nx dx).
Local Notation gE := (gE ny nx dx).

Lemma mn_nonneg f : 0 <= inner ny nx (fst f) (snd f) -> 0 <= mn (fun i j => fst f i j * snd f i j).
Proof.
  intros H. rewrite mn_inner. unfold Rdiv. apply Rmult_le_pos; [exact H|].
  left. apply Rinv_0_lt_compat, Rmult_lt_0_compat; now apply lt_0_INR.
Qed.
Lemma inv_sym_neg k l : (k < ny)%nat -> (l < nx)%nat -> inv_sym ny nx 0 1 k l <= 0.
Proof.
  intros Hk Hl. unfold inv_sym. destruct (is00 k l) eqn:E; [lra|].
  assert (lam ny nx k l < 0) by (apply lam_neg; auto; now apply is00_false).
  rewrite pow_1. left. now apply Rinv_lt_0_compat.
Qed.
Lemma visc_phi o : 0 <= pnu p -> 0 <= mn (fun i j => S_ o i j * D o i j).
Proof.
  intros Hn. apply (mn_nonneg (S_ o, D o)). cbn [fst snd].
  pose (d := dbin ny nx dx (pN p) (pnu p) false). pose (m := inv_sym ny nx 0 1).
  assert (Ed : even_mult ny nx d) by (apply dbin_even; assumption).
  assert (Em : even_mult ny nx m) by apply inv_sym_even.
  assert (E : inner ny nx (S_ o) (D o) = dx ^ 2 * inner ny nx o (rmult ny nx (fun k l => m k l * d k l) o)).
  { transitivity (inner ny nx (fscale (dx ^ 2) (rmult ny nx m o)) (rmult ny nx d o)).
    - apply gsum_ext. intros i j Hi Hj. unfold fscale, m. rewrite (invlap_rmult ny nx dx o i j Hy Hx Hd).
      f_equal. exact (hyper_rmult ny nx dx Hy Hx Hd (pN p) (pnu p) false o i j Hi Hj).
    - transitivity (dx ^ 2 * inner ny nx (rmult ny nx m o) (rmult ny nx d o)).
      + unfold inner. rewrite <- gsum_scal. apply gsum_ext. intros. unfold fscale. ring.
      + f_equal. rewrite <- rmult_selfadjoint by assumption. apply gsum_ext. intros. now rewrite rmult_rmult. }
  rewrite E, inner_rmult_sq; try assumption.
  2:{ intros a b Ha Hb. cbv beta. now rewrite Em, Ed. }
  apply Rmult_le_pos; [apply pow2_ge_0|]. apply Rmult_le_pos; [left; apply Rinv_0_lt_compat, Rmult_lt_0_compat; now apply lt_0_INR|].
  apply gsum_nonneg. intros k l Hk Hl. apply Rmult_le_pos; [|apply Cnorm2_pos].
  pose proof (inv_sym_neg k l Hk Hl) as A. fold m in A.
  assert (B : d k l <= 0).
  { unfold d, dbin, damp. cbn [pN pnu pure_diffusion].
    destruct (lsym_range ny nx dx Hd (Z.of_nat k) (Z.of_nat l)) as [B _].
    pose proof (pow_le _ (pN p) B). nra. }
  nra.
Qed.
Lemma rateE y : fev gE (Fs y) y + fev gE y (Fs y) = E_rate p ny nx dx (S_ (snd y)) (fst y) (snd y).
Proof.
  cbn [AccountOde.fev AccountOde.gE]. unfold Lp.
  rewrite (mn_ext ny nx (fun i j => fst (Fs y) i j * fst y i j) (fun i j => fst y i j * fst (Fs y) i j)) by (intros; ring).
  pose proof (mn_S ny nx dx Hy Hx Hd (snd (Fs y)) (snd y)) as Es.
  rewrite <- Es. rewrite (mn_ext ny nx (fun i j => snd (Fs y) i j * S_ (snd y) i j) (fun i j => S_ (snd y) i j * snd (Fs y) i j)) by (intros; ring).
  unfold E_rate.
  change (rhs_n p ny nx dx (S_ (snd y)) (fst y)) with (fst (Fs y)).
  change (rhs_o p ny nx dx (S_ (snd y)) (fst y) (snd y)) with (snd (Fs y)). lra.
Qed.
Lemma rateU y : fev gU (Fs y) y + fev gU y (Fs y) = U_rate p ny nx dx (S_ (snd y)) (fst y) (snd y).
Proof.
  cbn [AccountOde.fev gU].
  rewrite (mn_ext ny nx (fun i j => Lno (Fs y) i j * Lno y i j) (fun i j => Lno y i j * Lno (Fs y) i j)) by (intros; ring).
  unfold U_rate, Lno.
  change (rhs_n p ny nx dx (S_ (snd y)) (fst y)) with (fst (Fs y)).
  change (rhs_o p ny nx dx (S_ (snd y)) (fst y) (snd y)) with (snd (Fs y)). lra.
Qed.
Lemma coupling_sink phi n : mn (fun i j => (n i j - phi i j) * coupling p ny phi n i j) <= 0.
Proof.
  destruct (pzon p) eqn:Z.
  - rewrite (coupling_zonal p ny nx) by assumption. pose proof (mean_pos ny nx Hy Hx (ydev ny (fsub n phi))). lra.
  - rewrite (coupling_nonzonal p ny nx) by assumption. pose proof (mean_pos ny nx Hy Hx (fsub n phi)) as H. unfold fsub in H. lra.
Qed.
Lemma decay_E y : pkap p = 0 -> 0 <= pc1 p -> 0 <= pnu p -> fev gE (Fs y) y + fev gE y (Fs y) <= 0.
Proof.
  intros Ek Hc Hn. rewrite rateE, (E_rate_eq p ny nx dx Hy Hx Hd), Ek.
  pose proof (coupling_sink (S_ (snd y)) (fst y)). pose proof (visc_rate p ny nx dx Hy Hx Hd (fst y) Hn).
  pose proof (visc_phi (snd y) Hn). nra.
Qed.
Lemma visc_diff n o : 0 <= pnu p -> mn (fun i j => (n i j - o i j) * (D n i j - D o i j)) <= 0.
Proof.
  intros Hn. pose proof (visc_rate p ny nx dx Hy Hx Hd (fsub n o) Hn) as V.
  rewrite (mn_ext ny nx _ (fun i j => (n i j - o i j) * (D n i j - D o i j))) in V; [exact V|].
  intros i j Hi Hj. unfold fsub at 1. f_equal.
  rewrite (hyper_rmult ny nx dx Hy Hx Hd (pN p) (pnu p) false (fsub n o) i j Hi Hj : D (fsub n o) i j = _).
  rewrite (hyper_rmult ny nx dx Hy Hx Hd (pN p) (pnu p) false n i j Hi Hj : D n i j = _).
  rewrite (hyper_rmult ny nx dx Hy Hx Hd (pN p) (pnu p) false o i j Hi Hj : D o i j = _).
  replace (fsub n o) with (fadd (fscale 1 n) (fscale (-1) o)).
  - rewrite rmult_lin. ring.
  - apply functional_extensionality. intro a. apply functional_extensionality. intro b. unfold fadd, fscale, fsub. ring.
Qed.
Lemma decay_U y : pkap p = 0 -> 0 <= pnu p -> fev gU (Fs y) y + fev gU y (Fs y) <= 0.
Proof.
  intros Ek Hn. rewrite rateU. pose proof (U_rate_eq p ny nx dx Hy Hx Hd (fst y) (snd y)) as E. cbv zeta in E. rewrite E, Ek.
  pose proof (visc_diff (fst y) (snd y) Hn). lra.
Qed.

(** rk4 steps of a quadratic form that exact solutions never increase *)
Lemma decay_rk4 f q y0 T : wf f -> (forall y, fev f y y = q y) -> (forall y, fev f (Fs y) y + fev f y (Fs y) <= 0) -> 0 <= T ->
  exists C h0, 0 <= C /\ 0 < h0 /\ forall dt k, 0 < dt <= h0 -> INR k * dt <= T ->
    q (iter_step (rk4 Fs dt) k y0) <= q y0 + C * dt ^ 4.
Proof.
  intros Hw Hq Hr HT. destruct (hw_exists p ny nx dx Hy Hx Hd) as (K0 & _ & Ex). destruct (Ex y0 T HT) as (Y & HY & Y0 & _).
  destruct (rk4_global_hw p ny nx dx Hy Hx Hd Y T HT HY) as (C & h0 & HC & Hh & HG).
  destruct (form_close p ny nx dx Hy Hx f Y T Hw HT HY C HC) as (K & HK & HF).
  exists K, (Rmin h0 1). split; [exact HK|]. split; [apply Rmin_glb_lt; lra|].
  intros dt k [Hdt Hdm] Hkt. assert (dt <= h0 /\ dt <= 1) as [Hd0 Hd1] by (split; eapply Rle_trans; try exact Hdm; [apply Rmin_l|apply Rmin_r]).
  assert (P4 : 0 <= dt ^ 4 <= 1) by (split; [apply pow_le; lra|rewrite <- (pow1 4); apply pow_incr; lra]).
  assert (Tk : 0 <= INR k * dt <= T) by (split; [apply Rmult_le_pos; [apply pos_INR|lra]|exact Hkt]).
  pose proof (HF (dt ^ 4) _ _ P4 Tk (HG dt k (conj Hdt Hd0) Hkt)) as H. rewrite !Hq in H.
  pose proof (visc_solution p ny nx dx f q Y T Hw Hq Hr HY 0 (INR k * dt) (Rle_refl 0) (proj1 Tk) (proj2 Tk)) as V.
  rewrite Y0 in *. pose proof (Rle_abs (q (iter_step (rk4 Fs dt) k y0) - q (Y (INR k * dt)))). lra.
Qed.
(** a form with positive rate at the start grows *)
Lemma grows f q Y T : wf f -> (forall y, fev f y y = q y) -> hw_solution p ny nx dx Y T -> 0 < T ->
  0 < fev f (Fs (Y 0)) (Y 0) + fev f (Y 0) (Fs (Y 0)) -> exists t, 0 < t <= T /\ q (Y 0) < q (Y t).
Proof.
  intros Hw Hq HY HT Hr. set (r := _ + _) in Hr.
  assert (Dr : derivable_pt_lim (fun s => fev f (Y s) (Y s)) 0 r) by (apply fev_der; [exact Hw|apply (sol_sder p ny nx dx Y T 0 HY); lra]).
  destruct (Dr (r / 2) ltac:(lra)) as [e He]. pose proof (cond_pos e) as Pe.
  exists (Rmin (e / 2) T). set (t := Rmin (e / 2) T).
  assert (Pt : 0 < t) by (apply Rmin_glb_lt; lra). assert (t <= e / 2) by apply Rmin_l. assert (t <= T) by apply Rmin_r.
  split; [lra|]. specialize (He t ltac:(lra)). rewrite Rabs_right in He by lra. specialize (He ltac:(lra)).
  rewrite Rplus_0_l, !Hq in He. apply Rabs_def2 in He. destruct He as [_ He].
  assert (G : 0 < (q (Y t) - q (Y 0)) / t) by lra.
  assert (0 < (q (Y t) - q (Y 0)) / t * t) by (apply Rmult_lt_0_compat; assumption).
  replace ((q (Y t) - q (Y 0)) / t * t) with (q (Y t) - q (Y 0)) in * by (field; lra). lra.
Qed.
End I.

(** ** with a gradient both grow: 4 x 4 cells, a wave along y *)
Definition pgr : par := pW 0 0 0 1 false.
Definition phg : field := invlap 4 4 1 (cw 1 0).
Definition ngr : field := fun i j => - cdy 4 1 phg i j.
Lemma phg_eq i j : phg i j = - / (PI / 2) ^ 2 * cw 1 0 i j.
Proof.
  unfold phg, cw. rewrite invlap_pwave by (first [lra|lia|repeat split; lia]).
  rewrite pwave_scal. f_equal. f_equal. f_equal. unfold ksq. cbn [INR]. field.
Qed.
Lemma cdy_phg : cdy 4 1 phg 1 0 <> 0.
Proof.
  unfold cdy. change (sh 4 1 1) with 2%nat. change (sh 4 1 (-1)) with 0%nat. rewrite !phg_eq, !cw10, cosv0, cosv2.
  cbn [nadd nsub nmul ndiv nofZ NumR]. pose proof PI_RGT_0. assert (0 < / (PI / 2) ^ 2) by (apply Rinv_0_lt_compat, pow_lt; lra).
  set (c := / (PI / 2) ^ 2) in *. clearbody c. replace ((- c * -1 - - c * 1) / (2 * 1)) with c by field. lra.
Qed.
Lemma flux_pos : 0 < gmean 4 4 (fun i j => cdy 4 1 phg i j ^ 2).
Proof.
  unfold gmean. apply Rmult_lt_0_compat; [|apply Rinv_0_lt_compat; cbn [INR]; lra].
  set (g := fun i j : nat => cdy 4 1 phg i j ^ 2).
  assert (P : forall i j, 0 <= g i j) by (intros; apply pow2_ge_0).
  assert (P1 : 0 < g 1%nat 0%nat) by (unfold g; pose proof cdy_phg; nra).
  unfold gsum. cbn [rsum]. pose proof (P 0 0)%nat. pose proof (P 0 1)%nat. pose proof (P 0 2)%nat. pose proof (P 0 3)%nat.
  pose proof (P 1 1)%nat. pose proof (P 1 2)%nat. pose proof (P 1 3)%nat. pose proof (P 2 0)%nat. pose proof (P 2 1)%nat. pose proof (P 2 2)%nat. pose proof (P 2 3)%nat.
  pose proof (P 3 0)%nat. pose proof (P 3 1)%nat. pose proof (P 3 2)%nat. pose proof (P 3 3)%nat. lra.
Qed.
Lemma flux_n : gmean 4 4 (fun i j => ngr i j * cdy 4 1 phg i j) = - gmean 4 4 (fun i j => cdy 4 1 phg i j ^ 2).
Proof.
  rewrite (mn_ext 4 4 _ (fun i j => -1 * cdy 4 1 phg i j ^ 2)) by (intros; unfold ngr; ring). rewrite mn_scal. ring.
Qed.
Lemma grow_E : 0 < E_rate pgr 4 4 1 phg ngr (cw 1 0).
Proof.
  rewrite E_rate_eq by (first [lia|lra]).
  rewrite flux_n. cbn [pgr pW pc1 pkap].
  rewrite (mn_0 4 4 (fun i j => ngr i j * hyper pgr 4 4 1 ngr i j)) by (intros; rewrite hyper_nu0 by reflexivity; ring).
  rewrite (mn_0 4 4 (fun i j => phg i j * hyper pgr 4 4 1 (cw 1 0) i j)) by (intros; rewrite hyper_nu0 by reflexivity; ring).
  pose proof flux_pos. lra.
Qed.
Lemma grow_U : 0 < U_rate pgr 4 4 1 phg ngr (cw 1 0).
Proof.
  pose proof (U_rate_eq pgr 4 4 1 ltac:(lia) ltac:(lia) ltac:(lra) ngr (cw 1 0)) as E. cbv zeta in E. fold phg in E. rewrite E.
  rewrite flux_n. cbn [pgr pW pc1 pkap].
  rewrite (mn_0 4 4 (fun i j => (ngr i j - cw 1 0 i j) * _)) by (intros; rewrite !hyper_nu0 by reflexivity; ring).
  pose proof flux_pos. lra.
Qed.
