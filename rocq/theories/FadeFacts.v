(** Decay of the deviations from the mean (C149). *)
From Coq Require Import List Arith ZArith Lia Bool Reals Lra Psatz String FunctionalExtensionality Permutation.
From Verif Require Import Num NdArray NdFacts Spec GradFacts SumFacts LapFacts
  Cplx DftFacts SpecFourier PoissonFacts PoissonProps ModelHW ModelBackend
  SpecHW SpecPlasma HWFacts StepFacts RhsFacts SymFacts BalanceProps BalanceWit OdeFacts OdeExist RkOrder
  SmoothFacts PdeConv PdeStab HwExist HwConv DiagProps SpecConv SpecAccount AccountOde HWProps StepProps
  SpecWave WaveHW WaveStab WaveDiff SpecIdeal IdealFacts IdealProps TripDiag SpecMean MeanFacts DecayFacts GrowthFacts SpecFade.
Import ListNotations.
Local Open Scope R_scope.

Lemma sin_gap n k M : (1 <= k)%nat -> (k < n)%nat -> (n <= M)%nat -> 0 <= sin (PI / INR M) <= sin (PI * IZR (Z.of_nat k) / INR n).
Proof.
  intros Hk Hn HM. rewrite <- INR_IZR_INZ. pose proof PI_RGT_0 as Pi.
  assert (n0 : 2 <= INR n) by (change 2 with (INR 2); apply le_INR; lia).
  assert (m0 : INR n <= INR M) by now apply le_INR.
  assert (k1 : 1 <= INR k) by (change 1 with (INR 1); now apply le_INR).
  assert (k2 : INR k + 1 <= INR n) by (rewrite <- S_INR; apply le_INR; lia).
  assert (A : 0 < PI / INR M <= PI / 2).
  { split; [apply Rdiv_lt_0_compat; lra|]. unfold Rdiv. apply Rmult_le_compat_l; [lra|]. apply Rinv_le_contravar; lra. }
  assert (B : PI / INR M <= PI / INR n) by (unfold Rdiv; apply Rmult_le_compat_l; [lra|]; apply Rinv_le_contravar; lra).
  assert (I : 0 < / INR n) by (apply Rinv_0_lt_compat; lra).
  assert (C : PI / INR n <= PI * INR k / INR n) by (unfold Rdiv; apply Rmult_le_compat_r; [lra|]; nra).
  assert (D : PI / INR n <= PI - PI * INR k / INR n).
  { replace (PI - PI * INR k / INR n) with (PI * (INR n - INR k) / INR n) by (field; lra). unfold Rdiv. apply Rmult_le_compat_r; [lra|]; nra. }
  split; [apply sin_ge_0; lra|].
  destruct (Rle_dec (PI * INR k / INR n) (PI / 2)) as [H|H].
  - apply sin_incr_1; lra.
  - rewrite <- (sin_PI_x (PI * INR k / INR n)). apply sin_incr_1; lra.
Qed.
Lemma lsym_gap ny nx h k l : h <> 0 -> (k < ny)%nat -> (l < nx)%nat -> (k <> 0 \/ l <> 0)%nat ->
  0 <= slowest ny nx h <= lsym ny nx h (Z.of_nat k) (Z.of_nat l).
Proof.
  intros Hh Hk Hl Hn. unfold slowest, lsym. assert (P : 0 < / h ^ 2) by (apply Rinv_0_lt_compat; nra).
  set (M := Nat.max ny nx). assert (HM : (ny <= M)%nat /\ (nx <= M)%nat) by (unfold M; lia).
  assert (S : forall t, 0 <= sin t ^ 2) by (intros; apply pow2_ge_0).
  pose proof (S (PI * IZR (Z.of_nat k) / INR ny)). pose proof (S (PI * IZR (Z.of_nat l) / INR nx)). pose proof (S (PI / INR M)).
  unfold Rdiv. split; [apply Rmult_le_pos; [fold (PI / INR M); lra|lra]|].
  apply Rmult_le_compat_r; [lra|]. apply Rmult_le_compat_l; [lra|].
  destruct (Nat.eq_dec k 0) as [E|E].
  - assert (1 <= l)%nat by lia. destruct (sin_gap nx l M ltac:(lia) Hl ltac:(lia)) as [G1 G2]. unfold Rdiv in *. nra.
  - destruct (sin_gap ny k M ltac:(lia) Hk ltac:(lia)) as [G1 G2]. unfold Rdiv in *. nra.
Qed.

Section I.
Variables (p : par) (ny nx : nat) (dx : R).
Hypothesis Hy : (0 < ny)%nat.
Hypothesis Hx : (0 < nx)%nat.
Hypothesis Hd : 0 < dx.
Hypothesis HN : (1 <= pN p)%nat.
Hypothesis Hn : 0 <= pnu p.
Let Hd0 : dx <> 0 := Rgt_not_eq _ _ Hd.
Local Notation S_ := (invlap ny nx dx).
Local Notation mn := (gmean ny nx).
Local Notation Fs := (hw_rhs p ny nx dx).
Local Notation fev := (fev ny nx).
Local Notation wf := (wf ny nx).
Local Notation D := (hyper p ny nx dx).
Local Notation g := (pnu p * slowest ny nx dx ^ pN p).
Local Notation d := (dbin ny nx dx (pN p) (pnu p) false).
Local Notation Q_ := (dev_energy ny nx dx).

Lemma NP : 0 < INR ny * INR nx.
Proof. apply Rmult_lt_0_compat; now apply lt_0_INR. Qed.
Lemma d_even : even_mult ny nx d. Proof. apply dbin_even; assumption. Qed.
Lemma d_gap k l : (k < ny)%nat -> (l < nx)%nat -> (k <> 0 \/ l <> 0)%nat -> d k l + g <= 0.
Proof.
  intros Hk Hl H. destruct (lsym_gap ny nx dx k l Hd0 Hk Hl H) as [G1 G2].
  unfold dbin, damp. cbn [pN pnu pure_diffusion].
  pose proof (pow_incr _ _ (pN p) (conj G1 G2)). nra.
Qed.
Lemma fade_phi o : - g * mn (fun i j => S_ o i j * o i j) <= mn (fun i j => S_ o i j * D o i j).
Proof.
  pose (m := inv_sym ny nx 0 1). assert (Em : even_mult ny nx m) by apply inv_sym_even.
  assert (E : inner ny nx (S_ o) (fadd (D o) (fscale g o)) = dx ^ 2 * inner ny nx o (rmult ny nx (fun k l => m k l * (d k l + g)) o)).
  { transitivity (inner ny nx (fscale (dx ^ 2) (rmult ny nx m o)) (rmult ny nx (fun k l => d k l + g * 1) o)).
    - apply gsum_ext. intros i j Hi Hj. unfold fscale at 2, m. rewrite (invlap_rmult ny nx dx o i j Hy Hx Hd0).
      f_equal. unfold fadd, fscale. rewrite (hyper_rmult ny nx dx Hy Hx Hd0 (pN p) (pnu p) false o i j Hi Hj : D o i j = _).
      rewrite rmult_madd. f_equal. rewrite (rmult_scale ny nx (fun _ _ => 1) g). now rewrite rmult_one.
    - transitivity (dx ^ 2 * inner ny nx (rmult ny nx m o) (rmult ny nx (fun k l => d k l + g * 1) o)).
      + unfold inner. rewrite <- gsum_scal. apply gsum_ext. intros. unfold fscale. ring.
      + f_equal. rewrite <- rmult_selfadjoint by assumption. apply gsum_ext. intros i j _ _. rewrite rmult_rmult by (try assumption; intros a b Ha Hb; cbv beta; now rewrite d_even).
        f_equal. apply rmult_ext; [|reflexivity]. intros. ring. }
  assert (P : 0 <= inner ny nx (S_ o) (fadd (D o) (fscale g o))).
  { rewrite E, inner_rmult_sq; try assumption.
    2:{ intros a b Ha Hb. cbv beta. now rewrite Em, d_even. }
    apply Rmult_le_pos; [apply pow2_ge_0|]. apply Rmult_le_pos; [left; apply Rinv_0_lt_compat, NP|].
    apply gsum_nonneg. intros k l Hk Hl. apply Rmult_le_pos; [|apply Cnorm2_pos].
    pose proof (inv_sym_neg ny nx k l Hk Hl) as A. fold m in A.
    destruct (is00 k l) eqn:Z; [unfold m, inv_sym; rewrite Z; lra|].
    pose proof (d_gap k l Hk Hl (is00_false k l Z)). nra. }
  pose proof (mn_nonneg ny nx Hy Hx (S_ o, fadd (D o) (fscale g o)) P) as G. cbn [fst snd] in G.
  rewrite (mn_ext ny nx _ (fun i j => S_ o i j * D o i j + g * (S_ o i j * o i j))) in G by (intros; unfold fadd, fscale; ring).
  rewrite mn_add, mn_scal in G. lra.
Qed.
Lemma fade_c f : gsum ny nx f = 0 -> mn (fun i j => f i j * D f i j) <= - g * mn (fun i j => f i j ^ 2).
Proof.
  intros Hz.
  assert (E : inner ny nx f (fadd (D f) (fscale g f)) = inner ny nx f (rmult ny nx (fun k l => d k l + g * 1) f)).
  { apply gsum_ext. intros i j Hi Hj. f_equal. unfold fadd, fscale. rewrite (hyper_rmult ny nx dx Hy Hx Hd0 (pN p) (pnu p) false f i j Hi Hj : D f i j = _).
    rewrite rmult_madd. f_equal. rewrite (rmult_scale ny nx (fun _ _ => 1) g). now rewrite rmult_one. }
  assert (P : inner ny nx f (fadd (D f) (fscale g f)) <= 0).
  { rewrite E, inner_rmult_sq; try assumption.
    2:{ intros a b Ha Hb. cbv beta. now rewrite d_even. }
    pose proof (Rinv_0_lt_compat _ NP) as I.
    assert (0 <= gsum ny nx (fun k l => -1 * ((d k l + g * 1) * Cnorm2 (dft2 ny nx (cfield f) (Z.of_nat k) (Z.of_nat l))))).
    { apply gsum_nonneg. intros k l Hk Hl. destruct (is00 k l) eqn:Z.
      - unfold is00 in Z. apply andb_true_iff in Z. destruct Z as [Z1 Z2]. apply Nat.eqb_eq in Z1, Z2. subst.
        change (Z.of_nat 0) with 0%Z. rewrite dft2_00, gcsum_cfield, Hz. unfold Cnorm2. cbn. lra.
      - pose proof (d_gap k l Hk Hl (is00_false k l Z)).
        pose proof (Cnorm2_pos (dft2 ny nx (cfield f) (Z.of_nat k) (Z.of_nat l))). nra. }
    rewrite gsum_scal in *. nra. }
  assert (G : mn (fun i j => f i j * (fadd (D f) (fscale g f)) i j) <= 0).
  { rewrite mn_inner. unfold Rdiv. pose proof (Rinv_0_lt_compat _ NP). nra. }
  rewrite (mn_ext ny nx _ (fun i j => f i j * D f i j + g * f i j ^ 2)) in G by (intros; unfold fadd, fscale; ring).
  rewrite mn_add, mn_scal in G. lra.
Qed.
Local Notation cen := (centered ny nx).
Lemma mn_cen f : mn (cen f) = 0.
Proof. unfold gmean at 1. rewrite gsum_centered by assumption. unfold Rdiv. ring. Qed.
Lemma D_cen f i j : (i < ny)%nat -> (j < nx)%nat -> D (cen f) i j = D f i j.
Proof.
  intros Hi Hj. unfold hyper. f_equal. change (cen f) with (plus_const (- mn f) f). now apply mc_lap.
Qed.
Lemma mn_D f : mn (D f) = 0.
Proof. unfold gmean. rewrite (gsum_hyper p ny nx dx) by assumption. unfold Rdiv. ring. Qed.
Lemma mn_const_l c f : mn (fun i j => c * f i j) = c * mn f. Proof. apply mn_scal. Qed.
Lemma mn_dy f : mn (cdy ny dx f) = 0.
Proof. unfold gmean. rewrite gsum_cdy by assumption. unfold Rdiv. ring. Qed.
Lemma mn_phi o : mn (S_ o) = 0.
Proof. unfold gmean. rewrite gsum_invlap by assumption. unfold Rdiv. ring. Qed.

Definition Ldv (y : state) : field := cen (fst y).
Lemma lin_dv : lin ny nx Ldv.
Proof.
  constructor.
  - intros. unfold Ldv, centered. cbn [sadd sscale fst]. rewrite gmean_add, !gmean_scale. unfold fadd, fscale. ring.
  - intros y z [H _] i j Hi Hj. unfold Ldv, centered. rewrite (H i j Hi Hj). f_equal. apply mn_ext. exact H.
Qed.
Definition gQ : form := [(1 / 2, Ldv, Ldv); (- (1 / 2), Lp ny nx dx, snd)].
Lemma wf_gQ : wf gQ.
Proof. repeat apply wf_cons; try apply wf_nil; auto using lin_o, lin_dv. all: now apply lin_p. Qed.
Lemma gQ_eq y : fev gQ y y = Q_ y.
Proof.
  cbn [AccountOde.fev gQ]. unfold dev_energy, spec_energy, Lp, Ldv, centered.
  rewrite (mn_ext ny nx (fun i j => (fst y i j - mn (fst y)) ^ 2) (fun i j => (fst y i j - mn (fst y)) * (fst y i j - mn (fst y)))) by (intros; ring). field.
Qed.
Lemma rateQ y : fev gQ (Fs y) y + fev gQ y (Fs y) =
  E_rate p ny nx dx (S_ (snd y)) (fst y) (snd y) - mn (fst y) * mn (fst (Fs y)).
Proof.
  pose proof (rateE p ny nx dx Hy Hx Hd0 y) as R. cbn [AccountOde.fev AccountOde.gE] in R. rewrite <- R.
  cbn [AccountOde.fev gQ]. set (F := Fs y). unfold Ldv, centered.
  rewrite (mn_ext ny nx (fun i j => (fst F i j - mn (fst F)) * (fst y i j - mn (fst y)))
    (fun i j => fst F i j * fst y i j - (mn (fst y) * fst F i j + mn (fst F) * centered ny nx (fst y) i j))) by (intros; unfold centered; ring).
  rewrite (mn_ext ny nx (fun i j => (fst y i j - mn (fst y)) * (fst F i j - mn (fst F)))
    (fun i j => fst y i j * fst F i j - (mn (fst y) * fst F i j + mn (fst F) * centered ny nx (fst y) i j))) by (intros; unfold centered; ring).
  rewrite !mn_sub, !mn_add, !mn_scal, mn_cen. lra.
Qed.
Lemma fade_rate y : 0 <= pc1 p -> fev gQ (Fs y) y + fev gQ y (Fs y) <= (Rabs (pkap p) - 2 * g) * Q_ y.
Proof.
  intros Hc. rewrite rateQ, (E_rate_eq p ny nx dx Hy Hx Hd0). set (n := fst y). set (o := snd y). set (phi := S_ o).
  assert (M : mn (fst (Fs y)) = pc1 p * mn (coupling p ny phi n)).
  { unfold gmean. change (fst (Fs y)) with (rhs_n p ny nx dx phi n). rewrite (gsum_rhs_n p ny nx dx) by assumption. unfold Rdiv. ring. }
  rewrite M.
  assert (C : mn (fun i j => (n i j - phi i j) * coupling p ny phi n i j) - mn n * mn (coupling p ny phi n) <= 0).
  { destruct (pzon p) eqn:Z.
    - assert (Z0 : mn (coupling p ny phi n) = 0) by (unfold gmean; rewrite (gsum_coupling_zonal p ny nx) by assumption; unfold Rdiv; ring).
      rewrite Z0. pose proof (coupling_sink p ny nx Hy Hx phi n). lra.
    - rewrite (coupling_nonzonal p ny nx) by assumption.
      assert (Z0 : mn (coupling p ny phi n) = - mn n).
      { transitivity (mn (fun i j => phi i j - n i j)); [apply mn_ext; intros; unfold coupling; now rewrite Z|].
        rewrite mn_sub. unfold phi. rewrite mn_phi. ring. }
      rewrite Z0. pose proof (mean_pos ny nx Hy Hx (fun i j => n i j - phi i j - mn n)) as V. cbv beta in V.
      rewrite (mn_ext ny nx _ (fun i j => (n i j - phi i j) ^ 2 - (2 * mn n * (n i j - phi i j) - mn n * mn n * 1))) in V by (intros; ring).
      rewrite !mn_sub, !mn_scal, mn_sub in V. unfold phi in V at 2. rewrite mn_phi in V. rewrite gmean_c in V by assumption. lra. }
  assert (FL : - pkap p * mn (fun i j => n i j * cdy ny dx phi i j) <= Rabs (pkap p) * Q_ y).
  { pose proof (flux_rate p ny nx dx Hy Hx Hd (cen n, o)) as G. cbn [fst snd] in G. fold phi in G.
    rewrite (mn_ext ny nx _ (fun i j => n i j * cdy ny dx phi i j - mn n * cdy ny dx phi i j)) in G by (intros; unfold centered; ring).
    rewrite mn_sub, mn_scal, mn_dy, Rmult_0_r, Rminus_0_r in G. exact G. }
  assert (V1 : mn (fun i j => n i j * D n i j) <= - g * mn (fun i j => cen n i j ^ 2)).
  { pose proof (fade_c (cen n) (gsum_centered ny nx n Hy Hx)) as G.
    rewrite (mn_ext ny nx (fun i j => cen n i j * D (cen n) i j) (fun i j => n i j * D n i j - mn n * D n i j)) in G
      by (intros; rewrite D_cen by assumption; unfold centered; ring).
    rewrite mn_sub, mn_scal, mn_D in G. lra. }
  pose proof (fade_phi o) as V2. fold phi in V2.
  assert (Eq : Q_ y = (mn (fun i j => cen n i j ^ 2) - mn (fun i j => phi i j * o i j)) / 2).
  { unfold dev_energy, spec_energy. fold n o phi. unfold centered. lra. }
  rewrite Eq in FL |- *.
  set (a := mn (fun i j => cen n i j ^ 2)) in *. set (b := mn (fun i j => phi i j * o i j)) in *.
  set (c := mn (fun i j => (n i j - phi i j) * coupling p ny phi n i j)) in *. clearbody a b c. nra.
Qed.
Lemma sol_Q Y T : 0 <= pc1 p -> hw_solution p ny nx dx Y T -> forall t, 0 <= t <= T ->
  Q_ (Y t) <= Q_ (Y 0) * exp ((Rabs (pkap p) - 2 * g) * t).
Proof.
  intros Hc HY t Ht. set (K := Rabs (pkap p) - 2 * g).
  pose (q := fun s => Q_ (Y s) * exp (- K * s)).
  pose (r := fun s => fev gQ (Fs (Y s)) (Y s) + fev gQ (Y s) (Fs (Y s))).
  pose (q' := fun s => r s * exp (- K * s) + Q_ (Y s) * (exp (- K * s) * (- K * 1))).
  assert (A : q t <= q 0).
  { destruct (Req_dec 0 t) as [<-|Hne]; [lra|].
    destruct (MVT_cor2 q q' 0 t) as (c & Ec & Hcc); [lra| |].
    - intros c Hcc. unfold q, q'. apply (derivable_pt_lim_mult (fun s => Q_ (Y s)) (fun s => exp (- K * s))).
      + apply (dpl_ext (fun s => fev gQ (Y s) (Y s))); [intros; apply gQ_eq|].
        apply fev_der; [exact wf_gQ|apply (sol_sder p ny nx dx Y T c HY); lra].
      + apply (derivable_pt_lim_comp (fun s => - K * s) exp); [apply derivable_pt_lim_scal, derivable_pt_lim_id|apply derivable_pt_lim_exp].
    - assert (q' c <= 0); [|nra]. unfold q'. pose proof (fade_rate (Y c) Hc) as G. fold K (r c) in G.
      pose proof (exp_pos (- K * c)). replace (r c * exp (- K * c) + Q_ (Y c) * (exp (- K * c) * (- K * 1))) with ((r c - K * Q_ (Y c)) * exp (- K * c)) by ring. nra. }
  unfold q in A. rewrite Rmult_0_r, exp_0, Rmult_1_r in A.
  assert (X : exp (- K * t) * exp (K * t) = 1) by (rewrite <- exp_plus; replace (- K * t + K * t) with 0 by ring; apply exp_0).
  pose proof (exp_pos (K * t)).
  replace (Q_ (Y t)) with (Q_ (Y t) * exp (- K * t) * exp (K * t)) by (rewrite Rmult_assoc, X; ring).
  apply Rmult_le_compat_r; lra.
Qed.
End I.
