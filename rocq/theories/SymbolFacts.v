(** The symbols of the five-point and of the spectral Laplacian compared, and
    what follows for the potential of a vorticity. *)
From Coq Require Import List Arith ZArith Lia Bool Reals Lra Psatz.
From Verif Require Import Num NdArray NdFacts Spec GradFacts SumFacts LapFacts Cplx DftFacts SpecFourier PoissonFacts SpecHW SpecPlasma SpecConv HWFacts
  DiagProps SpecWave WaveStab WaveDiff WaveDefaults NormFacts.
Import ListNotations.
Local Open Scope R_scope.

Lemma sin_lower u : 0 <= u <= PI / 2 -> u - u ^ 3 / 6 <= sin u.
Proof.
  intros H. pose proof PI_4. destruct (pre_sin_bound u 0 ltac:(lra) ltac:(lra)) as [L _].
  unfold sin_approx, sin_term in L. cbn [sum_f_R0 Nat.mul Nat.add pow fact INR] in L. eapply Rle_trans; [|exact L]. right. cbn. field.
Qed.
Lemma sin2_lower u : - (PI / 2) <= u <= PI / 2 -> u ^ 2 - sin u ^ 2 <= 16 / 3 * (sin u ^ 2) ^ 2.
Proof.
  assert (P : forall v, 0 <= v <= PI / 2 -> v ^ 2 - sin v ^ 2 <= 16 / 3 * (sin v ^ 2) ^ 2).
  { intros v Hv. pose proof (sin_lower v Hv) as L. pose proof PI2_bounds as B.
    assert (V : v ^ 2 <= 3). { apply Rle_trans with ((PI / 2) ^ 2); [apply pow_incr; lra|]. replace ((PI / 2) ^ 2) with (PI ^ 2 / 4) by field. lra. }
    set (s := sin v) in *. assert (Hs : v / 2 <= s). { apply Rle_trans with (2 := L). replace (v - v ^ 3 / 6) with (v * (1 - v ^ 2 / 6)) by field. nra. }
    destruct (Rle_dec s v) as [Hsv|Hsv].
    - assert (A1 : v ^ 2 - s ^ 2 <= v ^ 4 / 3).
      { replace (v ^ 2 - s ^ 2) with ((v - s) * (v + s)) by ring. apply Rle_trans with (v ^ 3 / 6 * (2 * v)); [|right; field].
        apply Rmult_le_compat; lra. }
      assert (A2 : (v / 2) ^ 4 <= s ^ 4) by (apply pow_incr; lra).
      replace ((s ^ 2) ^ 2) with (s ^ 4) by ring. replace ((v / 2) ^ 4) with (v ^ 4 / 16) in A2 by field. lra.
    - pose proof (pow2_ge_0 (s ^ 2)). assert (v ^ 2 <= s ^ 2) by (apply pow_incr; lra). lra. }
  intros H. destruct (Rle_dec 0 u) as [Hu|Hu]; [apply P; lra|].
  specialize (P (- u) ltac:(lra)). rewrite sin_neg in P. replace ((- u) ^ 2) with (u ^ 2) in P by ring. replace ((- sin u) ^ 2) with (sin u ^ 2) in P by ring. exact P.
Qed.

Definition theta (n a : nat) : R := PI * IZR (sfreq n a) / INR n.
Lemma sin2_theta n a : (0 < n)%nat -> sin (PI * IZR (Z.of_nat a) / INR n) ^ 2 = sin (theta n a) ^ 2.
Proof.
  intros Hn. unfold theta, sfreq. destruct (2 * a <? n)%nat; [reflexivity|].
  rewrite minus_IZR, <- (INR_IZR_INZ n). replace (PI * (IZR (Z.of_nat a) - INR n) / INR n) with (- (PI - PI * IZR (Z.of_nat a) / INR n)) by (field; apply not_0_INR; lia).
  rewrite sin_neg, sin_PI_x. ring.
Qed.
Lemma theta_bound n a : (a < n)%nat -> - (PI / 2) <= theta n a <= PI / 2.
Proof.
  intros Ha. pose proof (sfreq_bound n a Ha) as [B1 B2]. assert (Hn : 0 < INR n) by (apply lt_0_INR; lia). pose proof PI_RGT_0.
  assert (C1 : (- Z.of_nat n <= 2 * sfreq n a)%Z) by (pose proof (Z.div_mod (Z.of_nat n) 2); pose proof (Z.mod_pos_bound (Z.of_nat n) 2); lia).
  assert (C2 : (2 * sfreq n a <= Z.of_nat n)%Z) by (pose proof (Z.div_mod (Z.of_nat n - 1) 2); pose proof (Z.mod_pos_bound (Z.of_nat n - 1) 2); lia).
  apply IZR_le in C1, C2. rewrite opp_IZR, mult_IZR, <- INR_IZR_INZ in C1. rewrite mult_IZR, <- INR_IZR_INZ in C2.
  unfold theta. set (s := IZR (sfreq n a)) in *. split.
  - apply Rmult_le_reg_r with (INR n); [exact Hn|]. replace (PI * s / INR n * INR n) with (PI * s) by (field; lra). nra.
  - apply Rmult_le_reg_r with (INR n); [exact Hn|]. replace (PI * s / INR n * INR n) with (PI * s) by (field; lra). nra.
Qed.

Section S.
Variables (ny nx : nat) (h : R).
Hypothesis Hy : (0 < ny)%nat.
Hypothesis Hx : (0 < nx)%nat.
Hypothesis Hh : 0 < h.
Local Notation Rm := (rmult ny nx).
(** minus the symbols *)
Definition ell (a b : nat) : R := - lbin ny nx h a b.
Definition mu (a b : nat) : R := - lap_symbol ny nx h a b.
Lemma ell_eq a b : ell a b = 4 / h ^ 2 * (sin (theta ny a) ^ 2 + sin (theta nx b) ^ 2).
Proof. unfold ell, lbin, lsym. rewrite !sin2_theta by assumption. field. lra. Qed.
Lemma mu_eq a b : mu a b = 4 / h ^ 2 * (theta ny a ^ 2 + theta nx b ^ 2).
Proof. unfold mu, lap_symbol, theta. field. repeat split; try (apply not_0_INR; lia). lra. Qed.
Lemma ell_pos a b : 0 <= ell a b.
Proof.
  rewrite ell_eq. apply Rmult_le_pos; [apply Rmult_le_pos; [lra|left; apply Rinv_0_lt_compat; nra]|].
  pose proof (pow2_ge_0 (sin (theta ny a))). pose proof (pow2_ge_0 (sin (theta nx b))). lra.
Qed.
Lemma h2pos : 0 < 4 / h ^ 2. Proof. apply Rdiv_lt_0_compat; nra. Qed.
Lemma ell_mu a b : ell a b <= mu a b.
Proof.
  rewrite ell_eq, mu_eq. apply Rmult_le_compat_l; [left; apply h2pos|].
  pose proof (sin_sq_le (theta ny a)). pose proof (sin_sq_le (theta nx b)). lra.
Qed.
Lemma mu_ell a b : (a < ny)%nat -> (b < nx)%nat -> mu a b - ell a b <= 4 / 3 * h ^ 2 * ell a b ^ 2.
Proof.
  intros Ha Hb. rewrite ell_eq, mu_eq. pose proof (sin2_lower _ (theta_bound ny a Ha)) as A. pose proof (sin2_lower _ (theta_bound nx b Hb)) as B.
  set (u := theta ny a ^ 2) in *. set (v := theta nx b ^ 2) in *. set (s := sin (theta ny a) ^ 2) in *. set (t := sin (theta nx b) ^ 2) in *.
  assert (0 <= s) by apply pow2_ge_0. assert (0 <= t) by apply pow2_ge_0.
  replace (4 / 3 * h ^ 2 * (4 / h ^ 2 * (s + t)) ^ 2) with (4 / h ^ 2 * (16 / 3 * (s + t) ^ 2)) by (field; lra).
  rewrite <- Rmult_minus_distr_l. apply Rmult_le_compat_l; [left; apply h2pos|]. nra.
Qed.
(** the smallest non-zero value *)
Definition gap : R := (2 * PI) ^ 2 / ((INR ny * h) ^ 2 + (INR nx * h) ^ 2).
Lemma INRy : 0 < INR ny * h. Proof. apply Rmult_lt_0_compat; [now apply lt_0_INR|exact Hh]. Qed.
Lemma INRx : 0 < INR nx * h. Proof. apply Rmult_lt_0_compat; [now apply lt_0_INR|exact Hh]. Qed.
Lemma gap_pos : 0 < gap.
Proof. pose proof INRy. pose proof INRx. pose proof PI_RGT_0. unfold gap. apply Rdiv_lt_0_compat; nra. Qed.
Lemma frac_gap L M (s : Z) : 0 < L -> 0 < M -> s <> 0%Z -> (2 * PI) ^ 2 / (L ^ 2 + M ^ 2) <= (2 * PI * IZR s / L) ^ 2.
Proof.
  intros HL HM Hs. pose proof PI_RGT_0.
  assert (1 <= IZR s ^ 2). { rewrite <- Rsqr_pow2. unfold Rsqr. rewrite <- mult_IZR. apply IZR_le. nia. }
  replace ((2 * PI * IZR s / L) ^ 2) with ((2 * PI) ^ 2 * (IZR s ^ 2 * / L ^ 2)) by (field; lra).
  apply Rmult_le_compat_l; [apply pow2_ge_0|].
  apply Rle_trans with (/ L ^ 2); [apply Rinv_le_contravar; nra|]. assert (0 < / L ^ 2) by (apply Rinv_0_lt_compat; nra). nra.
Qed.
Lemma sfreq_0 n a : (a < n)%nat -> a <> 0%nat -> sfreq n a <> 0%Z.
Proof. intros Ha Hn. unfold sfreq. destruct (Nat.ltb_spec (2 * a) n); lia. Qed.
Lemma mu_gap a b : (a < ny)%nat -> (b < nx)%nat -> (a <> 0 \/ b <> 0)%nat -> gap <= mu a b.
Proof.
  intros Ha Hb Hn. unfold mu, lap_symbol. rewrite Ropp_involutive. unfold gap.
  pose proof (pow2_ge_0 (2 * PI * IZR (sfreq ny a) / (INR ny * h))). pose proof (pow2_ge_0 (2 * PI * IZR (sfreq nx b) / (INR nx * h))).
  destruct Hn as [Hn|Hn].
  - pose proof (frac_gap (INR ny * h) (INR nx * h) (sfreq ny a) INRy INRx (sfreq_0 ny a Ha Hn)). lra.
  - pose proof (frac_gap (INR nx * h) (INR ny * h) (sfreq nx b) INRx INRy (sfreq_0 nx b Hb Hn)) as G. rewrite Rplus_comm in G. lra.
Qed.
Lemma ell_00 : ell 0 0 = 0.
Proof. rewrite ell_eq. unfold theta, sfreq. destruct (Nat.ltb_spec (2 * 0) ny); [|lia]. destruct (Nat.ltb_spec (2 * 0) nx); [|lia].
  cbn [Z.of_nat]. unfold Rdiv. rewrite Rmult_0_r, !Rmult_0_l, sin_0. ring. Qed.
Lemma ell_even : even_mult ny nx ell.
Proof. intros a b Ha Hb. unfold ell. now rewrite (lbin_even ny nx Hy Hx h a b Ha Hb). Qed.
Lemma mu_even : even_mult ny nx mu.
Proof. intros a b Ha Hb. unfold mu. rewrite !lam_symbol by (try assumption; lra). now rewrite (lam_even ny nx a b Ha Hb). Qed.

(** ** the potential *)
Definition imu (a b : nat) : R := if is00 a b then 0 else - / mu a b.
Lemma imu_even : even_mult ny nx imu.
Proof. intros a b Ha Hb. unfold imu. rewrite is00_neg by assumption. now rewrite (mu_even a b Ha Hb). Qed.
Lemma invlap_imu f : agree ny nx (invlap ny nx h f) (Rm imu f).
Proof.
  intros i j Hi Hj. rewrite invlap_rmult by (try assumption; lra). rewrite <- rmult_scale. apply rmult_ext; [|reflexivity].
  intros a b Ha Hb. unfold inv_sym, imu. destruct (is00 a b) eqn:E; [ring|]. unfold mu. rewrite lam_symbol by (try assumption; lra).
  assert (lam ny nx a b < 0) by (apply lam_neg; auto; now apply is00_false). field. split; lra.
Qed.
(** gradient norm *)
Definition gn (f : field) : R := nm ny nx (Rm (fun a b => sqrt (ell a b)) f).
Lemma sell_even : even_mult ny nx (fun a b => sqrt (ell a b)).
Proof. intros a b Ha Hb. cbv beta. now rewrite (ell_even a b Ha Hb). Qed.
Lemma gn_sq f : h ^ 2 * gn f ^ 2 = ip ny nx (fdx nx f) (fdx nx f) + ip ny nx (fdy ny f) (fdy ny f).
Proof.
  unfold gn. rewrite nm_sq by assumption. unfold ip. rewrite <- rmult_selfadjoint by (try assumption; apply sell_even).
  replace (inner ny nx f (Rm (fun a b => sqrt (ell a b)) (Rm (fun a b => sqrt (ell a b)) f))) with (- inner ny nx f (lap5 ny nx h f)).
  - rewrite inner_lap5 by assumption. unfold dirichlet. rewrite gsum_add. unfold inner. field. repeat split; try (apply not_0_INR; lia). lra.
  - unfold inner. rewrite <- gsum_opp. apply gsum_ext. intros i j Hi Hj. rewrite Ropp_mult_distr_r. f_equal.
    rewrite rmult_rmult by (try assumption; apply sell_even). rewrite lap5_rmult by (try assumption; lra).
    rewrite (rmult_ext ny nx (fun a b => sqrt (ell a b) * sqrt (ell a b)) (fun a b => (-1) * lbin ny nx h a b) f f);
      [rewrite rmult_scale; ring| |reflexivity].
    intros a b _ _. rewrite sqrt_sqrt by apply ell_pos. unfold ell. ring.
Qed.
Lemma fdx_gn f : nm ny nx (fdx nx f) <= h * gn f.
Proof.
  apply nm_le_sq; [apply Rmult_le_pos; [lra|apply sqrt_pos]|]. rewrite Rpow_mult_distr, gn_sq. pose proof (ip_pos ny nx Hy Hx (fdy ny f)). lra.
Qed.
Lemma fdy_gn f : nm ny nx (fdy ny f) <= h * gn f.
Proof.
  apply nm_le_sq; [apply Rmult_le_pos; [lra|apply sqrt_pos]|]. rewrite Rpow_mult_distr, gn_sq. pose proof (ip_pos ny nx Hy Hx (fdx nx f)). lra.
Qed.
Lemma gn_ext f g : agree ny nx f g -> gn f = gn g.
Proof. intros E. apply nm_ext. intros i j _ _. apply rmult_ext; auto. Qed.
Lemma gn_add f g : gn (fadd f g) <= gn f + gn g.
Proof.
  unfold gn. eapply Rle_trans; [|apply nm_add; assumption]. right. apply nm_ext. intros i j _ _.
  transitivity (rmult ny nx (fun a b => sqrt (ell a b)) (fadd (fscale 1 f) (fscale 1 g)) i j).
  - apply rmult_ext; auto. intros. unfold fadd, fscale. ring.
  - rewrite rmult_lin. unfold fadd. ring.
Qed.

(** ** bounds of the potential by the vorticity *)
Lemma invlap_nm f : nm ny nx (invlap ny nx h f) <= / gap * nm ny nx f.
Proof.
  rewrite (nm_ext ny nx _ _ (invlap_imu f)). pose proof gap_pos as G. assert (0 < / gap) by (now apply Rinv_0_lt_compat).
  apply nm_rmult_bd; [assumption|assumption|apply imu_even|lra|]. intros a b Ha Hb. unfold imu. destruct (is00 a b) eqn:E; [rewrite Rabs_R0; lra|].
  apply is00_false in E. pose proof (mu_gap a b Ha Hb E). rewrite Rabs_Ropp, Rabs_pos_eq by (left; apply Rinv_0_lt_compat; lra). apply Rinv_le_contravar; lra.
Qed.
Lemma gn_rmult m f : even_mult ny nx m -> gn (Rm m f) = nm ny nx (Rm (fun a b => sqrt (ell a b) * m a b) f).
Proof. intros He. apply nm_ext. intros i j _ _. now rewrite rmult_rmult. Qed.
Lemma invlap_gn f : gn (invlap ny nx h f) <= (1 + / gap) * nm ny nx f.
Proof.
  rewrite (gn_ext _ _ (invlap_imu f)), gn_rmult by apply imu_even. pose proof gap_pos as G. assert (0 < / gap) by (now apply Rinv_0_lt_compat).
  apply nm_rmult_bd; [assumption|assumption| |lra|].
  { intros a b Ha Hb. cbv beta. now rewrite (ell_even a b Ha Hb), (imu_even a b Ha Hb). }
  intros a b Ha Hb. unfold imu. destruct (is00 a b) eqn:E; [rewrite Rmult_0_r, Rabs_R0; lra|].
  apply is00_false in E. pose proof (mu_gap a b Ha Hb E) as M. pose proof (ell_mu a b) as L. pose proof (ell_pos a b) as P.
  rewrite Rabs_mult, Rabs_Ropp, (Rabs_pos_eq (sqrt _)) by apply sqrt_pos. rewrite Rabs_pos_eq by (left; apply Rinv_0_lt_compat; lra).
  assert (S : sqrt (ell a b) <= 1 + mu a b).
  { apply Rle_trans with (sqrt ((1 + mu a b) ^ 2)); [apply sqrt_le_1_alt; nra|rewrite sqrt_pow2; lra]. }
  apply Rle_trans with ((1 + mu a b) * / mu a b); [apply Rmult_le_compat_r; [left; apply Rinv_0_lt_compat; lra|exact S]|].
  replace ((1 + mu a b) * / mu a b) with (1 + / mu a b) by (field; lra). apply Rplus_le_compat_l, Rinv_le_contravar; lra.
Qed.
(** inverting the five-point Laplacian spectrally: the error has second order *)
Definition idm (a b : nat) : R := imu a b * (- ell a b).
Lemma idm_even : even_mult ny nx idm.
Proof. intros a b Ha Hb. unfold idm. now rewrite (ell_even a b Ha Hb), (imu_even a b Ha Hb). Qed.
Lemma idm_err a b : (a < ny)%nat -> (b < nx)%nat -> (a <> 0 \/ b <> 0)%nat -> Rabs (idm a b - 1) <= 4 / 3 * h ^ 2 * ell a b.
Proof.
  intros Ha Hb Hn. unfold idm, imu. destruct (is00 a b) eqn:E.
  { apply is00_true in E. destruct E; lia. }
  pose proof (mu_gap a b Ha Hb Hn) as M. pose proof gap_pos. pose proof (ell_mu a b) as L. pose proof (ell_pos a b) as P. pose proof (mu_ell a b Ha Hb) as D.
  replace (- / mu a b * - ell a b - 1) with (- ((mu a b - ell a b) / mu a b)) by (field; lra).
  rewrite Rabs_Ropp, Rabs_pos_eq by (apply Rmult_le_pos; [lra|left; apply Rinv_0_lt_compat; lra]).
  apply Rmult_le_reg_r with (mu a b); [lra|]. replace ((mu a b - ell a b) / mu a b * mu a b) with (mu a b - ell a b) by (field; lra).
  apply Rle_trans with (1 := D). replace (4 / 3 * h ^ 2 * ell a b ^ 2) with (4 / 3 * h ^ 2 * ell a b * ell a b) by ring.
  apply Rmult_le_compat_l; [|exact L]. apply Rmult_le_pos; [nra|exact P].
Qed.
Lemma lap5_ell f : agree ny nx (lap5 ny nx h f) (Rm (fun a b => - ell a b) f).
Proof. intros i j Hi Hj. rewrite lap5_rmult by (try assumption; lra). apply rmult_ext; [|reflexivity]. intros. unfold ell. ring. Qed.
Lemma invlap_lap5 f : agree ny nx (invlap ny nx h (lap5 ny nx h f)) (Rm idm f).
Proof.
  intros i j Hi Hj. rewrite (invlap_imu _ i j Hi Hj).
  rewrite (rmult_ext ny nx imu imu _ (Rm (fun a b => - ell a b) f)) by (auto; intros; now apply lap5_ell).
  rewrite rmult_rmult; [reflexivity|assumption|assumption|]. intros a b Ha Hb. cbv beta. now rewrite (ell_even a b Ha Hb).
Qed.
(** the identity without the mean *)
Definition idm0 (a b : nat) : R := if is00 a b then 0 else idm a b - 1.
Lemma idm0_even : even_mult ny nx idm0.
Proof. intros a b Ha Hb. unfold idm0. rewrite is00_neg by assumption. now rewrite (idm_even a b Ha Hb). Qed.
Lemma invlap_lap5_err f i j : (i < ny)%nat -> (j < nx)%nat -> invlap ny nx h (lap5 ny nx h f) i j = f i j - gmean ny nx f + Rm idm0 f i j.
Proof.
  intros Hi Hj. rewrite (invlap_lap5 f i j Hi Hj).
  rewrite (rmult_dc ny nx idm (fun a b => idm0 a b + 1) f i j Hy Hx Hi Hj).
  - rewrite rmult_madd by assumption. rewrite rmult_one by assumption. unfold idm, imu, idm0. cbn [is00 Nat.eqb andb]. ring.
  - intros a b Ha Hb Hn. unfold idm0. destruct (is00 a b) eqn:E; [apply is00_true in E; destruct E; lia|ring].
Qed.
Lemma idm0_nm f : nm ny nx (Rm idm0 f) <= 4 / 3 * h ^ 2 * nm ny nx (lap5 ny nx h f).
Proof.
  rewrite (nm_ext ny nx _ _ (lap5_ell f)). apply nm_rmult; [assumption|assumption|apply idm0_even| |nra|].
  { intros a b Ha Hb. cbv beta. now rewrite (ell_even a b Ha Hb). }
  intros a b Ha Hb. rewrite Rabs_Ropp, (Rabs_pos_eq (ell a b)) by apply ell_pos. unfold idm0. destruct (is00 a b) eqn:E.
  - rewrite Rabs_R0. apply Rmult_le_pos; [nra|apply ell_pos].
  - apply is00_false in E. now apply idm_err.
Qed.
Lemma idm0_gn f : gn (Rm idm0 f) <= 4 / 3 * h ^ 2 * (nm ny nx (lap_iter 2 ny nx h f) + nm ny nx (lap5 ny nx h f)).
Proof.
  rewrite gn_rmult by apply idm0_even.
  apply Rle_trans with (4 / 3 * h ^ 2 * nm ny nx (fsub (lap_iter 2 ny nx h f) (lap5 ny nx h f))).
  2:{ apply Rmult_le_compat_l; [nra|]. apply nm_sub; assumption. }
  assert (A : agree ny nx (fsub (lap_iter 2 ny nx h f) (lap5 ny nx h f)) (Rm (fun a b => ell a b ^ 2 + ell a b) f)).
  { intros i j Hi Hj. unfold fsub. rewrite lap_iter_rmult by (try assumption; lra). rewrite lap5_rmult by (try assumption; lra).
    rewrite (rmult_ext ny nx (fun a b => ell a b ^ 2 + ell a b) (fun a b => lbin ny nx h a b ^ 2 + (-1) * lbin ny nx h a b) f f); [|intros; unfold ell; ring|reflexivity].
    rewrite rmult_madd by assumption. rewrite rmult_scale. ring. }
  rewrite (nm_ext ny nx _ _ A). apply nm_rmult; [assumption|assumption| | |nra|].
  { intros a b Ha Hb. cbv beta. now rewrite (ell_even a b Ha Hb), (idm0_even a b Ha Hb). }
  { intros a b Ha Hb. cbv beta. now rewrite (ell_even a b Ha Hb). }
  intros a b Ha Hb. pose proof (ell_pos a b) as P. rewrite Rabs_mult, (Rabs_pos_eq (sqrt _)) by apply sqrt_pos. rewrite (Rabs_pos_eq (_ + _)) by nra.
  unfold idm0. destruct (is00 a b) eqn:E.
  - rewrite Rabs_R0, Rmult_0_r. apply Rmult_le_pos; nra.
  - apply is00_false in E. pose proof (idm_err a b Ha Hb E) as D.
    assert (S : sqrt (ell a b) <= 1 + ell a b). { apply Rle_trans with (sqrt ((1 + ell a b) ^ 2)); [apply sqrt_le_1_alt; nra|rewrite sqrt_pow2; lra]. }
    apply Rle_trans with ((1 + ell a b) * (4 / 3 * h ^ 2 * ell a b)); [apply Rmult_le_compat; auto using sqrt_pos, Rabs_pos|right; ring].
Qed.
End S.
