(** Round trips through the two Laplacians. *)
From Coq Require Import List Arith ZArith Lia Bool Reals Lra Psatz.
From Verif Require Import Num NdArray NdFacts Spec ModelGradients ModelPoisson ModelBackend ModelHW ModelProperties GradFacts SumFacts LapFacts Cplx DftFacts SpecFourier PoissonFacts PoissonProps SpecHW SpecPlasma SpecConv HWFacts
  DiagFacts DiagProps SpecPde SpecWave WaveStab WaveDiff WaveFacts WaveNyq NormFacts SymbolFacts StepFacts SpecTrip.
Import ListNotations.
Local Open Scope R_scope.

Lemma sin_lower_pi u : 0 <= u <= PI -> u - u ^ 3 / 6 <= sin u.
Proof.
  intros H. pose proof PI_4. destruct (pre_sin_bound u 0 ltac:(lra) ltac:(lra)) as [L _].
  unfold sin_approx, sin_term in L. cbn [sum_f_R0 Nat.mul Nat.add pow fact INR] in L. eapply Rle_trans; [|exact L]. right. cbn. field.
Qed.
Lemma sin2_gap u : - PI <= u <= PI -> u ^ 2 - sin u ^ 2 <= (u ^ 2) ^ 2 / 3.
Proof.
  assert (P : forall v, 0 <= v <= PI -> v ^ 2 - sin v ^ 2 <= (v ^ 2) ^ 2 / 3).
  { intros v Hv. pose proof (sin_lower_pi v Hv) as L. set (s := sin v) in *. destruct (Rle_dec 0 (v - v ^ 3 / 6)) as [G|G].
    - assert ((v - v ^ 3 / 6) ^ 2 <= s ^ 2) by (apply pow_incr; lra).
      replace ((v - v ^ 3 / 6) ^ 2) with (v ^ 2 - (v ^ 2) ^ 2 / 3 + (v ^ 3) ^ 2 / 36) in H by field. pose proof (pow2_ge_0 (v ^ 3)). lra.
    - pose proof (pow2_ge_0 s). assert (0 < v) by (destruct (Req_dec v 0) as [->|]; [exfalso; apply G; lra|lra]).
      assert (6 < v ^ 2). { apply Rnot_le_lt. intros Q. apply G. replace (v - v ^ 3 / 6) with (v * (1 - v ^ 2 / 6)) by field. apply Rmult_le_pos; lra. }
      nra. }
  intros H. destruct (Rle_dec 0 u) as [Hu|Hu]; [apply P; lra|].
  specialize (P (- u) ltac:(lra)). rewrite sin_neg in P. replace ((- u) ^ 2) with (u ^ 2) in P by ring. replace ((- sin u) ^ 2) with (sin u ^ 2) in P by ring. exact P.
Qed.
(** Jordan's inequality *)
Lemma sin_jordan u : 0 <= u <= PI / 2 -> 2 / PI * u <= sin u.
Proof.
  intros H. pose proof PI_RGT_0 as HP. destruct (Req_dec u 0) as [->|N0]; [rewrite sin_0; lra|].
  destruct (Req_dec u (PI / 2)) as [->|N1]; [rewrite sin_PI2; right; field; lra|].
  apply Rnot_lt_le. intros C.
  (* mean values: the slope left of u is below 2/pi, the one right of u above, but cos decreases *)
  destruct (MVT_cor2 sin cos 0 u ltac:(lra) ltac:(intros; apply derivable_pt_lim_sin)) as (c & Ec & Hc).
  destruct (MVT_cor2 sin cos u (PI / 2) ltac:(lra) ltac:(intros; apply derivable_pt_lim_sin)) as (d & Ed & Hd).
  rewrite sin_0 in Ec. rewrite sin_PI2 in Ed.
  assert (cos d < cos c) by (apply cos_decreasing_1; lra).
  assert (A : cos c < 2 / PI). { apply Rmult_lt_reg_r with u; [lra|]. lra. }
  assert (B : 2 / PI < cos d).
  { apply Rmult_lt_reg_r with (PI / 2 - u); [lra|]. replace (2 / PI * (PI / 2 - u)) with (1 - 2 / PI * u) by (field; lra). lra. }
  lra.
Qed.
Lemma sin2_jordan u : - (PI / 2) <= u <= PI / 2 -> 4 / PI ^ 2 * u ^ 2 <= sin u ^ 2.
Proof.
  pose proof PI_RGT_0 as HP. assert (P : forall v, 0 <= v <= PI / 2 -> 4 / PI ^ 2 * v ^ 2 <= sin v ^ 2).
  { intros v Hv. replace (4 / PI ^ 2 * v ^ 2) with ((2 / PI * v) ^ 2) by (field; lra). apply pow_incr. split; [|now apply sin_jordan].
    apply Rmult_le_pos; [|lra]. apply Rlt_le, Rdiv_lt_0_compat; lra. }
  intros H. destruct (Rle_dec 0 u) as [Hu|Hu]; [apply P; lra|].
  specialize (P (- u) ltac:(lra)). rewrite sin_neg in P. replace ((- u) ^ 2) with (u ^ 2) in P by ring. replace ((- sin u) ^ 2) with (sin u ^ 2) in P by ring. exact P.
Qed.

Section T.
Variables (ny nx : nat) (h : R).
Hypothesis Hy : (0 < ny)%nat.
Hypothesis Hx : (0 < nx)%nat.
Hypothesis Hh : 0 < h.
Local Notation Rm := (rmult ny nx).
Local Notation idm := (SymbolFacts.idm ny nx h).
Local Notation mu := (SymbolFacts.mu ny nx h).
Local Notation ell := (SymbolFacts.ell ny nx h).
Local Notation imu := (SymbolFacts.imu ny nx h).

Lemma rms_nm f : rms ny nx f = nm ny nx f.
Proof. unfold rms, nm. now rewrite ip_msq. Qed.
Lemma trip_shrink a b : (a < ny)%nat -> (b < nx)%nat -> (a <> 0 \/ b <> 0)%nat -> idm a b = shrink ny nx (sfreq ny a) (sfreq nx b).
Proof.
  intros Ha Hb Hn. unfold SymbolFacts.idm, SymbolFacts.imu. destruct (is00 a b) eqn:E; [apply is00_true in E; destruct E; lia|].
  pose proof (mu_gap ny nx h Hy Hx Hh a b Ha Hb Hn) as M. pose proof (gap_pos ny nx h Hy Hx Hh).
  rewrite mu_eq in * by assumption. rewrite ell_eq by assumption. unfold shrink.
  change (PI * IZR (sfreq ny a) / INR ny) with (theta ny a). change (PI * IZR (sfreq nx b) / INR nx) with (theta nx b).
  set (D := theta ny a ^ 2 + theta nx b ^ 2) in *. assert (D <> 0) by (intros Q; rewrite Q, Rmult_0_r in M; lra). field. split; lra.
Qed.
Lemma shrink_bounds a b : (a < ny)%nat -> (b < nx)%nat -> (a <> 0 \/ b <> 0)%nat -> 4 / PI ^ 2 <= idm a b <= 1.
Proof.
  intros Ha Hb Hn. rewrite trip_shrink by assumption. unfold shrink.
  change (PI * IZR (sfreq ny a) / INR ny) with (theta ny a). change (PI * IZR (sfreq nx b) / INR nx) with (theta nx b).
  pose proof (sin2_jordan _ (theta_bound ny a Ha)) as A1. pose proof (sin2_jordan _ (theta_bound nx b Hb)) as A2.
  pose proof (sin_sq_le (theta ny a)) as B1. pose proof (sin_sq_le (theta nx b)) as B2.
  pose proof (mu_gap ny nx h Hy Hx Hh a b Ha Hb Hn) as M. pose proof (gap_pos ny nx h Hy Hx Hh).
  rewrite mu_eq in M by assumption. pose proof (h2pos h Hh) as HH.
  assert (D : 0 < theta ny a ^ 2 + theta nx b ^ 2).
  { apply Rmult_lt_reg_l with (4 / h ^ 2); [exact HH|]. lra. }
  set (S := sin (theta ny a) ^ 2 + sin (theta nx b) ^ 2) in *. set (D0 := theta ny a ^ 2 + theta nx b ^ 2) in *.
  assert (E : S / D0 * D0 = S) by (field; lra).
  split; (apply Rmult_le_reg_r with D0; [exact D|]); rewrite E; unfold S, D0; lra.
Qed.
Lemma mu_ell_mu a b : (a < ny)%nat -> (b < nx)%nat -> mu a b - ell a b <= h ^ 2 / 12 * mu a b ^ 2.
Proof.
  intros Ha Hb. rewrite ell_eq, mu_eq by assumption. pose proof PI_RGT_0.
  pose proof (theta_bound ny a Ha) as T1. pose proof (theta_bound nx b Hb) as T2.
  pose proof (sin2_gap (theta ny a) ltac:(lra)) as A. pose proof (sin2_gap (theta nx b) ltac:(lra)) as B.
  set (u := theta ny a ^ 2) in *. set (v := theta nx b ^ 2) in *. assert (0 <= u) by apply pow2_ge_0. assert (0 <= v) by apply pow2_ge_0.
  replace (h ^ 2 / 12 * (4 / h ^ 2 * (u + v)) ^ 2) with (4 / h ^ 2 * ((u + v) ^ 2 / 3)) by (field; lra).
  rewrite <- Rmult_minus_distr_l. apply Rmult_le_compat_l; [left; now apply h2pos|]. nra.
Qed.
(** central differences: squares of the two symbols *)
Definition csq (a b : nat) : R := (sin (2 * theta ny a) / h) ^ 2 + (sin (2 * theta nx b) / h) ^ 2.
Lemma csq_mu a b : csq a b <= mu a b.
Proof.
  rewrite mu_eq by assumption. unfold csq. pose proof (sin_sq_le (2 * theta ny a)). pose proof (sin_sq_le (2 * theta nx b)).
  replace ((sin (2 * theta ny a) / h) ^ 2 + (sin (2 * theta nx b) / h) ^ 2) with (1 / h ^ 2 * (sin (2 * theta ny a) ^ 2 + sin (2 * theta nx b) ^ 2)) by (field; lra).
  replace (4 / h ^ 2 * (theta ny a ^ 2 + theta nx b ^ 2)) with (1 / h ^ 2 * ((2 * theta ny a) ^ 2 + (2 * theta nx b) ^ 2)) by (field; lra).
  apply Rmult_le_compat_l; [left; apply Rdiv_lt_0_compat; nra|]. lra.
Qed.
Lemma mu_csq a b : (a < ny)%nat -> (b < nx)%nat -> mu a b - csq a b <= h ^ 2 / 3 * mu a b ^ 2.
Proof.
  intros Ha Hb. rewrite mu_eq by assumption. unfold csq.
  pose proof (theta_bound ny a Ha) as T1. pose proof (theta_bound nx b Hb) as T2.
  pose proof (sin2_gap (2 * theta ny a) ltac:(lra)) as A. pose proof (sin2_gap (2 * theta nx b) ltac:(lra)) as B.
  replace ((sin (2 * theta ny a) / h) ^ 2 + (sin (2 * theta nx b) / h) ^ 2) with (1 / h ^ 2 * (sin (2 * theta ny a) ^ 2 + sin (2 * theta nx b) ^ 2)) by (field; lra).
  replace (4 / h ^ 2 * (theta ny a ^ 2 + theta nx b ^ 2)) with (1 / h ^ 2 * ((2 * theta ny a) ^ 2 + (2 * theta nx b) ^ 2)) by (field; lra).
  set (u := (2 * theta ny a) ^ 2) in *. set (v := (2 * theta nx b) ^ 2) in *. assert (0 <= u) by apply pow2_ge_0. assert (0 <= v) by apply pow2_ge_0.
  replace (h ^ 2 / 3 * (1 / h ^ 2 * (u + v)) ^ 2) with (1 / h ^ 2 * ((u + v) ^ 2 / 3)) by (field; lra).
  rewrite <- Rmult_minus_distr_l. apply Rmult_le_compat_l; [left; apply Rdiv_lt_0_compat; nra|]. nra.
Qed.

(** the two orders of the round trip *)
Definition trip (f : field) : field := Rm idm f.
Lemma lap5_invlap f : agree ny nx (lap5 ny nx h (invlap ny nx h f)) (Rm idm f).
Proof.
  intros i j Hi Hj. rewrite (lap5_ell ny nx h Hy Hx Hh _ i j Hi Hj).
  rewrite (rmult_ext ny nx _ (fun a b => - ell a b) (invlap ny nx h f) (Rm imu f)) by (auto; intros; now apply invlap_imu).
  rewrite rmult_rmult by (try assumption; now apply imu_even). apply rmult_ext; auto. intros. unfold SymbolFacts.idm. ring.
Qed.
Lemma np_solver_invlap f : np_fourier_poisson_double (Ok (grid ny nx f)) h 1 = Ok (grid ny nx (invlap ny nx h f)).
Proof.
  rewrite np_solver_grid by assumption. f_equal. apply grid_ext. intros i j Hi Hj. rewrite invlap_rmult by (try assumption; lra).
  cbn [dc0]. ring.
Qed.
Lemma trip_np f : np_fourier_poisson_double (np_periodic_laplace (Ok (grid ny nx f)) h) h 1 = Ok (grid ny nx (trip f)).
Proof.
  rewrite np_periodic_laplace_grid, np_solver_invlap by assumption. f_equal. apply grid_ext. intros i j Hi Hj. now apply invlap_lap5.
Qed.
Lemma trip_nb f : (Z.of_nat ny <= 65536)%Z -> (Z.of_nat nx <= 65536)%Z ->
  nb_fourier_poisson_double (nb_periodic_laplace (Ok (grid ny nx f)) h) h 1 = Ok (grid ny nx (trip f)).
Proof.
  intros By Bx. rewrite nb_periodic_laplace_grid by assumption.
  destruct (c13_diff ny nx h (lap5 ny nx h f) Hy Hx By Bx) as (u & E1 & E2).
  rewrite np_solver_invlap in E1. rewrite E2. assert (E3 : grid ny nx (invlap ny nx h (lap5 ny nx h f)) = grid ny nx u) by congruence. f_equal.
  transitivity (grid ny nx u).
  - apply grid_ext. intros i j Hi Hj. unfold gmean. rewrite gsum_lap5 by assumption. unfold Rdiv. ring.
  - rewrite <- E3.
    apply grid_ext. intros i j Hi Hj. now apply invlap_lap5.
Qed.
Lemma trip_phi f : bind (get_phi np_solve (Ok (grid ny nx f)) h) (fun p => np_periodic_laplace (Ok p) h) = Ok (grid ny nx (trip f)).
Proof.
  destruct (backend_acts ny nx np_backend h 1 Hy Hx ltac:(lra) (or_introl eq_refl)) as [A _ _ _].
  change np_solve with (poisson_solver np_backend). rewrite A. cbn [bind]. rewrite np_periodic_laplace_grid by assumption.
  f_equal. apply grid_ext. intros i j Hi Hj. now apply lap5_invlap.
Qed.
(** ** sizes *)
Lemma trip_dft f a b : (a < ny)%nat -> (b < nx)%nat ->
  dft2 ny nx (cfield (trip f)) (Z.of_nat a) (Z.of_nat b) = Cscal (idm a b) (dft2 ny nx (cfield f) (Z.of_nat a) (Z.of_nat b)).
Proof.
  intros Ha Hb. rewrite (dft2_ext ny nx (cfield (trip f)) (mult ny nx idm (cfield f))).
  - unfold mult. now rewrite dft2_idft2.
  - intros i j _ _. symmetry. apply rmult_cfield; try assumption. now apply idm_even.
Qed.
Definition nodc (a b : nat) : R := if is00 a b then 0 else 1.
Lemma nodc_even : even_mult ny nx nodc.
Proof. intros a b Ha Hb. unfold nodc. now rewrite is00_neg. Qed.
Lemma demean_rm f : agree ny nx (demean ny nx f) (Rm nodc f).
Proof.
  intros i j Hi Hj. rewrite (rmult_dc ny nx nodc (fun _ _ => 1) f i j Hy Hx Hi Hj).
  - rewrite rmult_one by assumption. unfold demean, nodc. cbn. ring.
  - intros a b Ha Hb Hn. unfold nodc. destruct (is00 a b) eqn:E; [apply is00_true in E; destruct E; lia|reflexivity].
Qed.
Lemma idm_00 a b : is00 a b = true -> idm a b = 0.
Proof. intros E. unfold SymbolFacts.idm, SymbolFacts.imu. rewrite E. ring. Qed.
Lemma pi2_pos : 0 < 4 / PI ^ 2.
Proof. pose proof PI_RGT_0. apply Rdiv_lt_0_compat; nra. Qed.
Lemma trip_upper f : rms ny nx (trip f) <= rms ny nx (demean ny nx f).
Proof.
  rewrite !rms_nm, (nm_ext ny nx _ _ (demean_rm f)). rewrite <- (Rmult_1_l (nm ny nx (Rm nodc f))).
  apply nm_rmult; try assumption; [now apply idm_even|apply nodc_even|lra|]. intros a b Ha Hb. unfold nodc. destruct (is00 a b) eqn:E.
  - rewrite idm_00, Rabs_R0 by assumption. lra.
  - apply is00_false in E. destruct (shrink_bounds a b Ha Hb E). pose proof pi2_pos. rewrite Rabs_R1, Rabs_pos_eq; lra.
Qed.
Lemma trip_lower f : 4 / PI ^ 2 * rms ny nx (demean ny nx f) <= rms ny nx (trip f).
Proof.
  rewrite !rms_nm, (nm_ext ny nx _ _ (demean_rm f)). pose proof pi2_pos as P.
  apply Rmult_le_reg_l with (/ (4 / PI ^ 2)); [now apply Rinv_0_lt_compat|]. rewrite <- Rmult_assoc, Rinv_l, Rmult_1_l by lra.
  apply nm_rmult; try assumption; [apply nodc_even|now apply idm_even|left; now apply Rinv_0_lt_compat|]. intros a b Ha Hb. unfold nodc. destruct (is00 a b) eqn:E.
  - rewrite idm_00, Rabs_R0 by assumption. lra.
  - apply is00_false in E. destruct (shrink_bounds a b Ha Hb E). rewrite Rabs_R1, Rabs_pos_eq by lra.
    apply Rmult_le_reg_l with (4 / PI ^ 2); [exact P|]. rewrite <- Rmult_assoc, Rinv_r, Rmult_1_l, Rmult_1_r by lra. exact H.
Qed.
Lemma rlap_rm f : agree ny nx (rlap ny nx h f) (Rm (fun a b => - mu a b) f).
Proof.
  intros i j _ _. unfold rlap. rewrite speclap_rmult by (try assumption; lra). cbn [re RtoC]. unfold Rdiv. rewrite Rmult_comm, <- rmult_scale.
  apply rmult_ext; auto. intros a b _ _. unfold SymbolFacts.mu. rewrite lam_symbol by (try assumption; lra). field. lra.
Qed.
Lemma mmu_even : even_mult ny nx (fun a b => - mu a b).
Proof. intros a b Ha Hb. cbv beta. now rewrite (mu_even ny nx h Hy Hx Hh a b Ha Hb). Qed.
Lemma mu_pos a b : 0 <= mu a b.
Proof. eapply Rle_trans; [|now apply ell_mu]. now apply ell_pos. Qed.
Lemma idm0_fine f : nm ny nx (Rm (idm0 ny nx h) f) <= h ^ 2 / 12 * nm ny nx (rlap ny nx h f).
Proof.
  rewrite (nm_ext ny nx _ _ (rlap_rm f)). apply nm_rmult; try assumption; [now apply idm0_even|apply mmu_even|nra|].
  intros a b Ha Hb. rewrite Rabs_Ropp, (Rabs_pos_eq (mu a b)) by apply mu_pos. unfold idm0. destruct (is00 a b) eqn:E.
  - rewrite Rabs_R0. apply Rmult_le_pos; [nra|apply mu_pos].
  - pose proof E as E0. apply is00_false in E. destruct (shrink_bounds a b Ha Hb E) as [_ U]. rewrite Rabs_left1 by lra.
    pose proof (mu_gap ny nx h Hy Hx Hh a b Ha Hb E) as M. pose proof (gap_pos ny nx h Hy Hx Hh). pose proof (mu_ell_mu a b Ha Hb) as D.
    unfold SymbolFacts.idm, SymbolFacts.imu. rewrite E0.
    apply Rmult_le_reg_r with (mu a b); [lra|]. replace (- (- / mu a b * - ell a b - 1) * mu a b) with (mu a b - ell a b) by (field; lra). lra.
Qed.
Lemma trip_err f i j : (i < ny)%nat -> (j < nx)%nat -> trip f i j = demean ny nx f i j + Rm (idm0 ny nx h) f i j.
Proof.
  intros Hi Hj. unfold trip. rewrite <- (invlap_lap5 ny nx h Hy Hx Hh f i j Hi Hj). now apply invlap_lap5_err.
Qed.
Lemma trip_close f : rms ny nx (fun i j => trip f i j - demean ny nx f i j) <= h ^ 2 / 12 * rms ny nx (rlap ny nx h f).
Proof.
  rewrite !rms_nm. rewrite (nm_ext ny nx _ (Rm (idm0 ny nx h) f)) by (intros i j Hi Hj; rewrite trip_err by assumption; ring). apply idm0_fine.
Qed.
(** ** waves *)
Lemma trip_gwave k l th i j : (2 * Z.abs k < Z.of_nat ny)%Z -> (2 * Z.abs l < Z.of_nat nx)%Z -> ~ (k = 0 /\ l = 0)%Z ->
  trip (gwave ny nx k l th) i j = shrink ny nx k l * gwave ny nx k l th i j.
Proof.
  intros Hk Hl Hne. unfold trip. rewrite rmult_gwave by (try assumption; now apply idm_even). f_equal.
  rewrite trip_shrink; [now rewrite !sfreq_pidx|now apply pidx_lt|now apply pidx_lt|].
  destruct (Nat.eq_dec (pidx ny k) 0) as [E1|]; [|now left]. destruct (Nat.eq_dec (pidx nx l) 0) as [E2|]; [|now right].
  exfalso. apply Hne. split; [now apply (pidx_0_iff ny nx Hy Hx ny)|now apply (pidx_0_iff ny nx Hy Hx nx)].
Qed.
Lemma trip_lin a b f g i j : trip (fadd (fscale a f) (fscale b g)) i j = a * trip f i j + b * trip g i j.
Proof. unfold trip. apply rmult_lin. Qed.
Lemma trip_ext f g i j : agree ny nx f g -> trip f i j = trip g i j.
Proof. intros E. unfold trip. apply rmult_ext; auto. Qed.
Lemma trip_checker i j : Nat.Even ny -> Nat.Even nx -> (i < ny)%nat -> (j < nx)%nat -> trip checker i j = 4 / PI ^ 2 * checker i j.
Proof.
  intros Ey Ex Hi Hj. unfold trip. rewrite <- (invlap_lap5 ny nx h Hy Hx Hh checker i j Hi Hj).
  rewrite (invlap_ext ny nx h _ (fscale (- (8 / h ^ 2)) checker)) by (intros a b Ha Hb; unfold fscale; apply lap5_checker; (assumption || lra)).
  rewrite invlap_checker by (assumption || lra). pose proof PI_RGT_0. field. split; lra.
Qed.
End T.
Lemma trip_sine n h i j : (3 <= n)%nat -> 0 < h -> (i < n)%nat -> (j < n)%nat ->
  trip n n h (test_sine n) i j = (sin (PI / INR n) / (PI / INR n)) ^ 2 * test_sine n i j.
Proof.
  intros Hn Hh Hi Hj. assert (H0 : (0 < n)%nat) by lia. pose proof (INR_pos n H0) as HN. pose proof PI_RGT_0 as HP.
  assert (D : forall i j, test_sine n i j = / 2 * gwave n n (-1) 1 0 i j + (- / 2) * gwave n n 1 1 2 i j).
  { intros a b. unfold test_sine, gwave. 
    set (u := 2 * PI * INR b / INR n). set (v := 2 * PI * INR a / INR n).
    replace (2 * PI * IZR (-1) / INR n * INR a + 2 * PI * IZR 1 / INR n * INR b + 0) with ((u + 1) - (v + 1)) by (unfold u, v; field; lra).
    replace (2 * PI * IZR 1 / INR n * INR a + 2 * PI * IZR 1 / INR n * INR b + 2) with ((u + 1) + (v + 1)) by (unfold u, v; field; lra).
    generalize (u + 1) (v + 1). intros A B. rewrite cos_minus, cos_plus. field. }
  rewrite (trip_ext n n h (test_sine n) (fadd (fscale (/ 2) (gwave n n (-1) 1 0)) (fscale (- / 2) (gwave n n 1 1 2)))) by (intros a b _ _; apply D).
  rewrite trip_lin, !trip_gwave by (assumption || lia). rewrite (D i j).
  assert (S : forall k, (k = 1 \/ k = -1)%Z -> shrink n n k 1 = (sin (PI / INR n) / (PI / INR n)) ^ 2).
  { intros k Hk. unfold shrink. assert (E : sin (PI * IZR k / INR n) ^ 2 = sin (PI / INR n) ^ 2 /\ (PI * IZR k / INR n) ^ 2 = (PI / INR n) ^ 2).
    { destruct Hk as [->| ->]; split.
      - f_equal. f_equal. field. lra.
      - field. lra.
      - replace (PI * -1 / INR n) with (- (PI / INR n)) by (field; lra). rewrite sin_neg. ring.
      - field. lra. }
    destruct E as [-> ->]. rewrite !Rmult_1_r. field. repeat split; nra. }
  rewrite !S by lia. ring.
Qed.
