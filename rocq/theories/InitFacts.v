(** Facts about the initial conditions. *)
From Coq Require Import List Arith ZArith Reals Lra Lia Bool Machin.
From Verif Require Import Num NdArray NdFacts Spec SumFacts Cplx DftFacts SpecFourier ModelPoisson PoissonFacts ModelInit ModelRunHW.
Import ListNotations.
Local Open Scope R_scope.

Definition sg (t : R) : R := 1 / (1 + exp t).
Lemma sg_pos t : 0 < sg t < 1.
Proof.
  unfold sg. pose proof (exp_pos t). split.
  - apply Rdiv_lt_0_compat; lra.
  - apply (Rmult_lt_reg_r (1 + exp t)); [lra|]. field_simplify; lra.
Qed.
Lemma sg_le s t : s <= t <-> sg t <= sg s.
Proof.
  unfold sg. pose proof (exp_pos s). pose proof (exp_pos t). split.
  - intros H1. assert (exp s <= exp t). { destruct H1 as [H1|H1]; [left; now apply exp_increasing|subst; lra]. }
    apply (Rmult_le_reg_r ((1 + exp t) * (1 + exp s))); [apply Rmult_lt_0_compat; lra|]. field_simplify; lra.
  - intros H1. destruct (Rle_dec s t) as [L|L]; [exact L|]. exfalso.
    assert (E : exp t < exp s) by (apply exp_increasing; lra).
    assert (1 / (1 + exp s) < 1 / (1 + exp t)); [|lra].
    apply (Rmult_lt_reg_r ((1 + exp t) * (1 + exp s))); [apply Rmult_lt_0_compat; lra|]. field_simplify; lra.
Qed.
Lemma nonzero_0 : nonzero 0 = false.
Proof. unfold nonzero. destruct (Req_EM_T 0 0); [reflexivity|contradiction]. Qed.
Lemma nonzero_ne x : x <> 0 -> nonzero x = true.
Proof. unfold nonzero. destruct (Req_EM_T x 0); [contradiction|reflexivity]. Qed.
Lemma weight_eq lo hi k : weight lo hi k =
  (if nonzero lo then sg ((lo - k) * 1000) else 1) - (if nonzero hi then sg ((hi - k) * 1000) else 0).
Proof. unfold weight, sg. cbv zeta. destruct (nonzero lo), (nonzero hi); ring. Qed.
Lemma weight_bounds lo hi k : in_bounds (weight lo hi k) = true <-> (lo = 0 \/ hi = 0 \/ lo <= hi).
Proof.
  assert (B : in_bounds (weight lo hi k) = true <-> 0 <= weight lo hi k <= 1).
  { unfold in_bounds. destruct (Rle_dec (weight lo hi k) 1), (Rle_dec 0 (weight lo hi k)); cbn; intuition (lra || discriminate). }
  rewrite B, weight_eq. unfold nonzero. pose proof (sg_pos ((lo - k) * 1000)) as Pl. pose proof (sg_pos ((hi - k) * 1000)) as Ph.
  destruct (Req_EM_T lo 0) as [El|El]; destruct (Req_EM_T hi 0) as [Eh|Eh].
  - intuition lra.
  - intuition lra.
  - intuition lra.
  - assert (W : lo <= hi <-> sg ((hi - k) * 1000) <= sg ((lo - k) * 1000)) by (rewrite <- sg_le; lra).
    split; [intros; right; right; apply W; lra|]. intros [?|[?|H]]; [contradiction|contradiction|]. apply W in H. lra.
Qed.
Lemma mask_ok_iff ny nx w : mask_ok ny nx w = true <-> (forall i j, (i < ny)%nat -> (j < nx)%nat -> in_bounds (w i j) = true).
Proof.
  unfold mask_ok. rewrite forallb_forall. split.
  - intros H i j Hi Hj. specialize (H i ltac:(apply in_seq; lia)). rewrite forallb_forall in H. apply H. apply in_seq. lia.
  - intros H i Hi. apply forallb_forall. intros j Hj. apply in_seq in Hi, Hj. apply H; lia.
Qed.
Lemma mask_ok_band ny nx lo hi (k : nat -> nat -> R) : (0 < ny)%nat -> (0 < nx)%nat ->
  (mask_ok ny nx (fun i j => weight lo hi (k i j)) = true <-> (lo = 0 \/ hi = 0 \/ lo <= hi)).
Proof.
  intros P Q. rewrite mask_ok_iff. split.
  - intros H. apply (weight_bounds lo hi (k 0%nat 0%nat)). apply H; assumption.
  - intros H i j _ _. now apply weight_bounds.
Qed.

(** *** normalisation *)
Lemma np_mean_eq ny nx f : np_mean ny nx f = gmean ny nx f.
Proof.
  unfold np_mean, gmean, gsum. rewrite mult_INR. now f_equal.
Qed.
Definition gvar (ny nx : nat) (f : nat -> nat -> R) : R := gmean ny nx (fun i j => (f i j - gmean ny nx f) ^ 2).
Lemma np_std_eq ny nx f : np_std ny nx f = sqrt (gvar ny nx f).
Proof. unfold np_std, gvar. cbv zeta. f_equal. rewrite !np_mean_eq. reflexivity. Qed.
Lemma gvar_nonneg ny nx f : (0 < ny)%nat -> (0 < nx)%nat -> 0 <= gvar ny nx f.
Proof.
  intros P Q. unfold gvar, gmean, gsum. apply Rmult_le_pos.
  - apply rsum_nonneg. intros i _. apply rsum_nonneg. intros j _. apply pow2_ge_0.
  - left. apply Rinv_0_lt_compat. apply Rmult_lt_0_compat; now apply INR_pos.
Qed.
Lemma gvar_zero ny nx f : (0 < ny)%nat -> (0 < nx)%nat -> gvar ny nx f = 0 -> is_const ny nx f.
Proof.
  intros P Q E.
  assert (S : gsum ny nx (fun i j => (f i j - gmean ny nx f) ^ 2) = 0).
  { unfold gvar in E. unfold gmean in E at 1. apply Rmult_integral in E. destruct E as [E|E]; [exact E|].
    exfalso. revert E. apply Rinv_neq_0_compat. apply INR2_ne; assumption. }
  assert (A : forall i j, (i < ny)%nat -> (j < nx)%nat -> f i j = gmean ny nx f).
  { intros i j Hi Hj. unfold gsum in S.
    apply rsum_0_iff with (i := i) in S; [|intros; apply rsum_nonneg; intros; apply pow2_ge_0|exact Hi].
    apply rsum_0_iff with (i := j) in S; [|intros; apply pow2_ge_0|exact Hj]. cbn in S. nra. }
  intros i j i' j' Hi Hj Hi' Hj'. rewrite !A by assumption. reflexivity.
Qed.
Lemma gmean_const ny nx c : (0 < ny)%nat -> (0 < nx)%nat -> gmean ny nx (fun _ _ => c) = c.
Proof. intros P Q. unfold gmean. rewrite gsum_const. apply INR_pos in P, Q. field. lra. Qed.
Lemma gmean_ext ny nx f g : (forall i j, (i < ny)%nat -> (j < nx)%nat -> f i j = g i j) -> gmean ny nx f = gmean ny nx g.
Proof. intros E. unfold gmean. now rewrite (gsum_ext ny nx f g E). Qed.
Lemma gvar_const ny nx f : (0 < ny)%nat -> (0 < nx)%nat -> is_const ny nx f -> gvar ny nx f = 0.
Proof.
  intros P Q E. unfold gvar.
  assert (A : gmean ny nx f = f 0%nat 0%nat).
  { rewrite (gmean_ext ny nx f (fun _ _ => f 0%nat 0%nat)) by (intros; apply E; assumption). now apply gmean_const. }
  rewrite (gmean_ext ny nx _ (fun _ _ => 0)); [now apply gmean_const|].
  intros i j Hi Hj. rewrite A, (E i j 0%nat 0%nat) by assumption. ring.
Qed.
Lemma gmean_lin ny nx a b f : (0 < ny)%nat -> (0 < nx)%nat -> gmean ny nx (fun i j => f i j * a + b) = gmean ny nx f * a + b.
Proof.
  intros P Q. unfold gmean. rewrite gsum_add, gsum_scal_r, gsum_const. apply INR_pos in P, Q. field. lra.
Qed.
Lemma normalise_ok ny nx f : (0 < ny)%nat -> (0 < nx)%nat -> ~ is_const ny nx f ->
  exists v, normalise ny nx f = Ok (grid ny nx v) /\ gmean ny nx v = 0 /\ gmean ny nx (fun i j => v i j ^ 2) = 1 /\
    forall i j, v i j = (f i j - gmean ny nx f) / sqrt (gvar ny nx f).
Proof.
  intros P Q NC. unfold normalise. rewrite np_std_eq.
  assert (V : 0 < gvar ny nx f).
  { destruct (gvar_nonneg ny nx f P Q) as [H|H]; [exact H|]. exfalso. apply NC. apply gvar_zero; auto. }
  assert (S : 0 < sqrt (gvar ny nx f)) by now apply sqrt_lt_R0.
  destruct (Req_EM_T (sqrt (gvar ny nx f)) 0) as [E|_]; [lra|]. eexists. split; [reflexivity|]. cbv zeta. rewrite np_mean_eq.
  assert (M : gmean ny nx (fun i j => f i j / sqrt (gvar ny nx f)) = gmean ny nx f / sqrt (gvar ny nx f)).
  { unfold Rdiv at 1. rewrite (gmean_ext ny nx _ (fun i j => f i j * / sqrt (gvar ny nx f) + 0)) by (intros; ring).
    rewrite gmean_lin by assumption. unfold Rdiv. ring. }
  rewrite M. split; [|split].
  - rewrite (gmean_ext ny nx _ (fun i j => f i j * / sqrt (gvar ny nx f) + - (gmean ny nx f / sqrt (gvar ny nx f)))) by (intros; unfold Rdiv; ring).
    rewrite gmean_lin by assumption. unfold Rdiv. ring.
  - rewrite (gmean_ext ny nx _ (fun i j => (f i j - gmean ny nx f) ^ 2 * / gvar ny nx f + 0)).
    + rewrite gmean_lin by assumption. fold (gvar ny nx f). field. lra.
    + intros i j _ _. rewrite <- (sqrt_sqrt (gvar ny nx f)) at 3 by lra. field. lra.
  - intros. field. lra.
Qed.
Lemma normalise_const ny nx f : (0 < ny)%nat -> (0 < nx)%nat -> is_const ny nx f -> normalise ny nx f = Exn Unmodelled.
Proof.
  intros P Q E. unfold normalise. rewrite np_std_eq, gvar_const, sqrt_0 by assumption.
  destruct (Req_EM_T 0 0); [reflexivity|contradiction].
Qed.

(** the noise has mean zero before it is normalised *)
Lemma noise_mean ny nx re_ im_ k w : (0 < ny)%nat -> (0 < nx)%nat -> gmean ny nx (noise_array ny nx re_ im_ k w) = 0.
Proof.
  intros P Q. unfold gmean, noise_array. rewrite <- gcsum_re, <- (dft2_00 ny nx).
  change 0%Z with (Z.of_nat 0). rewrite dft2_idft2 by assumption. unfold inv_k. cbn [Nat.eqb andb]. cbn. unfold Rdiv. ring.
Qed.
Lemma noise_normal ny nx re_ im_ size scale f0 f1 l0 l1 factor : (0 < ny)%nat -> (0 < nx)%nat ->
  (low_freq f0 l1 = 0 \/ high_freq f1 l0 = 0 \/ low_freq f0 l1 <= high_freq f1 l0) ->
  ~ is_const ny nx (noise_array ny nx re_ im_ (noise_k ny nx size scale factor)
       (fun i j => weight (low_freq f0 l1) (high_freq f1 l0) (noise_k ny nx size scale factor i j))) ->
  exists v, get_fft_noise ny nx re_ im_ size scale f0 f1 l0 l1 factor = Ok (grid ny nx v) /\
    gmean ny nx v = 0 /\ gmean ny nx (fun i j => v i j ^ 2) = 1.
Proof.
  intros P Q B NC. unfold get_fft_noise. cbv zeta.
  rewrite (proj2 (mask_ok_band ny nx _ _ (noise_k ny nx size scale factor) P Q) B). cbn [negb].
  destruct (normalise_ok ny nx _ P Q NC) as (v & E & M & V & _). exists v. auto.
Qed.
Lemma noise_rejected ny nx re_ im_ size scale f0 f1 l0 l1 factor : (0 < ny)%nat -> (0 < nx)%nat ->
  low_freq f0 l1 <> 0 -> high_freq f1 l0 <> 0 -> high_freq f1 l0 < low_freq f0 l1 ->
  get_fft_noise ny nx re_ im_ size scale f0 f1 l0 l1 factor = Exn AssertionError.
Proof.
  intros P Q N1 N2 B. unfold get_fft_noise. cbv zeta.
  destruct (mask_ok ny nx _) eqn:E; [|reflexivity]. exfalso.
  apply (mask_ok_band ny nx _ _ (noise_k ny nx size scale factor) P Q) in E. intuition lra.
Qed.
(** one cell: always NaN *)
Lemma noise_one re_ im_ size scale f0 f1 l0 l1 factor :
  (low_freq f0 l1 = 0 \/ high_freq f1 l0 = 0 \/ low_freq f0 l1 <= high_freq f1 l0) ->
  get_fft_noise 1 1 re_ im_ size scale f0 f1 l0 l1 factor = Exn Unmodelled.
Proof.
  intros B. unfold get_fft_noise. cbv zeta.
  rewrite (proj2 (mask_ok_band 1 1 _ _ (noise_k 1 1 size scale factor) ltac:(lia) ltac:(lia)) B). cbn [negb].
  apply normalise_const; try lia. intros i j i' j' Hi Hj Hi' Hj'.
  replace i with 0%nat by lia. replace j with 0%nat by lia. replace i' with 0%nat by lia. replace j' with 0%nat by lia. reflexivity.
Qed.
(** the band run.py asks for is never empty *)
Lemma run_band n k0 : (0 < n)%nat -> 0 < k0 ->
  let dx := domain_dx k0 n in
  low_freq 0 (dx * INR n * 100) = 0 \/ high_freq 0 (dx * 12) = 0 \/ low_freq 0 (dx * INR n * 100) <= high_freq 0 (dx * 12).
Proof.
  intros P K dx. right. right. assert (Pn : 0 < INR n) by now apply INR_pos. pose proof PI_RGT_0.
  assert (D : 0 < dx). { unfold dx, domain_dx. apply Rdiv_lt_0_compat; [|exact Pn]. apply Rdiv_lt_0_compat; lra. }
  unfold low_freq, high_freq. assert (0 < dx * INR n) by now apply Rmult_lt_0_compat.
  rewrite !nonzero_ne by lra. unfold Rdiv. rewrite !Rmult_1_l. apply Rinv_le_contravar; [lra|].
  assert (1 <= INR n) by (change 1 with (INR 1); apply le_INR; lia). nra.
Qed.
(** all frequencies are integers over the box size *)
Lemma noise_k_eq ny nx size scale factor i j : (i < ny)%nat -> (j < nx)%nat -> size <> 0 ->
  noise_k ny nx size scale factor i j
  = Rabs (IZR (sfreq ny i) / size * scale) ^ factor + Rabs (IZR (sfreq nx j) / size * scale) ^ factor.
Proof.
  intros Hi Hj S. unfold noise_k. rewrite !np_fftfreq_nth by assumption.
  assert (0 < INR ny) by (apply INR_pos; lia). assert (0 < INR nx) by (apply INR_pos; lia).
  do 2 f_equal; [|]; do 2 f_equal; field; lra.
Qed.
(** a wave whose frequency f lies below max_frequency, but whose f ** factor
    lies above, loses its weight *)
Lemma weight_small lo hi k d : hi <> 0 -> lo = 0 \/ lo <= hi -> 0 < d -> hi + d <= k -> weight lo hi k <= 1 / (1 + 1000 * d).
Proof.
  intros N B D K. rewrite weight_eq. rewrite (nonzero_ne hi N).
  pose proof (exp_pos ((hi - k) * 1000)) as Ep.
  assert (E : exp ((hi - k) * 1000) <= / (1 + 1000 * d)).
  { replace ((hi - k) * 1000) with (- ((k - hi) * 1000)) by ring. rewrite exp_Ropp. apply Rinv_le_contravar; [lra|].
    destruct (Req_dec ((k - hi) * 1000) 0); [lra|]. pose proof (exp_ineq1 ((k - hi) * 1000) H). lra. }
  assert (G : 1 - sg ((hi - k) * 1000) <= 1 / (1 + 1000 * d)).
  { unfold sg. replace (1 - 1 / (1 + exp ((hi - k) * 1000))) with (exp ((hi - k) * 1000) / (1 + exp ((hi - k) * 1000))) by (field; lra).
    apply (Rmult_le_reg_r (1 + exp ((hi - k) * 1000))); [lra|]. unfold Rdiv at 1. rewrite Rmult_assoc, Rinv_l by lra.
    assert (0 < / (1 + 1000 * d)) by (apply Rinv_0_lt_compat; lra). unfold Rdiv. nra. }
  destruct (nonzero lo) eqn:El; [|exact G]. pose proof (sg_pos ((lo - k) * 1000)). lra.
Qed.

(** *** sine *)
Lemma sine_value n L : get_2d_sine n n L = Ok (grid n n (fun i j => sin (2 * PI * L * INR j / INR n + 1) * sin (2 * PI * L * INR i / INR n + 1))).
Proof.
  unfold get_2d_sine. f_equal. apply grid_ext. intros i j Hi Hj.
  assert (0 < INR n) by (apply INR_pos; lia).
  f_equal; f_equal; f_equal; field; lra.
Qed.
Lemma sine_bounded a b L : exists v, get_2d_sine a b L = Ok (grid b a v) /\ forall i j, -1 <= v i j <= 1.
Proof.
  eexists. split; [reflexivity|]. intros i j. cbv beta. generalize (2 * PI * (INR j * L / INR a) + 1), (2 * PI * (INR i * L / INR a) + 1). intros s t.
  pose proof (SIN_bound s). pose proof (SIN_bound t). nra.
Qed.
