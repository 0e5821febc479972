(** Root mean squares of grid fields, and Fourier multipliers in this norm. *)
From Coq Require Import List Arith ZArith Lia Bool Reals Lra Psatz.
From Verif Require Import Num NdArray NdFacts Spec GradFacts SumFacts LapFacts Cplx DftFacts SpecFourier PoissonFacts SpecHW SpecPlasma SpecConv SmoothFacts WaveStab.
Import ListNotations.
Local Open Scope R_scope.

Section N.
Variables (ny nx : nat).
Hypothesis Hy : (0 < ny)%nat.
Hypothesis Hx : (0 < nx)%nat.
Local Notation cells := (INR ny * INR nx).
Lemma cells_gt : 0 < cells.
Proof. apply Rmult_lt_0_compat; now apply lt_0_INR. Qed.

(** mean of the product, root mean square *)
Definition ip (f g : field) : R := inner ny nx f g / cells.
Definition nm (f : field) : R := sqrt (ip f f).
Lemma ip_msq f : ip f f = msq ny nx f.
Proof. unfold ip, msq, gmean, inner. f_equal. apply gsum_ext. intros. ring. Qed.
Lemma ip_ext f f' g g' : agree ny nx f f' -> agree ny nx g g' -> ip f g = ip f' g'.
Proof. intros E1 E2. unfold ip, inner. f_equal. apply gsum_ext. intros i j Hi Hj. now rewrite E1, E2. Qed.
Lemma ip_comm f g : ip f g = ip g f.
Proof. unfold ip, inner. f_equal. apply gsum_ext. intros. ring. Qed.
Lemma ip_add f g k : ip f (fadd g k) = ip f g + ip f k.
Proof.
  unfold ip, inner, fadd. rewrite <- Rdiv_plus_distr, <- gsum_add. f_equal. apply gsum_ext. intros. ring.
Qed.
Lemma ip_scale c f g : ip f (fscale c g) = c * ip f g.
Proof. unfold ip, inner, fscale, Rdiv. rewrite <- Rmult_assoc, <- gsum_scal. f_equal. apply gsum_ext. intros. ring. Qed.
Lemma ip_pos f : 0 <= ip f f.
Proof.
  unfold ip. apply Rmult_le_pos; [|left; apply Rinv_0_lt_compat, cells_gt]. apply gsum_nonneg. intros. apply Rle_0_sqr.
Qed.
Lemma nm_pos f : 0 <= nm f. Proof. apply sqrt_pos. Qed.
Lemma nm_sq f : nm f ^ 2 = ip f f.
Proof. unfold nm. rewrite <- Rsqr_pow2. apply Rsqr_sqrt, ip_pos. Qed.
Lemma nm_le_sq f B : 0 <= B -> ip f f <= B ^ 2 -> nm f <= B.
Proof. intros HB H. unfold nm. rewrite <- (sqrt_pow2 B HB). now apply sqrt_le_1_alt. Qed.
Lemma nm_ext f g : agree ny nx f g -> nm f = nm g.
Proof. intros E. unfold nm. now rewrite (ip_ext f g f g E E). Qed.
Lemma ip_le f g c : 0 <= c -> (forall i j, (i < ny)%nat -> (j < nx)%nat -> Rabs (f i j) <= c * Rabs (g i j)) -> ip f f <= c ^ 2 * ip g g.
Proof.
  intros Hc H. pose proof cells_gt. unfold ip, Rdiv. rewrite <- Rmult_assoc. apply Rmult_le_compat_r; [left; now apply Rinv_0_lt_compat|].
  unfold inner. rewrite <- gsum_scal. apply rsum_le. intros i Hi. apply rsum_le. intros j Hj. specialize (H i j Hi Hj).
  replace (f i j * f i j) with (Rabs (f i j) * Rabs (f i j)) by (rewrite <- Rabs_mult; apply Rabs_pos_eq, Rle_0_sqr).
  replace (g i j * g i j) with (Rabs (g i j) * Rabs (g i j)) by (rewrite <- Rabs_mult; apply Rabs_pos_eq, Rle_0_sqr).
  pose proof (Rabs_pos (f i j)). pose proof (Rabs_pos (g i j)). 
  replace (c ^ 2 * (Rabs (g i j) * Rabs (g i j))) with ((c * Rabs (g i j)) * (c * Rabs (g i j))) by ring.
  now apply Rmult_le_compat.
Qed.
Lemma nm_mul f g c : 0 <= c -> (forall i j, (i < ny)%nat -> (j < nx)%nat -> Rabs (f i j) <= c * Rabs (g i j)) -> nm f <= c * nm g.
Proof.
  intros Hc H. apply nm_le_sq; [apply Rmult_le_pos; [exact Hc|apply nm_pos]|]. rewrite Rpow_mult_distr, nm_sq. now apply ip_le.
Qed.
Lemma nm_const c : nm (fconst c) = Rabs c.
Proof.
  unfold nm, ip, inner, fconst. rewrite gsum_const. pose proof cells_gt.
  replace (cells * (c * c) / cells) with (c ^ 2) by (field; split; apply not_0_INR; lia). now rewrite <- sqrt_Rsqr_abs, Rsqr_pow2.
Qed.
Lemma nm_bd f B : 0 <= B -> (forall i j, (i < ny)%nat -> (j < nx)%nat -> Rabs (f i j) <= B) -> nm f <= B.
Proof.
  intros HB H. apply Rle_trans with (1 * nm (fconst B)); [|rewrite nm_const, Rabs_pos_eq; lra].
  apply nm_mul; [lra|]. intros i j Hi Hj. unfold fconst. rewrite Rmult_1_l, (Rabs_pos_eq B) by exact HB. now apply H.
Qed.
Lemma nm_scale c f : nm (fscale c f) = Rabs c * nm f.
Proof.
  unfold nm. rewrite ip_scale, ip_comm, ip_scale. replace (c * (c * ip f f)) with (c ^ 2 * ip f f) by ring.
  rewrite sqrt_mult; [|apply pow2_ge_0|apply ip_pos]. f_equal. rewrite <- sqrt_Rsqr_abs, Rsqr_pow2. reflexivity.
Qed.
(** Cauchy-Schwarz *)
Lemma ip_cs f g : Rabs (ip f g) <= nm f * nm g.
Proof.
  assert (Q : forall s, 0 <= ip f f + 2 * s * ip f g + s ^ 2 * ip g g).
  { intros s. pose proof (ip_pos (fadd f (fscale s g))) as P. rewrite ip_add, ip_scale in P.
    rewrite (ip_comm _ f), (ip_comm _ g), !ip_add, !ip_scale, (ip_comm g f) in P. lra. }
  assert (D : (ip f g) ^ 2 <= ip f f * ip g g).
  { pose proof (ip_pos f) as Pf. pose proof (ip_pos g) as Pg. destruct (Req_dec (ip g g) 0) as [E|E].
    - rewrite E, Rmult_0_r. destruct (Req_dec (ip f g) 0) as [E2|E2]; [rewrite E2; lra|]. exfalso.
      specialize (Q (- (ip f f + 1) / (2 * ip f g))). rewrite E in Q.
      replace (2 * (- (ip f f + 1) / (2 * ip f g)) * ip f g) with (- (ip f f + 1)) in Q by (field; exact E2). lra.
    - specialize (Q (- ip f g / ip g g)).
      replace (ip f f + 2 * (- ip f g / ip g g) * ip f g + (- ip f g / ip g g) ^ 2 * ip g g) with (ip f f - (ip f g) ^ 2 / ip g g) in Q by (field; exact E).
      assert (ip f g ^ 2 / ip g g <= ip f f) by lra. apply (Rmult_le_compat_r (ip g g)) in H; [|exact Pg].
      unfold Rdiv in H. rewrite Rmult_assoc, Rinv_l in H by exact E. lra. }
  apply Rsqr_incr_0_var; [|apply Rmult_le_pos; apply nm_pos]. rewrite !Rsqr_pow2, Rpow_mult_distr, !nm_sq, pow2_abs. exact D.
Qed.
Lemma ip_bd f g : ip f g <= nm f * nm g.
Proof. eapply Rle_trans; [apply Rle_abs|apply ip_cs]. Qed.
Lemma nm_add f g : nm (fadd f g) <= nm f + nm g.
Proof.
  pose proof (nm_pos f). pose proof (nm_pos g). apply nm_le_sq; [lra|].
  rewrite ip_add, (ip_comm _ f), (ip_comm _ g), !ip_add, (ip_comm g f). pose proof (ip_bd f g). rewrite <- !nm_sq. nra.
Qed.
Lemma nm_sub f g : nm (fsub f g) <= nm f + nm g.
Proof.
  rewrite (nm_ext _ (fadd f (fscale (-1) g))) by (intros i j _ _; unfold fsub, fadd, fscale; ring).
  eapply Rle_trans; [apply nm_add|]. rewrite nm_scale. replace (Rabs (-1)) with 1 by (rewrite Rabs_left; lra). lra.
Qed.
Lemma nm_shift f ky kx : nm (fun i j => f (sh ny i ky) (sh nx j kx)) = nm f.
Proof. unfold nm, ip, inner. do 2 f_equal. exact (gsum_shift ny nx ky kx (fun i j => f i j * f i j) Hy Hx). Qed.

(** ** Fourier multipliers *)
Lemma ip_rmult m f : even_mult ny nx m -> ip (rmult ny nx m f) (rmult ny nx m f) =
  / cells / cells * gsum ny nx (fun a b => m a b * m a b * Cnorm2 (dft2 ny nx (cfield f) (Z.of_nat a) (Z.of_nat b))).
Proof.
  intros He. unfold ip. rewrite <- rmult_selfadjoint by assumption.
  replace (inner ny nx f (rmult ny nx m (rmult ny nx m f))) with (inner ny nx f (rmult ny nx (fun a b => m a b * m a b) f)).
  - rewrite inner_rmult_sq; [unfold Rdiv; ring|assumption|assumption|]. intros a b Ha Hb. cbv beta. now rewrite He.
  - apply gsum_ext. intros i j Hi Hj. f_equal. symmetry. now apply rmult_rmult.
Qed.
Lemma nm_rmult m m' c f : even_mult ny nx m -> even_mult ny nx m' -> 0 <= c ->
  (forall a b, (a < ny)%nat -> (b < nx)%nat -> Rabs (m a b) <= c * Rabs (m' a b)) ->
  nm (rmult ny nx m f) <= c * nm (rmult ny nx m' f).
Proof.
  intros He He' Hc H. apply nm_le_sq; [apply Rmult_le_pos; [exact Hc|apply nm_pos]|].
  rewrite Rpow_mult_distr, nm_sq, !ip_rmult by assumption. pose proof cells_gt as P. assert (0 < / cells) by (now apply Rinv_0_lt_compat).
  rewrite <- Rmult_assoc, (Rmult_comm (c ^ 2)), Rmult_assoc. apply Rmult_le_compat_l; [unfold Rdiv; apply Rmult_le_pos; lra|].
  rewrite <- gsum_scal. apply rsum_le. intros a Ha. apply rsum_le. intros b Hb. specialize (H a b Ha Hb).
  rewrite <- Rmult_assoc. apply Rmult_le_compat_r; [apply Cnorm2_pos|].
  replace (m a b * m a b) with (Rabs (m a b) * Rabs (m a b)) by (rewrite <- Rabs_mult; apply Rabs_pos_eq, Rle_0_sqr).
  replace (c ^ 2 * (m' a b * m' a b)) with ((c * Rabs (m' a b)) * (c * Rabs (m' a b))).
  - apply Rmult_le_compat; auto using Rabs_pos.
  - replace (m' a b * m' a b) with (Rabs (m' a b) * Rabs (m' a b)) by (rewrite <- Rabs_mult; apply Rabs_pos_eq, Rle_0_sqr). ring.
Qed.
Lemma nm_rmult_bd m c f : even_mult ny nx m -> 0 <= c -> (forall a b, (a < ny)%nat -> (b < nx)%nat -> Rabs (m a b) <= c) -> nm (rmult ny nx m f) <= c * nm f.
Proof.
  intros He Hc H. rewrite <- (nm_ext (rmult ny nx (fun _ _ => 1) f) f) by (intros i j Hi Hj; now apply rmult_one).
  apply nm_rmult; [exact He|intros a b _ _; reflexivity|exact Hc|]. intros a b Ha Hb. rewrite Rabs_R1, Rmult_1_r. now apply H.
Qed.

(** pointwise values from the mean *)
Lemma point_nm f i j : (i < ny)%nat -> (j < nx)%nat -> f i j ^ 2 <= cells * nm f ^ 2.
Proof.
  intros Hi Hj. rewrite nm_sq. unfold ip. pose proof cells_gt. replace (cells * (inner ny nx f f / cells)) with (inner ny nx f f) by (field; split; apply not_0_INR; lia).
  assert (G : forall n (g : nat -> R) k, (k < n)%nat -> (forall i, (i < n)%nat -> 0 <= g i) -> g k <= rsum n g).
  { induction n as [|n IH]; intros g k Hk Hg; [lia|]. cbn [rsum]. assert (0 <= g n) by (apply Hg; lia).
    destruct (Nat.eq_dec k n) as [->|]; [pose proof (rsum_nonneg n g ltac:(intros; apply Hg; lia)); lia || lra|].
    pose proof (IH g k ltac:(lia) ltac:(intros; apply Hg; lia)). lra. }
  unfold inner, gsum. eapply Rle_trans; [|apply (G ny (fun i => rsum nx (fun j => f i j * f i j)) i Hi)].
  - eapply Rle_trans; [|apply (G nx (fun j => f i j * f i j) j Hj); intros; apply Rle_0_sqr]. right. ring.
  - intros a _. apply rsum_nonneg. intros. apply Rle_0_sqr.
Qed.
End N.
