(** Rows and times of plots in binary64. *)
From Coq Require Import ZArith Reals Lra Lia List String SpecFloat Bool.
From Verif Require Import Num NdArray ModelIO ModelRun ModelRunHW ModelPlot ModelPlot64 SpecRound SpecPlot64 RoundFacts FloorFacts.
Import ListNotations.
Local Open Scope R_scope.

(** subtracting zero *)
Lemma sub0 x s : finite64 x -> finite64 (SFsub 53 1024 x (S754_zero s)) /\ fval (SFsub 53 1024 x (S754_zero s)) = fval x.
Proof.
  intros Hx. destruct x as [s'| | |s' m e]; try (exfalso; exact (proj2 Hx)).
  - destruct s', s; (split; [split; [reflexivity|exact I]|reflexivity]).
  - split; [exact Hx|reflexivity].
Qed.

Section File.
Context {V : Type} (f : h5 V f64) (dt tin : f64) (n : nat).
Hypothesis F : equal_rows64 f dt tin n.

Lemma image_eval t : image_row64 f t =
  bind (f64_trunc (f64_floordiv (SFsub 53 1024 t tin) dt)) (fun q => row_index n q).
Proof.
  unfold image_row64, rows_len64, initial_time64, dlook. rewrite (eq_dt _ _ _ _ F), (eq_start _ _ _ _ F). cbn [bind attr_num64].
  destruct (eq_rows _ _ _ _ F) as (l & E & L). rewrite E. cbn [bind]. rewrite L. reflexivity.
Qed.
Lemma image_row_at t q : finite64 t -> let d := SFsub 53 1024 t tin in
  Rabs (fval t - fval tin) <= 2 ^ 48 * fval dt -> Rabs (fval t - fval tin) <= 2 ^ 1000 ->
  IZR q <= fval d / fval dt < IZR q + 1 -> image_row64 f t = row_index n q.
Proof.
  intros Ht d B1 B2 HQ. rewrite image_eval. destruct (eq_fin _ _ _ _ F) as (Fd & Pd & Ft).
  assert (B1023 : 2 ^ 1001 <= 2 ^ 1023) by (apply Rle_pow; [lra|lia]).
  assert (B1001 : 2 ^ 1001 = 2 * 2 ^ 1000) by (change 1001%nat with (S 1000); rewrite <- tech_pow_Rmult; reflexivity).
  assert (P1000 : 0 < 2 ^ 1000) by (apply pow_lt; lra).
  destruct (sub_ok t tin Ht Ft) as [S1 S2]; [lra|]. fold d in S1, S2.
  assert (U : uro <= 1) by (rewrite uro_num; lra).
  pose proof (Rabs_pos (fval t - fval tin)). assert (uro * Rabs (fval t - fval tin) <= 1 * Rabs (fval t - fval tin)) by (apply Rmult_le_compat_r; lra).
  apply tri in S2.
  fold d. rewrite (floordiv_int d dt q); [reflexivity|exact S1|exact Fd|exact Pd| | |exact HQ]; [|lra].
  replace (2 ^ 49) with (2 * 2 ^ 48) by lra. lra.
Qed.
End File.

Lemma row_in n r : (r < n)%nat -> row_index n (Z.of_nat r) = Ok r.
Proof.
  intros H. unfold row_index. replace ((0 <=? Z.of_nat r)%Z && (Z.of_nat r <? Z.of_nat n)%Z)%bool with true; [now rewrite Nat2Z.id|].
  symmetry. apply andb_true_iff. split; [apply Z.leb_le|apply Z.ltb_lt]; lia.
Qed.
Lemma row_over n q : (Z.of_nat n <= q)%Z -> row_index n q = Exn IndexError.
Proof.
  intros H. unfold row_index. replace (q <? Z.of_nat n)%Z with false by (symmetry; apply Z.ltb_ge; lia).
  replace (q <? 0)%Z with false by (symmetry; apply Z.ltb_ge; lia). now rewrite andb_false_r.
Qed.
Lemma row_neg n r : (0 < r <= n)%nat -> row_index n (- Z.of_nat r) = Ok (n - r)%nat.
Proof.
  intros H. unfold row_index. replace (0 <=? - Z.of_nat r)%Z with false by (symmetry; apply Z.leb_gt; lia). cbn [andb].
  replace (- Z.of_nat r <? 0)%Z with true by (symmetry; apply Z.ltb_lt; lia). replace (- Z.of_nat n <=? - Z.of_nat r)%Z with true by (symmetry; apply Z.leb_le; lia).
  cbn [andb]. f_equal. lia.
Qed.

Lemma c116_image (V : Type) (f : h5 V f64) dt tin n t : equal_rows64 f dt tin n -> finite64 t ->
  Rabs (fval t - fval tin) <= 2 ^ 48 * fval dt -> Rabs (fval t - fval tin) <= 2 ^ 1000 ->
  let d := SFsub 53 1024 t tin in
  (forall r, (r < n)%nat -> INR r <= fval d / fval dt < INR r + 1 -> image_row64 f t = Ok r) /\
  (INR n <= fval d / fval dt -> image_row64 f t = Exn IndexError) /\
  (forall r, (0 < r <= n)%nat -> - INR r <= fval d / fval dt < - INR r + 1 -> image_row64 f t = Ok (n - r)%nat).
Proof.
  intros F Ht B1 B2 d. split; [|split].
  - intros r Hr HQ. rewrite (image_row_at f dt tin n F t (Z.of_nat r) Ht B1 B2); [now apply row_in|]. fold d. now rewrite <- INR_IZR_INZ.
  - intros HQ. destruct (archimed (fval d / fval dt)) as [A1 A2]. set (q := (up (fval d / fval dt) - 1)%Z).
    assert (Hq : IZR q <= fval d / fval dt < IZR q + 1) by (unfold q; rewrite minus_IZR; lra).
    rewrite (image_row_at f dt tin n F t q Ht B1 B2 Hq). apply row_over. apply Z.lt_succ_r. apply lt_IZR. rewrite <- INR_IZR_INZ, succ_IZR. lra.
  - intros r Hr HQ. rewrite (image_row_at f dt tin n F t (- Z.of_nat r) Ht B1 B2); [now apply row_neg|]. fold d. now rewrite opp_IZR, <- INR_IZR_INZ.
Qed.

(** times k * dt *)
Lemma kdt k dt : finite64 dt -> scale64 (fval dt) -> (Z.of_nat k <= 2 ^ 40)%Z ->
  near (SFmul 53 1024 (f64_ofZ (Z.of_nat k)) dt) (INR k * fval dt) (fval dt / 1000).
Proof.
  intros Fd Sd Hk. destruct (ofZ_exact (Z.of_nat k) ltac:(lia)) as [K1 K2]. change (SpecFloat.binary_normalize 53 1024 (Z.of_nat k) 0 false) with (f64_ofZ (Z.of_nat k)) in *.
  pose proof (mag_pos _ _ (scale_mag _ Sd)) as Pd. pose proof (mag_tiny 1 _ ltac:(lia) (scale_mag _ Sd)) as Te. pose proof (mag_huge 1 _ ltac:(lia) (scale_mag _ Sd)) as Th.
  assert (KR : 0 <= INR k <= 2 ^ 40).
  { split; [apply pos_INR|]. rewrite INR_IZR_INZ. replace (2 ^ 40) with (IZR (2 ^ 40)) by (rewrite pow_IZR; reflexivity). now apply IZR_le. }
  assert (Kd : 0 <= INR k * fval dt <= 2 ^ 40 * fval dt) by (split; [apply Rmult_le_pos; lra|apply Rmult_le_compat_r; lra]).
  rewrite <- INR_IZR_INZ in K2. destruct (mul_ok _ dt K1 Fd) as [M1 M2].
  - rewrite K2, Rabs_right by lra. unfold scale64 in Sd. apply Rle_trans with (2 ^ 40 * 2 ^ 200); [|rewrite <- pow_add; apply Rle_pow; [lra|lia]].
    apply Rle_trans with (1 := proj2 Kd). apply Rmult_le_compat_l; lra.
  - rewrite K2 in M2. rewrite (Rabs_right (INR k * fval dt)) in M2 by lra. split; [exact M1|]. apply Rle_trans with (1 := M2).
    assert (uro * (INR k * fval dt) <= uro * (2 ^ 40 * fval dt)) by (apply Rmult_le_compat_l; [pose proof uro_pos; lra|lra]).
    rewrite uro_num in *. lra.
Qed.
Lemma zero_is z : finite64 z -> fval z = 0 -> exists s, z = S754_zero s.
Proof. apply fin0. Qed.

Lemma c116_multiple (V : Type) (f : h5 V f64) dt tin n k : equal_rows64 f dt tin n -> fval tin = 0 -> scale64 (fval dt) ->
  (k < n)%nat -> (Z.of_nat k <= 2 ^ 40)%Z ->
  let t := SFmul 53 1024 (f64_ofZ (Z.of_nat k)) dt in
  (INR k * fval dt <= fval t -> image_row64 f t = Ok k) /\
  (fval t < INR k * fval dt -> (0 < k)%nat /\ image_row64 f t = Ok (k - 1)%nat).
Proof.
  intros F T0 Sd Hk Kb t. destruct (eq_fin _ _ _ _ F) as (Fd & Pd & Ft). destruct (kdt k dt Fd Sd Kb) as [Ht Nt]. fold t in Ht, Nt.
  destruct (fin0 tin Ft T0) as [s Es]. destruct (sub0 t s Ht) as [D1 D2]. rewrite <- Es in D1, D2.
  assert (KR : 0 <= INR k <= 2 ^ 40).
  { split; [apply pos_INR|]. rewrite INR_IZR_INZ. replace (2 ^ 40) with (IZR (2 ^ 40)) by (rewrite pow_IZR; reflexivity). now apply IZR_le. }
  apply abs_inv in Nt.
  assert (Kd : 0 <= INR k * fval dt <= 2 ^ 40 * fval dt) by (split; [apply Rmult_le_pos; lra|apply Rmult_le_compat_r; lra]).
  assert (B1 : Rabs (fval t - fval tin) <= 2 ^ 48 * fval dt) by (rewrite T0; apply Rabs_le; lra).
  assert (B2 : Rabs (fval t - fval tin) <= 2 ^ 1000).
  { apply Rle_trans with (1 := B1). unfold scale64 in Sd. apply Rle_trans with (2 ^ 48 * 2 ^ 200); [apply Rmult_le_compat_l; lra|]. rewrite <- pow_add. apply Rle_pow; [lra|lia]. }
  destruct (c116_image V f dt tin n t F Ht B1 B2) as (C & _ & _). rewrite D2 in C.
  assert (Q : forall r, INR r * fval dt <= fval t < (INR r + 1) * fval dt -> INR r <= fval t / fval dt < INR r + 1).
  { intros r [A B]. split; [apply Rmult_le_reg_r with (fval dt)|apply Rmult_lt_reg_r with (fval dt)]; try exact Pd; unfold Rdiv; rewrite Rmult_assoc, Rinv_l, Rmult_1_r by lra; assumption. }
  split; intros H.
  - apply C; [exact Hk|]. apply Q. lra.
  - assert (K0 : (0 < k)%nat).
    { destruct k; [|lia]. exfalso. cbn [INR] in H. unfold t in H.
      assert (G : exists s', SFmul 53 1024 (f64_ofZ (Z.of_nat 0)) dt = S754_zero s').
      { clear - Fd. destruct dt as [s0| | |s0 m e]; try (exfalso; exact (proj2 Fd)); eexists; reflexivity. }
      destruct G as [s' G]. rewrite G in H. cbn [fval] in H. lra. }
    split; [exact K0|]. apply C; [lia|]. apply Q. rewrite minus_INR by lia. cbn [INR]. lra.
Qed.

(** ** rounding to the nearest row *)
Lemma ttl t dt k : finite64 t -> finite64 dt -> 0 < fval dt -> (Z.abs k <= 2 ^ 48)%Z -> Rabs (fval t - IZR k * fval dt) <= fval dt / 4 ->
  time_to_length64 t dt = Ok k.
Proof.
  intros Ht Fd Pd Hk HD. unfold time_to_length64.
  assert (KR : Rabs (IZR k) <= 2 ^ 48).
  { rewrite <- abs_IZR. replace (2 ^ 48) with (IZR (2 ^ 48)) by (rewrite pow_IZR; reflexivity). now apply IZR_le. }
  assert (Q : Rabs (fval t / fval dt - IZR k) <= / 4).
  { replace (fval t / fval dt - IZR k) with ((fval t - IZR k * fval dt) / fval dt) by (field; lra).
    unfold Rdiv. rewrite Rabs_mult, Rabs_inv, (Rabs_right (fval dt)) by lra. apply Rmult_le_reg_r with (fval dt); [exact Pd|].
    rewrite Rmult_assoc, Rinv_l, Rmult_1_r by lra. lra. }
  assert (B1023 : 2 ^ 60 <= 2 ^ 1023) by (apply Rle_pow; [lra|lia]).
  assert (M : Rabs (fval t / fval dt) <= 2 ^ 48 + / 4) by (apply tri in Q; lra).
  destruct (div_ok t dt Ht Fd ltac:(lra) ltac:(lra)) as [V1 V2].
  apply rint_int; [exact V1| |lia].
  replace (fval (SFdiv 53 1024 t dt) - IZR k) with ((fval (SFdiv 53 1024 t dt) - fval t / fval dt) + (fval t / fval dt - IZR k)) by ring.
  apply Rle_lt_trans with (1 := Rabs_triang _ _). pose proof eta_small.
  assert (uro * Rabs (fval t / fval dt) <= / 30) by (rewrite uro_num; lra). lra.
Qed.
Lemma c116_movie (V : Type) (f : h5 V f64) dt tin n : equal_rows64 f dt tin n -> fval tin = 0 -> scale64 (fval dt) ->
  (0 < n)%nat -> (Z.of_nat n <= 2 ^ 40)%Z -> movie_rows64 f (f64_ofZ 0) None = Ok (0%Z, (Z.of_nat n - 1)%Z).
Proof.
  intros F T0 Sd Hn Nb. destruct (eq_fin _ _ _ _ F) as (Fd & Pd & Ft).
  unfold movie_rows64, rows_len64, initial_time64, dlook. rewrite (eq_dt _ _ _ _ F), (eq_start _ _ _ _ F). cbn [bind attr_num64].
  destruct (eq_rows _ _ _ _ F) as (l & E & L). rewrite E. cbn [bind]. rewrite L.
  destruct (fin0 tin Ft T0) as [s ->].
  destruct (ofZ_exact 0 ltac:(lia)) as [Z1 Z2]. destruct (sub0 (f64_ofZ 0) s Z1) as [D1 D2].
  rewrite (ttl _ dt 0 D1 Fd Pd ltac:(lia)).
  2:{ rewrite D2. unfold f64_ofZ. rewrite Z2. rewrite Rmult_0_l, Rminus_0_r, Rabs_R0. lra. }
  cbn [bind]. replace (Z.of_nat n - 1)%Z with (Z.of_nat (n - 1)) by lia.
  destruct (kdt (n - 1) dt Fd Sd ltac:(lia)) as [K1 K2]. destruct (sub0 _ s K1) as [D3 D4].
  rewrite (ttl _ dt (Z.of_nat (n - 1)) D3 Fd Pd ltac:(lia)); [reflexivity|].
  rewrite D4, <- INR_IZR_INZ. apply abs_inv in K2. apply Rabs_le. lra.
Qed.
Lemma c116_start (V : Type) (f : h5 V f64) dt tin n t q : equal_rows64 f dt tin n -> finite64 t ->
  Rabs (fval t) <= 2 ^ 48 * fval dt -> Rabs (fval t) <= 2 ^ 1000 -> IZR q <= fval t / fval dt < IZR q + 1 -> start_index64 f t = Ok q.
Proof.
  intros F Ht B1 B2 HQ. destruct (eq_fin _ _ _ _ F) as (Fd & Pd & _). unfold start_index64, dlook. rewrite (eq_dt _ _ _ _ F). cbn [bind attr_num64].
  apply floordiv_int; try assumption; [replace (2 ^ 49) with (2 * 2 ^ 48) by lra; lra|].
  apply Rle_trans with (1 := B2). apply Rle_pow; [lra|lia].
Qed.
