(** Relative rounding errors; the symbol of the Laplacian in binary64. *)
From Coq Require Import List Arith ZArith Reals Lra Lia SpecFloat Bool Psatz.
From Verif Require Import Num NdArray Spec Cplx SpecFourier SpecRound RoundFacts ModelPoisson ModelPoisson64 SpecPoisson64 DftFacts PoissonFacts PiFacts FloorFacts.
Import ListNotations.
Local Open Scope R_scope.
Local Existing Instance NumF64.

Lemma uro_small : 0 < uro < / 1000000000000000.
Proof. split; [apply uro_pos|]. rewrite uro_num. lra. Qed.

(** relative error [c] units *)
Definition rel (x : f64) (r c : R) : Prop := near x r (c * uro * Rabs r).
Lemma rel_exact x : finite64 x -> rel x (fval x) 0.
Proof. intros F. unfold rel. replace (0 * uro * Rabs (fval x)) with 0 by ring. now apply near_self. Qed.
Lemma rel_mono x r c c' : rel x r c -> c <= c' -> rel x r c'.
Proof.
  intros H L. eapply near_mono; [exact H|]. pose proof uro_pos. pose proof (Rabs_pos r).
  apply Rmult_le_compat_r; [assumption|]. apply Rmult_le_compat_r; lra.
Qed.
Lemma rel_opp x r c : rel x r c -> rel (SFopp x) (- r) c.
Proof.
  intros [F H]. destruct (opp_exact x F) as [F' E]. split; [exact F'|]. rewrite E, Rabs_Ropp.
  replace (- fval x - - r) with (- (fval x - r)) by ring. now rewrite Rabs_Ropp.
Qed.
Lemma rel_size x r c : rel x r c -> 0 <= c <= 1000 -> Rabs (fval x) <= 1.001 * Rabs r /\ 0.999 * Rabs r <= Rabs (fval x).
Proof.
  intros [F H] C. destruct uro_small as [U1 U2]. pose proof (Rabs_pos r) as P.
  assert (K : c * uro * Rabs r <= 0.001 * Rabs r).
  { apply Rmult_le_compat_r; [exact P|]. assert (c * uro <= 1000 * uro) by (apply Rmult_le_compat_r; lra). lra. }
  split.
  - apply tri in H. lra.
  - rewrite <- Rabs_Ropp in H. replace (- (fval x - r)) with (r - fval x) in H by ring. apply tri in H. lra.
Qed.
Lemma rel_mul x y r s a b c : rel x r a -> rel y s b -> 0 <= a <= 100 -> 0 <= b <= 100 -> mag 4 (Rabs (r * s)) -> a + b + 1.001 <= c ->
  rel (SFmul 53 1024 x y) (r * s) c.
Proof.
  intros Hx Hy Ha Hb HM Hc. destruct uro_small as [U1 U2]. pose proof (mag_tiny 4 _ ltac:(lia) HM) as HT. pose proof (mag_huge 4 _ ltac:(lia) HM) as HH.
  rewrite Rabs_mult in HT, HH. set (Q := Rabs r * Rabs s) in *.
  assert (PQ : 0 <= Q) by (apply Rmult_le_pos; apply Rabs_pos).
  assert (E : Rabs r * (b * uro * Rabs s) + Rabs s * (a * uro * Rabs r) + a * uro * Rabs r * (b * uro * Rabs s) = ((a + b) * uro + a * uro * (b * uro)) * Q)
    by (unfold Q; ring).
  assert (AB : 0 <= a * uro * (b * uro) <= uro / 10000).
  { assert (0 <= a * uro <= / 10000000000000) by (split; [apply Rmult_le_pos; lra|assert (a * uro <= 100 * uro) by (apply Rmult_le_compat_r; lra); lra]).
    assert (0 <= b * uro <= 100 * uro) by (split; [apply Rmult_le_pos; lra|apply Rmult_le_compat_r; lra]).
    split; [apply Rmult_le_pos; lra|]. apply Rle_trans with (/ 10000000000000 * (100 * uro)); [apply Rmult_le_compat; lra|lra]. }
  assert (AB2 : 0 <= (a + b) * uro <= / 1000000000000).
  { split; [apply Rmult_le_pos; lra|]. assert ((a + b) * uro <= 200 * uro) by (apply Rmult_le_compat_r; lra). lra. }
  pose proof (near_mul x y r s _ _ (Rabs r) (Rabs s) Hx Hy (Rle_refl _) (Rle_refl _)) as N. rewrite E in N. fold Q in N.
  eapply near_mono; [apply N; assert (((a + b) * uro + a * uro * (b * uro)) * Q <= 1 * Q) by (apply Rmult_le_compat_r; lra); lra|].
  rewrite Rabs_mult. fold Q.
  assert (S1 : uro * (Q + ((a + b) * uro + a * uro * (b * uro)) * Q) <= (1 + / 1000000) * uro * Q).
  { replace (uro * (Q + ((a + b) * uro + a * uro * (b * uro)) * Q)) with ((1 + ((a + b) * uro + a * uro * (b * uro))) * uro * Q) by ring.
    apply Rmult_le_compat_r; [exact PQ|]. apply Rmult_le_compat_r; lra. }
  assert (S2 : ((a + b) * uro + a * uro * (b * uro)) * Q <= (a + b + / 10000) * uro * Q) by (apply Rmult_le_compat_r; lra).
  assert (S3 : (a + b + 1.001) * uro * Q <= c * uro * Q) by (apply Rmult_le_compat_r; [exact PQ|]; apply Rmult_le_compat_r; lra).
  assert (0 <= uro * Q) by (apply Rmult_le_pos; lra). lra.
Qed.
Lemma rel_add x y r s a c : rel x r a -> rel y s a -> 0 <= a <= 100 -> 0 <= r -> 0 <= s -> r + s <= W ^ 4 -> a + 1.001 <= c ->
  rel (SFadd 53 1024 x y) (r + s) c.
Proof.
  intros Hx Hy Ha Hr Hs HM Hc. destruct uro_small as [U1 U2]. unfold rel in Hx, Hy. rewrite Rabs_right in Hx, Hy by lra.
  pose proof (huge _ HM) as HH.
  assert (A : 0 <= a * uro <= / 10000000000000) by (split; [apply Rmult_le_pos; lra|assert (a * uro <= 100 * uro) by (apply Rmult_le_compat_r; lra); lra]).
  pose proof (near_add x y r s _ _ (r + s) Hx Hy ltac:(rewrite Rabs_right; lra)) as N.
  assert (E : r + s + a * uro * r + a * uro * s = (1 + a * uro) * (r + s)) by ring.
  rewrite E in N.
  assert (S0 : (1 + a * uro) * (r + s) <= 2 * (r + s)) by (apply Rmult_le_compat_r; lra).
  eapply near_mono; [apply N; lra|]. rewrite Rabs_right by lra.
  assert (S1 : uro * ((1 + a * uro) * (r + s)) <= 1.001 * uro * (r + s)).
  { rewrite <- Rmult_assoc. apply Rmult_le_compat_r; [lra|]. rewrite Rmult_comm. apply Rmult_le_compat_r; lra. }
  assert (S3 : (a + 1.001) * uro * (r + s) <= c * uro * (r + s)) by (apply Rmult_le_compat_r; [lra|]; apply Rmult_le_compat_r; lra). lra.
Qed.
Lemma rel_div x y r s a b c : rel x r a -> rel y s b -> 0 <= a <= 100 -> 0 <= b <= 100 -> s <> 0 -> mag 4 (Rabs (r / s)) -> a + b + 1.001 <= c ->
  rel (SFdiv 53 1024 x y) (r / s) c.
Proof.
  intros Hx Hy Ha Hb Hs HM Hc. destruct uro_small as [U1 U2]. pose proof (mag_tiny 4 _ ltac:(lia) HM) as HT. pose proof (mag_huge 4 _ ltac:(lia) HM) as HH.
  pose proof (mag_pos _ _ HM) as PQ.
  destruct (rel_size y s b Hy ltac:(lra)) as [Y1 Y2]. assert (Ps : 0 < Rabs s) by now apply Rabs_pos_lt.
  destruct Hx as [Fx Ex], Hy as [Fy Ey].
  assert (Ny : fval y <> 0) by (intros Z; rewrite Z, Rabs_R0 in Y2; lra).
  assert (Py : 0 < Rabs (fval y)) by now apply Rabs_pos_lt.
  set (Q := Rabs (r / s)) in *.
  assert (EQ : Rabs r = Q * Rabs s) by (unfold Q; rewrite <- Rabs_mult; f_equal; field; exact Hs).
  assert (A : 0 <= a * uro <= / 10000000000000) by (split; [apply Rmult_le_pos; lra|assert (a * uro <= 100 * uro) by (apply Rmult_le_compat_r; lra); lra]).
  assert (B : 0 <= b * uro <= / 10000000000000) by (split; [apply Rmult_le_pos; lra|assert (b * uro <= 100 * uro) by (apply Rmult_le_compat_r; lra); lra]).
  assert (D : Rabs (fval x / fval y - r / s) <= (a + b + / 10000) * uro * Q).
  { replace (fval x / fval y - r / s) with (((fval x - r) - r / s * (fval y - s)) / fval y) by (field; split; assumption).
    unfold Rdiv at 1. rewrite Rabs_mult, Rabs_inv.
    assert (N : Rabs (fval x - r - r / s * (fval y - s)) <= (a + b) * uro * Q * Rabs s).
    { unfold Rminus at 1. apply Rle_trans with (1 := Rabs_triang _ _). rewrite Rabs_Ropp, Rabs_mult. fold Q. rewrite EQ in Ex.
      assert (Q * Rabs (fval y - s) <= Q * (b * uro * Rabs s)) by (apply Rmult_le_compat_l; lra). lra. }
    apply Rmult_le_reg_r with (Rabs (fval y)); [exact Py|]. rewrite Rmult_assoc, Rinv_l by lra. rewrite Rmult_1_r.
    apply Rle_trans with (1 := N).
    assert (L : (1 - b * uro) * Rabs s <= Rabs (fval y)).
    { rewrite <- Rabs_Ropp in Ey. replace (- (fval y - s)) with (s - fval y) in Ey by ring. apply tri in Ey. lra. }
    apply Rle_trans with ((a + b + / 10000) * uro * Q * ((1 - b * uro) * Rabs s)).
    2:{ apply Rmult_le_compat_l; [|exact L]. apply Rmult_le_pos; [apply Rmult_le_pos; lra|lra]. }
    replace ((a + b + / 10000) * uro * Q * ((1 - b * uro) * Rabs s)) with ((a + b + / 10000) * (1 - b * uro) * (uro * Q * Rabs s)) by ring.
    replace ((a + b) * uro * Q * Rabs s) with ((a + b) * (uro * Q * Rabs s)) by ring.
    apply Rmult_le_compat_r; [apply Rmult_le_pos; [apply Rmult_le_pos; lra|lra]|].
    assert ((a + b + / 10000) * (b * uro) <= 201 * / 10000000000000) by (apply Rmult_le_compat; lra). lra. }
  assert (M : Rabs (fval x / fval y) <= 1.0001 * Q).
  { apply tri in D. fold Q in D. assert ((a + b + / 10000) * uro <= 201 * uro) by (apply Rmult_le_compat_r; lra).
    assert ((a + b + / 10000) * uro * Q <= 0.0001 * Q) by (apply Rmult_le_compat_r; lra). lra. }
  destruct (div_ok x y Fx Fy Ny) as [F H]. { change (2 ^ 1023) with big. lra. }
  split; [exact F|].
  replace (fval (SFdiv 53 1024 x y) - r / s) with ((fval (SFdiv 53 1024 x y) - fval x / fval y) + (fval x / fval y - r / s)) by ring.
  apply Rle_trans with (1 := Rabs_triang _ _). fold Q.
  assert (uro * Rabs (fval x / fval y) <= uro * (1.0001 * Q)) by (apply Rmult_le_compat_l; lra).
  assert (S3 : (a + b + 1.001) * uro * Q <= c * uro * Q) by (apply Rmult_le_compat_r; [lra|]; apply Rmult_le_compat_r; lra).
  assert (0 <= uro * Q) by (apply Rmult_le_pos; lra). lra.
Qed.

(** ** zeros *)
Lemma rel_0_zero x c : rel x 0 c -> exists s, x = S754_zero s.
Proof.
  intros [[V F] H]. rewrite Rabs_R0, Rmult_0_r, Rminus_0_r in H.
  destruct x as [s| | |s m e]; try contradiction; [now exists s|exfalso].
  cbn [fval] in H. rewrite Rabs_mult in H. pose proof (two_pos e) as T. rewrite (Rabs_right (two e)) in H by lra.
  assert (P : 0 < IZR (Zpos m)) by (apply (IZR_lt 0); lia).
  assert (0 < Rabs (if s then - IZR (Zpos m) else IZR (Zpos m))) by (apply Rabs_pos_lt; destruct s; lra).
  assert (0 < Rabs (if s then - IZR (Zpos m) else IZR (Zpos m)) * two e) by now apply Rmult_lt_0_compat. lra.
Qed.
Lemma zero_finite s : finite64 (S754_zero s).
Proof. split; [reflexivity|exact I]. Qed.
Lemma rel_zero s c : rel (S754_zero s) 0 c.
Proof. split; [apply zero_finite|]. cbn [fval]. rewrite Rminus_0_r, Rabs_R0. lra. Qed.
Lemma mul_zero_l s y : finite64 y -> exists s', SFmul 53 1024 (S754_zero s) y = S754_zero s'.
Proof. intros [_ F]. destruct y as [t| | |t m e]; try contradiction; eexists; reflexivity. Qed.
Lemma mul_zero_r s x : finite64 x -> exists s', SFmul 53 1024 x (S754_zero s) = S754_zero s'.
Proof. intros [_ F]. destruct x as [t| | |t m e]; try contradiction; eexists; reflexivity. Qed.
Lemma add_zero_val x s : finite64 x -> finite64 (SFadd 53 1024 x (S754_zero s)) /\ fval (SFadd 53 1024 x (S754_zero s)) = fval x.
Proof.
  intros F. destruct x as [t| | |t m e]; try (destruct F; contradiction); [|split; [exact F|reflexivity]].
  destruct s, t; cbn; (split; [apply zero_finite|reflexivity]).
Qed.
Lemma sub_zero_val x s : finite64 x -> finite64 (SFsub 53 1024 x (S754_zero s)) /\ fval (SFsub 53 1024 x (S754_zero s)) = fval x.
Proof.
  intros F. destruct x as [t| | |t m e]; try (destruct F; contradiction); [|split; [exact F|reflexivity]].
  destruct s, t; cbn; (split; [apply zero_finite|reflexivity]).
Qed.

(** ** moderate sizes *)
Lemma mag40 t : / 10 ^ 40 <= t <= 10 ^ 40 -> mag 1 t.
Proof.
  assert (H : 10 ^ 40 <= W ^ 1).
  { Transparent W. unfold W. Opaque W. rewrite pow_1, !pow_IZR. apply IZR_le. vm_compute. discriminate. }
  assert (P : 0 < 10 ^ 40) by (apply pow_lt; lra).
  intros [L U]. split; [|lra]. apply Rle_trans with (2 := L). now apply Rinv_le_contravar.
Qed.

(** ** frequencies *)
Lemma f64_ofZ_rel z : (Z.abs z <= 2 ^ 53)%Z -> rel (f64_ofZ z) (IZR z) 0.
Proof.
  intros H. destruct (ofZ_exact z H) as [F E]. change (f64_ofZ z) with (SpecFloat.binary_normalize 53 1024 z 0 false). rewrite <- E.
  now apply rel_exact.
Qed.
Lemma fft_ints_nth n i d : (i < n)%nat -> nth i (fft_ints n) d = sfreq n i.
Proof. exact (itab_nth n i d). Qed.
Lemma fft_ints_length n : (0 < n)%nat -> length (fft_ints n) = n.
Proof. exact (itab_length n). Qed.
Lemma nat_size n : (0 < n)%nat -> (Z.of_nat n <= 1000000)%Z -> 1 <= INR n <= 1000000.
Proof.
  intros H H'. rewrite INR_IZR_INZ. split; [apply (IZR_le 1); lia|now apply IZR_le].
Qed.
Lemma sfreq_size n i : (i < n)%nat -> (Z.of_nat n <= 1000000)%Z -> (Z.abs (sfreq n i) <= 1000000)%Z.
Proof. intros H H'. pose proof (sfreq_bound n i H). lia. Qed.
Lemma freq_size n i : (i < n)%nat -> (Z.of_nat n <= 1000000)%Z -> Rabs (IZR (sfreq n i) / INR n) <= 0.5.
Proof.
  intros H H'. pose proof (sfreq_bound n i H) as B. destruct (nat_size n ltac:(lia) H') as [L U]. unfold Rdiv.
  rewrite Rabs_mult, (Rabs_right (/ INR n)) by (apply Rle_ge, Rlt_le, Rinv_0_lt_compat; lra).
  apply Rmult_le_reg_r with (INR n); [lra|]. rewrite Rmult_assoc, Rinv_l, Rmult_1_r by lra.
  rewrite <- abs_IZR, INR_IZR_INZ. assert (2 * Z.abs (sfreq n i) <= Z.of_nat n)%Z by lia.
  apply IZR_le in H0. rewrite mult_IZR in H0. lra.
Qed.
Lemma freq_low n i : (i < n)%nat -> (i <> 0)%nat -> (Z.of_nat n <= 1000000)%Z -> / 1000000 <= Rabs (IZR (sfreq n i) / INR n).
Proof.
  intros H Hi H'. destruct (nat_size n ltac:(lia) H') as [L U]. unfold Rdiv.
  rewrite Rabs_mult, (Rabs_right (/ INR n)) by (apply Rle_ge, Rlt_le, Rinv_0_lt_compat; lra).
  assert (1 <= Rabs (IZR (sfreq n i))) by (rewrite <- abs_IZR; apply (IZR_le 1); pose proof (sfreq_ne0 n i H Hi); lia).
  assert (/ 1000000 <= / INR n) by (apply Rinv_le_contravar; lra). rewrite <- (Rmult_1_l (/ 1000000)). apply Rmult_le_compat; lra.
Qed.
Lemma nmul_F (x y : f64) : nmul x y = SFmul 53 1024 x y. Proof. reflexivity. Qed.
Lemma ndiv_F (x y : f64) : ndiv x y = SFdiv 53 1024 x y. Proof. reflexivity. Qed.
Lemma nadd_F (x y : f64) : nadd x y = SFadd 53 1024 x y. Proof. reflexivity. Qed.
Lemma nsub_F (x y : f64) : nsub x y = SFsub 53 1024 x y. Proof. reflexivity. Qed.
Lemma nopp_F (x : f64) : nopp x = SFopp x. Proof. reflexivity. Qed.

Lemma mag1_4 t : mag 1 t -> mag 4 t.
Proof. apply mag_le. lia. Qed.
Lemma p40 : 10 ^ 40 = 10000000000000000000000000000000000000000.
Proof. rewrite pow_IZR. reflexivity. Qed.
Lemma mag_num t : / 1000000000000000000000000000000 <= t <= 1000000000000000000000000000000 -> mag 4 t.
Proof. intros H. apply mag1_4, mag40. rewrite p40. lra. Qed.

Lemma np_freq_rel n i : (i < n)%nat -> (Z.of_nat n <= 1000000)%Z -> rel (nth i (np_fftfreq64 n) zero64) (IZR (sfreq n i) / INR n) 3.01.
Proof.
  intros H H'. unfold np_fftfreq64. destruct (nat_size n ltac:(lia) H') as [L U].
  rewrite (nth_indep _ _ (nmul (f64_ofZ 0) (ndiv (f64_ofZ 1) (nmul (f64_ofZ (Z.of_nat n)) (f64_ofZ 1))))) by (rewrite map_length, fft_ints_length; lia).
  rewrite (map_nth (fun z => nmul (f64_ofZ z) (ndiv (f64_ofZ 1) (nmul (f64_ofZ (Z.of_nat n)) (f64_ofZ 1))))), fft_ints_nth by assumption.
  assert (R1 : rel (nmul (f64_ofZ (Z.of_nat n)) (f64_ofZ 1)) (IZR (Z.of_nat n) * IZR 1) 1.001).
  { rewrite nmul_F. eapply (rel_mul _ _ _ _ 0 0); try (apply f64_ofZ_rel; lia); try lra. rewrite <- INR_IZR_INZ, Rmult_1_r, Rabs_right by lra.
    apply mag_num; lra. }
  rewrite <- INR_IZR_INZ, Rmult_1_r in R1.
  assert (R2 : rel (ndiv (f64_ofZ 1) (nmul (f64_ofZ (Z.of_nat n)) (f64_ofZ 1))) (IZR 1 / INR n) 2.003).
  { rewrite ndiv_F. eapply (rel_div _ _ _ _ 0 1.001); try exact R1; try (apply f64_ofZ_rel; lia); try lra.
    assert (/ 1000000 <= / INR n <= 1) by (split; [apply Rinv_le_contravar; lra|rewrite <- Rinv_1; apply Rinv_le_contravar; lra]).
    unfold Rdiv. rewrite Rmult_1_l, Rabs_right by lra. apply mag_num; lra. }
  destruct (Nat.eq_dec i 0) as [->|Hi].
  - rewrite sfreq_0 by lia. unfold Rdiv. rewrite Rmult_0_l. change (f64_ofZ 0) with (S754_zero false).
    rewrite nmul_F. destruct (mul_zero_l false _ (proj1 R2)) as [s ->]. apply rel_zero.
  - replace (IZR (sfreq n i) / INR n) with (IZR (sfreq n i) * (IZR 1 / INR n)) by (field; lra).
    pose proof (sfreq_size n i H H'). rewrite nmul_F. eapply (rel_mul _ _ _ _ 0 2.003); try exact R2; try (apply f64_ofZ_rel; lia); try lra.
    replace (IZR (sfreq n i) * (IZR 1 / INR n)) with (IZR (sfreq n i) / INR n) by (field; lra).
    pose proof (freq_size n i H H'). pose proof (freq_low n i H Hi H'). apply mag_num; lra.
Qed.
Lemma nb_freq_rel n i : (i < n)%nat -> (Z.of_nat n <= 65536)%Z -> rel (nth i (custom_fftfreq64 n) zero64) (IZR (sfreq n i) / INR n) 3.01.
Proof.
  intros H H1. assert (H' : (Z.of_nat n <= 1000000)%Z) by lia. unfold custom_fftfreq64. destruct (nat_size n ltac:(lia) H') as [L U].
  rewrite (nth_indep _ _ (ndiv (f64_ofZ (wrap16 0)) (f64_ofZ (Z.of_nat n)))) by (rewrite map_length, fft_ints_length; lia).
  rewrite (map_nth (fun z => ndiv (f64_ofZ (wrap16 z)) (f64_ofZ (Z.of_nat n)))), fft_ints_nth by assumption.
  pose proof (sfreq_bound n i H). rewrite wrap16_id by lia.
  assert (R1 : rel (f64_ofZ (Z.of_nat n)) (INR n) 0) by (rewrite INR_IZR_INZ; apply f64_ofZ_rel; lia).
  destruct (Nat.eq_dec i 0) as [->|Hi].
  - rewrite sfreq_0 by lia. unfold Rdiv. rewrite Rmult_0_l. change (f64_ofZ 0) with (S754_zero false).
    destruct R1 as [[V F] E]. rewrite Rmult_0_l, Rmult_0_l in E. rewrite ndiv_F. destruct (f64_ofZ (Z.of_nat n)) as [s| | |s m e]; try contradiction.
    + cbn [fval] in E. apply abs_inv in E. lra.
    + cbn. apply rel_zero.
  - pose proof (sfreq_size n i H H'). rewrite ndiv_F. eapply (rel_div _ _ _ _ 0 0); try exact R1; try (apply f64_ofZ_rel; lia); try lra.
    pose proof (freq_size n i H H'). pose proof (freq_low n i H Hi H'). apply mag_num; lra.
Qed.

(** ** the symbol *)
Lemma PI_bounds : 3 <= PI <= 3.2.
Proof.
  pose proof pi64_val as H. destruct uro_small. apply abs_inv in H. revert H.
  assert (E : fval pi64v = 7074237752028440 / 2251799813685248).
  { unfold pi64v, fval, two. change (powerRZ 2 (-51)) with (/ 2 ^ Pos.to_nat 51). rewrite pow_IZR. zconst. lra. }
  rewrite E. intros [L U]. pose proof PI_RGT_0. pose proof PI_4.
  assert (uro * PI <= / 1000000000000000 * 4) by (apply Rmult_le_compat; lra). lra.
Qed.
Lemma sq_rel x r c : rel x r 3.01 -> r = 0 \/ / 1000000 <= Rabs r <= 0.5 -> 7.03 <= c -> rel (sq64 x) (r ^ 2) c.
Proof.
  intros H [->|D] Hc.
  - destruct (rel_0_zero _ _ H) as [s ->]. replace (0 ^ 2) with 0 by ring. unfold sq64. rewrite nmul_F.
    destruct (mul_zero_l s _ (zero_finite s)) as [s' ->]. apply rel_zero.
  - replace (r ^ 2) with (r * r) by ring. unfold sq64. rewrite nmul_F. eapply rel_mul; try exact H; try lra.
    rewrite Rabs_mult. assert (/ 1000000 * / 1000000 <= Rabs r * Rabs r) by (apply Rmult_le_compat; lra).
    assert (Rabs r * Rabs r <= 0.5 * 0.5) by (apply Rmult_le_compat; lra). apply mag_num. lra.
Qed.
Definition freqs (n : nat) (f : list f64) : Prop := forall i, (i < n)%nat -> rel (nth i f zero64) (IZR (sfreq n i) / INR n) 3.01.
Lemma lam_size ny nx k l : (k < ny)%nat -> (l < nx)%nat -> (k <> 0 \/ l <> 0)%nat -> (Z.of_nat ny <= 1000000)%Z -> (Z.of_nat nx <= 1000000)%Z ->
  / 1000000000000 <= (IZR (sfreq ny k) / INR ny) ^ 2 + (IZR (sfreq nx l) / INR nx) ^ 2 <= 0.5 /\ / 1000000000000 <= Rabs (lam ny nx k l) <= 21.
Proof.
  intros Hk Hl Hne Hy Hx. set (a := IZR (sfreq ny k) / INR ny). set (b := IZR (sfreq nx l) / INR nx).
  assert (A : Rabs a <= 0.5) by now apply freq_size. assert (B : Rabs b <= 0.5) by now apply freq_size.
  assert (A2 : a ^ 2 <= 0.25) by (rewrite <- pow2_abs; pose proof (Rabs_pos a); nra).
  assert (B2 : b ^ 2 <= 0.25) by (rewrite <- pow2_abs; pose proof (Rabs_pos b); nra).
  pose proof (pow2_ge_0 a). pose proof (pow2_ge_0 b).
  assert (L : / 1000000000000 <= a ^ 2 + b ^ 2).
  { destruct Hne as [Hne|Hne].
    - assert (/ 1000000 <= Rabs a) by now apply freq_low. assert (/ 1000000 * / 1000000 <= a ^ 2) by (rewrite <- pow2_abs; nra). lra.
    - assert (/ 1000000 <= Rabs b) by now apply freq_low. assert (/ 1000000 * / 1000000 <= b ^ 2) by (rewrite <- pow2_abs; nra). lra. }
  split; [lra|]. unfold lam. fold a b. rewrite Rabs_mult, Rabs_Ropp, !Rabs_right by (try apply Rle_ge, pow2_ge_0; lra).
  pose proof PI_bounds. assert (36 <= (2 * PI) ^ 2 <= 41) by (split; nra). split.
  - apply Rle_trans with (1 * (a ^ 2 + b ^ 2)); [lra|]. apply Rmult_le_compat_r; lra.
  - apply Rle_trans with (41 * 0.5); [apply Rmult_le_compat; lra|lra].
Qed.
Lemma symbol_rel ny nx fy fx k l : freqs ny fy -> freqs nx fx -> (k < ny)%nat -> (l < nx)%nat -> (k <> 0 \/ l <> 0)%nat ->
  (Z.of_nat ny <= 1000000)%Z -> (Z.of_nat nx <= 1000000)%Z -> rel (fft_laplace64 fy fx k l) (lam ny nx k l) 14.1.
Proof.
  intros Fy Fx Hk Hl Hne Hy Hx. destruct (lam_size ny nx k l Hk Hl Hne Hy Hx) as [S1 S2]. pose proof PI_bounds as PB.
  assert (D : forall n i, (i < n)%nat -> (Z.of_nat n <= 1000000)%Z -> IZR (sfreq n i) / INR n = 0 \/ / 1000000 <= Rabs (IZR (sfreq n i) / INR n) <= 0.5).
  { intros n i Hi Hn. destruct (Nat.eq_dec i 0) as [->|N0].
    - left. rewrite sfreq_0 by lia. unfold Rdiv. apply Rmult_0_l.
    - right. split; [now apply freq_low|now apply freq_size]. }
  unfold fft_laplace64. rewrite nmul_F.
  assert (C1 : rel (nmul (f64_ofZ 2) pi64) (IZR 2 * PI) 2.001).
  { rewrite nmul_F. eapply (rel_mul _ _ _ _ 0 1); [apply f64_ofZ_rel; lia| |lra|lra| |lra].
    - split; [exact pi64_finite|]. rewrite (Rabs_right PI), Rmult_1_l by lra. exact pi64_val.
    - rewrite Rabs_right by lra. apply mag_num. lra. }
  assert (C2 : rel (sq64 (nmul (f64_ofZ 2) pi64)) ((2 * PI) ^ 2) 5.01).
  { replace ((2 * PI) ^ 2) with (2 * PI * (2 * PI)) by ring. unfold sq64. rewrite nmul_F. eapply rel_mul; try exact C1; try lra.
    rewrite Rabs_right by nra. apply mag_num. split; nra. }
  apply rel_opp in C2. rewrite <- nopp_F in C2.
  assert (K : rel (nadd (sq64 (nth k fy zero64)) (sq64 (nth l fx zero64))) ((IZR (sfreq ny k) / INR ny) ^ 2 + (IZR (sfreq nx l) / INR nx) ^ 2) 8.04).
  { rewrite nadd_F. eapply (rel_add _ _ _ _ 7.03); try (apply pow2_ge_0); try lra.
    - apply sq_rel; [now apply Fy|now apply D|lra].
    - apply sq_rel; [now apply Fx|now apply D|lra].
    - assert (HH : mag 4 1) by (apply mag_num; lra). destruct HH. lra. }
  eapply rel_mul; try exact C2; try exact K; try lra. fold (lam ny nx k l). apply mag_num. lra.
Qed.
