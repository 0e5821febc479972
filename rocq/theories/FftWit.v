(** The concrete case of C121: the transform of two points. *)
From Coq Require Import List Arith ZArith Reals Lra Lia SpecFloat Bool Psatz.
From Verif Require Import Num NdArray Spec Cplx SpecFourier SpecHW SpecRound SpecRoundStep RoundFacts RoundProps RoundCons
  ModelPoisson ModelPoisson64 SpecPoisson64 NdFacts SumFacts DftFacts PoissonFacts PiFacts SymRound PoissonRound FftRegime.
Import ListNotations.
Local Open Scope R_scope.
Local Existing Instance NumF64.

(** sum and difference; half sum and half difference *)
Definition half64 : f64 := S754_finite false 4503599627370496 (-53).
Definition fft12 : fft_fun := fun _ _ g _ l =>
  let '(ar, ai) := g 0%nat 0%nat in let '(br, bi) := g 0%nat 1%nat in
  if (l =? 0)%nat then (nadd ar br, nadd ai bi) else (nsub ar br, nsub ai bi).
Definition ifft12 : fft_fun := fun ny nx g i j => let '(x, y) := fft12 ny nx g i j in (nmul x half64, nmul y half64).

Lemma half_val : finite64 half64 /\ fval half64 = / 2.
Proof.
  split; [split; [vm_compute; reflexivity|exact I]|]. unfold half64, fval, two. cbn [powerRZ]. replace (Pos.to_nat 53) with 53%nat by reflexivity. lra.
Qed.
Lemma wn1 z : wn 1 z = C1.
Proof. rewrite <- (wn_0 1). apply wn_eqm; [lia|]. now rewrite !Z.mod_1_r. Qed.
Lemma wn2_1 : wn 2 1 = mkC (- 1) 0.
Proof. unfold wn, cis. replace (2 * PI * 1 / INR 2) with PI by (cbn; field). now rewrite cos_PI, sin_PI. Qed.
Lemma wn2_m1 : wn 2 (- 1) = mkC (- 1) 0.
Proof. rewrite <- wn2_1. apply wn_eqm; [lia|reflexivity]. Qed.
Lemma dft12_0 f : dft2 1 2 f 0 0 = Cadd (f 0%nat 0%nat) (f 0%nat 1%nat).
Proof. unfold dft2. cbn [csum Z.of_nat Z.mul Z.opp]. rewrite !wn_0. ring. Qed.
Lemma dft12_1 f : dft2 1 2 f 0 1 = Csub (f 0%nat 0%nat) (f 0%nat 1%nat).
Proof. unfold dft2. cbn [csum Z.of_nat Z.mul Z.opp Pos.of_succ_nat Pos.mul]. rewrite wn2_m1, !wn_0. apply C_eq; cbn; ring. Qed.
Lemma idft12_0 f : idft2 1 2 f 0 0 = Cscal (/ 2) (Cadd (f 0%nat 0%nat) (f 0%nat 1%nat)).
Proof. unfold idft2. cbn [csum Z.of_nat Z.mul]. rewrite !wn_0. replace (INR 1 * INR 2) with 2 by (cbn; ring). f_equal. ring. Qed.
Lemma idft12_1 f : idft2 1 2 f 0 1 = Cscal (/ 2) (Csub (f 0%nat 0%nat) (f 0%nat 1%nat)).
Proof.
  unfold idft2. cbn [csum Z.of_nat Z.mul Pos.of_succ_nat Pos.mul]. rewrite wn2_1, !wn_0. replace (INR 1 * INR 2) with 2 by (cbn; ring). f_equal.
  apply C_eq; cbn; ring.
Qed.
Lemma size12 f : size1 1 2 f = Rabs (re (f 0%nat 0%nat)) + Rabs (im (f 0%nat 0%nat)) + (Rabs (re (f 0%nat 1%nat)) + Rabs (im (f 0%nat 1%nat))).
Proof. unfold size1, gsum. cbn [rsum]. ring. Qed.
Lemma S800 S : / 2 ^ 800 <= S <= 2 ^ 800 -> mag 4 S.
Proof. Transparent W. unfold mag, W. Opaque W. rewrite <- pow_mult. change (200 * 4)%nat with 800%nat. exact (fun H => H). Qed.
Lemma fft12_acc : fft_accurate 1 2 (2 * uro) fft12.
Proof.
  intros g S Hg HS HR k l Hk Hl. apply S800 in HR. pose proof (mag_huge 4 _ ltac:(lia) HR) as HH. pose proof (mag_pos _ _ HR) as PS. destruct uro_small as [U1 U2].
  destruct (Hg 0%nat 0%nat ltac:(lia) ltac:(lia)) as [A1 A2]. destruct (Hg 0%nat 1%nat ltac:(lia) ltac:(lia)) as [B1 B2]. rewrite size12 in HS.
  unfold cvals, cval in HS. cbn [re im] in HS.
  replace k with 0%nat by lia. unfold fft12. destruct (g 0%nat 0%nat) as [ar ai] eqn:Ea, (g 0%nat 1%nat) as [br bi] eqn:Eb. cbn [fst snd] in *.
  pose proof (Rabs_pos (fval ar)). pose proof (Rabs_pos (fval ai)). pose proof (Rabs_pos (fval br)). pose proof (Rabs_pos (fval bi)).
  assert (U : 0 <= uro * S) by (apply Rmult_le_pos; lra).
  assert (TA : forall x y, Rabs x + Rabs y <= S -> Rabs (x + y) <= S) by (intros x y; pose proof (Rabs_triang x y); lra).
  assert (TS : forall x y, Rabs x + Rabs y <= S -> Rabs (x - y) <= S) by (intros x y; pose proof (Rabs_triang x (- y)); rewrite Rabs_Ropp in *; unfold Rminus; lra).
  destruct (Nat.eq_dec l 0) as [->|Nl].
  - change (Z.of_nat 0) with 0%Z. rewrite dft12_0. unfold cvals. rewrite Ea, Eb. cbn [Nat.eqb]. split; cbn [fst snd cval Cadd re im]; rewrite nadd_F;
      (eapply near_mono; [apply (near_add _ _ _ _ 0 0 S); try (now apply near_self); [apply TA; lra|lra]|lra]).
  - replace l with 1%nat by lia. change (Z.of_nat 0) with 0%Z. change (Z.of_nat 1) with 1%Z. rewrite dft12_1. unfold cvals. rewrite Ea, Eb. cbn [Nat.eqb].
    split; cbn [fst snd cval Csub re im]; rewrite nsub_F;
      (eapply near_mono; [apply (near_sub _ _ _ _ 0 0 S); try (now apply near_self); [apply TS; lra|lra]|lra]).
Qed.
Lemma ifft12_acc : ifft_accurate 1 2 (4 * uro) ifft12.
Proof.
  intros g S Hg HS HR k l Hk Hl. pose proof (fft12_acc g S Hg HS HR k l Hk Hl) as [N1 N2].
  assert (SZ : Rabs (re (dft2 1 2 (cvals g) (Z.of_nat k) (Z.of_nat l))) <= S /\ Rabs (im (dft2 1 2 (cvals g) (Z.of_nat k) (Z.of_nat l))) <= S).
  { rewrite size12 in HS. replace k with 0%nat by lia. change (Z.of_nat 0) with 0%Z.
    set (a := cvals g 0%nat 0%nat) in *. set (b := cvals g 0%nat 1%nat) in *.
    pose proof (Rabs_pos (re a)). pose proof (Rabs_pos (im a)). pose proof (Rabs_pos (re b)). pose proof (Rabs_pos (im b)).
    pose proof (Rabs_triang (re a) (re b)). pose proof (Rabs_triang (im a) (im b)).
    pose proof (Rabs_triang (re a) (- re b)). pose proof (Rabs_triang (im a) (- im b)). rewrite !Rabs_Ropp in *.
    destruct (Nat.eq_dec l 0) as [->|Nl]; [rewrite dft12_0|replace l with 1%nat by lia; change (Z.of_nat 1) with 1%Z; rewrite dft12_1]; fold a b; cbn [Cadd Csub re im]; unfold Rminus; lra. }
  apply S800 in HR. pose proof (mag_pos _ _ HR) as PS. destruct uro_small as [U1 U2]. pose proof (mag_tiny 4 _ ltac:(lia) HR) as HT. pose proof (mag_huge 4 _ ltac:(lia) HR) as HH.
  assert (EI : idft2 1 2 (cvals g) k l = Cscal (/ 2) (dft2 1 2 (cvals g) (Z.of_nat k) (Z.of_nat l))).
  { replace k with 0%nat by lia. change (Z.of_nat 0) with 0%Z.
    destruct (Nat.eq_dec l 0) as [->|Nl]; [now rewrite idft12_0, dft12_0|replace l with 1%nat by lia; change (Z.of_nat 1) with 1%Z; now rewrite idft12_1, dft12_1]. }
  rewrite EI. replace (INR 1 * INR 2) with 2 by (cbn; ring). unfold ifft12. destruct (fft12 1%nat 2%nat g k l) as [x y]. cbn [fst snd] in N1, N2.
  destruct half_val as [F V]. pose proof (near_self half64 F) as NH. rewrite V in NH.
  assert (H2 : Rabs (/ 2) <= / 2) by (rewrite Rabs_right; lra).
  assert (U : 0 < uro * S) by (apply Rmult_lt_0_compat; lra).
  assert (U' : uro * (uro * S) <= / 1000000000000000 * (uro * S)) by (apply Rmult_le_compat_r; lra).
  assert (US : uro * S <= / 1000000000000000 * S) by (apply Rmult_le_compat_r; lra).
  split; cbn [fst snd Cscal re im]; rewrite nmul_F, (Rmult_comm (/ 2));
    (eapply near_mono; [apply (near_mul _ _ _ _ (2 * uro * S) 0 S (/ 2)); try eassumption; try apply SZ; lra|lra]).
Qed.
Lemma acc_mono ny nx e e' f : fft_accurate ny nx e f -> e <= e' -> fft_accurate ny nx e' f.
Proof.
  intros H L g S Hg HS HR k l Hk Hl. pose proof (mag_pos _ _ (S800 _ HR)) as P. destruct (H g S Hg HS HR k l Hk Hl) as [A B].
  assert (e * S <= e' * S) by (apply Rmult_le_compat_r; lra). split; (eapply near_mono; [eassumption|assumption]).
Qed.
Lemma inv_sum12 dx : dx <> 0 -> inv_sum 1 2 dx = (dx / PI) ^ 2.
Proof.
  intros Hd. pose proof PI_RGT_0. rewrite inv_sum_wt by (try lia; assumption). unfold gsum, wt, lam. cbn [rsum Nat.eqb andb].
  change (sfreq 1 0) with 0%Z. change (sfreq 2 1) with (-1)%Z. cbn [INR].
  replace (- (2 * PI) ^ 2 * ((0 / 1) ^ 2 + (-1 / (1 + 1)) ^ 2)) with (- PI ^ 2) by field.
  rewrite Rabs_Ropp, Rabs_right by (apply Rle_ge, pow2_ge_0). field. lra.
Qed.
Lemma case_fft (nb : bool) : fft_regime nb (4 * uro) fft12 ifft12 1 2 one64 1 one64 z64 one64 one64 false 4 1 16 dt64.
Proof.
  destruct one_scale as (A1 & A2 & A3). destruct dt64_val as [D1 D2]. destruct z64_ok as [Z1 Z2]. destruct uro_small as [U1 U2]. pose proof PI_bounds as PB.
  assert (L : 0 <= inv_sum 1 2 1 <= / 9).
  { rewrite inv_sum12 by lra. split; [apply pow2_ge_0|]. unfold Rdiv. rewrite Rmult_1_l. replace (/ 9) with ((/ 3) ^ 2) by field.
    apply pow_incr. split; [apply Rlt_le, Rinv_0_lt_compat; lra|apply Rinv_le_contravar; lra]. }
  constructor; try assumption; try (rewrite A2); try (apply sc1; lra); try lra; try (unfold fft_size; destruct nb; lia).
  - apply (acc_mono _ _ (2 * uro)); [apply fft12_acc|lra].
  - apply ifft12_acc.
  - cbn. lra.
  - intros k Hk. replace k with 0%nat by lia. cbn [pow]. rewrite Rmult_1_l. apply sc1. lra.
  - unfold size_n, size_c, par64. cbn [pN pc1 pnu ppb pkap pzon]. rewrite A2, Z2, !Rabs_R1, Rabs_R0. lra.
  - rewrite D1. unfold lip, par64. cbn [pN pc1 pnu ppb pkap pzon]. rewrite A2, Z2, !Rabs_R1, Rabs_R0. lra.
Qed.
