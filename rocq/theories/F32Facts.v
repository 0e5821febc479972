(** Rounding to binary32 and sums in any order. *)
From Coq Require Import List Arith ZArith Reals Lra Lia SpecFloat Bool.
From Flocq Require Import Core BinarySingleNaN Relative.
From Verif Require Import Num NdArray SpecRound RoundFacts ModelRun64.
Local Open Scope R_scope.

Local Instance Hp24 : FLX.Prec_gt_0 24 := eq_refl _.
Local Instance Hm128 : Prec_lt_emax 24 128 := eq_refl _.

Lemma rne_equiv' s m l : round_nearest_even m l = choice_mode mode_NE s m l.
Proof.
  case l; [reflexivity|intro c]. case c; [|reflexivity..].
  now simpl; unfold Round.cond_incr; case Z.even.
Qed.
Lemma br_equiv24 s m e : SpecFloat.binary_round 24 128 s m e = binary_round 24 128 mode_NE s m e.
Proof.
  unfold SpecFloat.binary_round, binary_round, shl_align_fexp.
  set (mez := shl_align _ _ _); case mez as [mz ez].
  unfold SpecFloat.binary_round_aux, binary_round_aux. set (mrse' := shr_fexp _ _ _ _ _).
  case mrse'; intros mrs' e'; simpl. now rewrite (rne_equiv' s).
Qed.
Lemma fval_F2R s m e : fval (S754_finite s m e) = F2R (Float radix2 (cond_Zopp s (Zpos m)) e).
Proof.
  unfold fval, F2R. cbn [Fnum Fexp]. rewrite two_bpow. destruct s; cbn [cond_Zopp]; [rewrite <- opp_IZR|]; reflexivity.
Qed.
Lemma fval_SF2R x : fval x = SF2R radix2 x.
Proof. destruct x as [| | |s m e]; try reflexivity. apply fval_F2R. Qed.

Local Notation rnd24 := (round radix2 (SpecFloat.fexp 24 128) (round_mode mode_NE)).
Lemma rnd24_big r : Rabs r <= 2 ^ 127 -> Rlt_bool (Rabs (rnd24 r)) (bpow radix2 128) = true.
Proof.
  intros H. apply Rlt_bool_true. apply Rle_lt_trans with (bpow radix2 127).
  - apply abs_round_le_generic.
    + apply fexp_correct. reflexivity.
    + apply valid_rnd_N.
    + apply generic_format_bpow. unfold SpecFloat.fexp, SpecFloat.emin. lia.
    + rewrite pow_bpow in H. exact H.
  - apply bpow_lt. reflexivity.
Qed.
Lemma rnd24_err r : Rabs (rnd24 r - r) <= / 2 ^ 24 * Rabs r + / 2 ^ 150.
Proof.
  destruct (error_N_FLT radix2 (3 - 128 - 24) 24 eq_refl (fun x => negb (Z.even x)) r) as (eps & et & H1 & H2 & _ & H3).
  change (rnd24 r) with (round radix2 (FLT_exp (3 - 128 - 24) 24) (Znearest (fun x => negb (Z.even x))) r).
  rewrite H3. replace (r * (1 + eps) + et - r) with (eps * r + et) by ring.
  apply Rle_trans with (1 := Rabs_triang _ _). rewrite Rabs_mult.
  assert (E1 : / 2 ^ 24 = / 2 * bpow radix2 (- (24) + 1)).
  { rewrite pow_bpow, <- bpow_opp. change (/ 2) with (bpow radix2 (-1)). rewrite <- bpow_plus. reflexivity. }
  assert (E2 : / 2 ^ 150 = / 2 * bpow radix2 (3 - 128 - 24)).
  { rewrite pow_bpow, <- bpow_opp. change (/ 2) with (bpow radix2 (-1)). rewrite <- bpow_plus. reflexivity. }
  rewrite E1, E2. apply Rplus_le_compat; [|exact H2]. apply Rmult_le_compat_r; [apply Rabs_pos|exact H1].
Qed.

(** a binary32 number is a binary64 number *)
Lemma up_exact s m e : valid_binary 24 128 (S754_finite s m e) = true ->
  finite64 (SpecFloat.binary_round 53 1024 s m e) /\ fval (SpecFloat.binary_round 53 1024 s m e) = fval (S754_finite s m e).
Proof.
  intros V. rewrite br_equiv.
  destruct (binary_round_correct 53 1024 RoundFacts.Hprec RoundFacts.Hmax mode_NE s m e) as [V2 C].
  assert (G : generic_format radix2 (SpecFloat.fexp 24 128) (fval (S754_finite s m e))).
  { rewrite fval_F2R. exact (generic_format_B2R 24 128 (B754_finite s m e V)). }
  assert (G2 : generic_format radix2 (SpecFloat.fexp 53 1024) (fval (S754_finite s m e))).
  { revert G. apply generic_inclusion_mag. intros _. unfold SpecFloat.fexp, SpecFloat.emin. lia. }
  assert (Hb : Rabs (fval (S754_finite s m e)) < bpow radix2 128).
  { rewrite fval_F2R. exact (abs_B2R_lt_emax 24 128 (B754_finite s m e V)). }
  cbv zeta in C. rewrite <- fval_F2R in C. rewrite (round_generic radix2 _ _ _ G2) in C.
  rewrite Rlt_bool_true in C. 2:{ apply Rlt_trans with (1 := Hb). apply bpow_lt. reflexivity. }
  destruct C as (C1 & C2 & _). split.
  - split; [exact V2|]. destruct (binary_round _ _ _ _ _ _); cbn in *; try exact I; discriminate.
  - rewrite fval_SF2R. exact C1.
Qed.

Lemma f32_near x : finite64 x -> Rabs (fval x) <= 2 ^ 127 -> near (f32_64 x) (fval x) (/ 2 ^ 24 * Rabs (fval x) + / 2 ^ 150).
Proof.
  intros Fx Hx. pose proof (Rabs_pos (fval x)) as P. assert (P1 : 0 < / 2 ^ 24) by (apply Rinv_0_lt_compat, pow_lt; lra).
  assert (P2 : 0 < / 2 ^ 150) by (apply Rinv_0_lt_compat, pow_lt; lra).
  destruct x as [s0|s0| |s m e]; try (destruct Fx as [_ []]; fail).
  - split; [exact Fx|]. cbn [f32_64]. rewrite Rminus_diag_eq by reflexivity. rewrite Rabs_R0. nra.
  - unfold f32_64. rewrite br_equiv24. set (v := fval (S754_finite s m e)) in *.
    destruct (binary_round_correct 24 128 Hp24 Hm128 mode_NE s m e) as [V C]. cbv zeta in C. rewrite <- fval_F2R in C. fold v in C.
    rewrite (rnd24_big v Hx) in C. destruct C as (C1 & C2 & _).
    assert (E : Rabs (SF2R radix2 (binary_round 24 128 mode_NE s m e) - v) <= / 2 ^ 24 * Rabs v + / 2 ^ 150) by (rewrite C1; apply rnd24_err).
    destruct (binary_round 24 128 mode_NE s m e) as [z|z| |s' m' e']; try discriminate.
    + split; [split; [reflexivity|exact I]|exact E].
    + destruct (up_exact s' m' e' V) as [F1 F2]. split; [exact F1|]. rewrite F2, fval_SF2R. exact E.
Qed.

(** ** sums *)
Lemma leaves_pos t : (1 <= leaves t)%nat.
Proof. induction t; cbn; lia. Qed.
Lemma total_near t v B : 0 <= B -> (forall x, In x v -> finite64 x /\ Rabs (fval x) <= B) ->
  INR (leaves t) <= 2 ^ 50 -> B <= 2 ^ 900 ->
  finite64 (total t v) /\ Rabs (fval (total t v)) <= (1 + 2 * (INR (leaves t) - 1) * uro) * (INR (leaves t) * B).
Proof.
  intros HB Hv HL HB2. pose proof uro_pos as U. assert (Hu : 2 ^ 50 * uro <= / 8) by (rewrite uro_num; lra).
  induction t as [i|l IHl r IHr].
  - cbn [leaves INR total]. assert (E : finite64 (nth i v (f64_ofZ 0)) /\ Rabs (fval (nth i v (f64_ofZ 0))) <= B).
    { destruct (nth_in_or_default i v (f64_ofZ 0)) as [I|D]; [now apply Hv|]. rewrite D.
      split; [split; [reflexivity|exact I]|]. cbn. rewrite Rabs_R0. exact HB. }
    destruct E as [E1 E2]. split; [exact E1|]. rewrite Rmult_1_l. replace ((1 + 2 * (1 - 1) * uro) * B) with B by ring. exact E2.
  - cbn [leaves total] in *. rewrite plus_INR in *.
    pose proof (leaves_pos l) as Pl. pose proof (leaves_pos r) as Pr. apply le_INR in Pl, Pr. change (INR 1) with 1 in *.
    destruct IHl as [Fl Bl]; [lra|]. destruct IHr as [Fr Br]; [lra|].
    set (a := INR (leaves l)) in *. set (c := INR (leaves r)) in *. set (x := fval (total l v)) in *. set (y := fval (total r v)) in *.
    assert (S1 : Rabs (x + y) <= (1 + 2 * (a + c - 2) * uro) * ((a + c) * B)).
    { apply Rle_trans with (1 := Rabs_triang _ _).
      assert ((1 + 2 * (a - 1) * uro) * (a * B) <= (1 + 2 * (a + c - 2) * uro) * (a * B)).
      { apply Rmult_le_compat_r; [apply Rmult_le_pos; lra|]. nra. }
      assert ((1 + 2 * (c - 1) * uro) * (c * B) <= (1 + 2 * (a + c - 2) * uro) * (c * B)).
      { apply Rmult_le_compat_r; [apply Rmult_le_pos; lra|]. nra. }
      lra. }
    assert (Q : 2 * (a + c - 2) * uro <= / 4) by nra.
    assert (S2 : Rabs (x + y) <= 2 * ((a + c) * B)).
    { apply Rle_trans with (1 := S1). apply Rmult_le_compat_r; [apply Rmult_le_pos; lra|lra]. }
    assert (S3 : Rabs (x + y) <= 2 ^ 1023).
    { apply Rle_trans with (1 := S2). replace (2 ^ 1023) with (2 * (2 ^ 50 * 2 ^ 900) * 2 ^ 72).
      2:{ rewrite <- pow_add, tech_pow_Rmult, <- pow_add. reflexivity. }
      assert ((a + c) * B <= 2 ^ 50 * 2 ^ 900) by (apply Rmult_le_compat; lra).
      assert (0 <= (a + c) * B) by (apply Rmult_le_pos; lra).
      assert (1 <= 2 ^ 72) by (apply pow_R1_Rle; lra).
      set (w := 2 ^ 50 * 2 ^ 900) in *. set (z := 2 ^ 72) in *. clearbody w z. nra. }
    destruct (add_ok _ _ Fl Fr S3) as [F E]. split; [exact F|].
    fold x y in E. set (z := fval (SFadd 53 1024 (total l v) (total r v))) in *.
    assert (Z : Rabs z <= (1 + uro) * Rabs (x + y)).
    { replace z with ((z - (x + y)) + (x + y)) by ring. apply Rle_trans with (1 := Rabs_triang _ _). lra. }
    apply Rle_trans with (1 := Z). apply Rle_trans with ((1 + uro) * ((1 + 2 * (a + c - 2) * uro) * ((a + c) * B))).
    { apply Rmult_le_compat_l; [lra|exact S1]. }
    rewrite <- Rmult_assoc. apply Rmult_le_compat_r; [apply Rmult_le_pos; lra|].
    assert (uro * (2 * (a + c - 2) * uro) <= uro * / 4) by (apply Rmult_le_compat_l; lra). lra.
Qed.
Lemma total_not_nan t v B : 0 <= B -> (forall x, In x v -> finite64 x /\ Rabs (fval x) <= B) ->
  INR (leaves t) <= 2 ^ 50 -> B <= 2 ^ 900 -> is_nan64 (total t v) = false.
Proof.
  intros H1 H2 H3 H4. destruct (total_near t v B H1 H2 H3 H4) as [[_ F] _]. destruct (total t v); try reflexivity. destruct F.
Qed.

Lemma eta_152 : eta <= / 2 ^ 152.
Proof.
  rewrite eta_eq, pow_bpow, <- bpow_opp. change (/ 2) with (bpow radix2 (-1)). rewrite <- bpow_plus. apply bpow_le. vm_compute. discriminate.
Qed.
