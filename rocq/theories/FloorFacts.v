(** Floor division, rounding to an integer and truncation of binary64 numbers. *)
From Coq Require Import ZArith Reals Lra Lia SpecFloat Bool.
From Flocq Require Import Core BinarySingleNaN.
From Verif Require Import Num NdArray ModelRun SpecRound RoundFacts ModelPlot64.
Local Open Scope R_scope.

Local Notation prec := 53%Z.
Local Notation emax := 1024%Z.
Local Existing Instances RoundFacts.Hprec RoundFacts.Hmax.
Local Notation bf := (binary_float prec emax).
Local Notation fe := (SpecFloat.fexp prec emax).
Local Notation rnd := (round radix2 fe (round_mode mode_NE)).

Lemma valid_parts s m e : valid_binary 53 1024 (S754_finite s m e) = true -> (Z.pos m < 2 ^ 53)%Z /\ (-1074 <= e)%Z.
Proof.
  intros V. cbn [valid_binary] in V. unfold bounded in V. apply andb_true_iff in V. destruct V as [V _].
  unfold canonical_mantissa in V. apply Zeq_bool_eq in V. unfold SpecFloat.fexp, SpecFloat.emin in V.
  assert (D : Z.pos (digits2_pos m) = Digits.Zdigits radix2 (Z.pos m)) by apply Digits.Zpos_digits2_pos.
  rewrite D in V. destruct (Digits.Zdigits_correct radix2 (Z.pos m)) as [_ H]. cbn [Z.abs] in H.
  split; [|lia]. apply Z.lt_le_trans with (1 := H). change 2%Z with (radix_val radix2). apply Zpower_le. lia.
Qed.
Lemma two_pos e : 0 < two e.
Proof. rewrite two_bpow. apply bpow_gt_0. Qed.
Lemma two_add a b : two (a + b) = two a * two b.
Proof. rewrite !two_bpow. apply bpow_plus. Qed.
Lemma two_nonneg e : (0 <= e)%Z -> two e = IZR (2 ^ e).
Proof. intros H. rewrite two_bpow, <- IZR_Zpower by exact H. reflexivity. Qed.

(** a number r * 2^d with |r| < 2^53 that is below the largest finite one is
    represented exactly *)
Lemma bn_exact r d s M : (Z.abs r < 2 ^ 53)%Z -> (-1074 <= d)%Z -> finite64 M -> Rabs (IZR r * two d) <= Rabs (fval M) ->
  finite64 (SpecFloat.binary_normalize 53 1024 r d s) /\ fval (SpecFloat.binary_normalize 53 1024 r d s) = IZR r * two d.
Proof.
  intros Hr Hd HM HB. rewrite bn_equiv.
  pose proof (binary_normalize_correct prec emax RoundFacts.Hprec RoundFacts.Hmax mode_NE r d s) as C. cbv zeta in C.
  assert (E : F2R (Float radix2 r d) = IZR r * two d) by (unfold F2R; cbn [Fnum Fexp]; now rewrite two_bpow).
  rewrite E in C.
  assert (R : rnd (IZR r * two d) = IZR r * two d).
  { apply round_generic; [apply valid_rnd_N|]. apply generic_format_FLT. exists (Float radix2 r d); cbn [Fnum Fexp]; [now rewrite E|exact Hr|exact Hd]. }
  rewrite R in C. destruct (finite_B M HM) as (b & <- & Fb). rewrite fval_B2R in HB.
  pose proof (abs_B2R_lt_emax prec emax b) as L. rewrite Rlt_bool_true in C by lra.
  destruct C as (C1 & C2 & _). split; [now apply B_finite|]. now rewrite fval_B2R, C1.
Qed.

Lemma fin0 x : finite64 x -> fval x = 0 -> exists s, x = S754_zero s.
Proof.
  intros [V F] E. destruct x as [s| | |s m e]; try tauto; [now exists s|]. exfalso. cbn [fval] in E.
  pose proof (two_pos e). assert (0 < IZR (Z.pos m)) by (apply IZR_lt; lia). destruct s; nra.
Qed.
Lemma eq0_iff x : finite64 x -> SFeqb x (f64_ofZ 0) = true <-> fval x = 0.
Proof.
  intros Hx. split; intros H.
  - now apply eq0_val.
  - destruct (fin0 x Hx H) as [s ->]. now destruct s.
Qed.
Lemma neqb0 x : finite64 x -> fval x <> 0 -> SFeqb x (f64_ofZ 0) = false.
Proof. intros Hx N. destruct (SFeqb x (f64_ofZ 0)) eqn:E; [|reflexivity]. exfalso. apply N. now apply eq0_iff. Qed.

(** ** comparison *)
Lemma ltb_val x y : finite64 x -> finite64 y -> SFltb x y = true <-> fval x < fval y.
Proof.
  intros Hx Hy. destruct (finite_B x Hx) as (a & <- & Fa). destruct (finite_B y Hy) as (b & <- & Fb). rewrite !fval_B2R.
  pose proof (Bcompare_correct prec emax a b Fa Fb) as C. unfold Bcompare in C. unfold SFltb. rewrite C.
  destruct (Rcompare_spec (B2R a) (B2R b)); split; intros; try lra; try discriminate; reflexivity.
Qed.
Lemma ltb_no x y : finite64 x -> finite64 y -> fval y <= fval x -> SFltb x y = false.
Proof. intros Hx Hy H. destruct (SFltb x y) eqn:E; [|reflexivity]. apply ltb_val in E; try assumption. lra. Qed.
Lemma half_val : finite64 half64 /\ fval half64 = / 2.
Proof.
  split; [split; [vm_compute; reflexivity|exact I]|]. unfold half64, fval, two. cbn [powerRZ]. replace (Pos.to_nat 53) with 53%nat by reflexivity. lra.
Qed.

(** ** integers *)
Lemma generic_IZR z : (Z.abs z <= 2 ^ 53)%Z -> rnd (IZR z) = IZR z.
Proof.
  intros H. destruct (ofZ_exact z H) as [F E]. destruct (finite_B _ F) as (b & Eb & _).
  rewrite <- Eb in E. rewrite fval_B2R in E. rewrite <- E. apply rnd_exact.
Qed.
Lemma IZR_53 z : (Z.abs z <= 2 ^ 53)%Z -> Rabs (IZR z) <= 2 ^ 1023.
Proof.
  intros H. rewrite <- abs_IZR. apply Rle_trans with (IZR (2 ^ 53)); [now apply IZR_le|].
  change (IZR (2 ^ 53)) with (bpow radix2 53). rewrite pow_bpow. apply bpow_le. lia.
Qed.
Lemma add_int x y a b : finite64 x -> finite64 y -> fval x = IZR a -> fval y = IZR b -> (Z.abs (a + b) <= 2 ^ 53)%Z ->
  finite64 (SFadd 53 1024 x y) /\ fval (SFadd 53 1024 x y) = IZR (a + b).
Proof.
  intros Hx Hy Ex Ey H. destruct (finite_B x Hx) as (u & <- & Fa). destruct (finite_B y Hy) as (v & <- & Fb).
  rewrite add_equiv. rewrite !fval_B2R in *.
  pose proof (Bplus_correct prec emax RoundFacts.Hprec RoundFacts.Hmax mode_NE u v Fa Fb) as C. rewrite Ex, Ey, <- plus_IZR in C.
  rewrite (rnd_big _ (IZR_53 _ H)) in C. destruct C as (C1 & C2 & _). split; [now apply B_finite|].
  rewrite C1. now apply generic_IZR.
Qed.

(** int(x) of an integral number *)
Lemma trunc_int x z : finite64 x -> fval x = IZR z -> f64_trunc x = Ok z.
Proof.
  intros [V F] E. destruct x as [s| | |s m e]; try tauto; cbn [f64_trunc fval] in *.
  - f_equal. now apply eq_IZR.
  - f_equal. destruct (Z.leb_spec 0 e) as [He|He].
    + rewrite (two_nonneg e He) in E. destruct s; apply eq_IZR; rewrite <- E, ?opp_IZR, mult_IZR; ring.
    + pose proof (two_pos e) as Te. assert (T1 : two e * IZR (2 ^ (- e)) = 1).
      { rewrite <- two_nonneg, <- two_add by lia. replace (e + - e)%Z with 0%Z by lia. reflexivity. }
      assert (M : Z.pos m = ((if s then - z else z) * 2 ^ (- e))%Z).
      { apply eq_IZR. rewrite mult_IZR. destruct s; rewrite ?opp_IZR, <- E; transitivity (IZR (Z.pos m) * (two e * IZR (2 ^ (- e)))); try ring; rewrite T1; ring. }
      rewrite M, Z.div_mul by (apply Z.pow_nonzero; lia). destruct s; lia.
Qed.

(** ** floor *)
Lemma floor_val x q : finite64 x -> IZR q <= fval x < IZR q + 1 -> (Z.abs q <= 2 ^ 53)%Z -> finite64 (f64_floor x) /\ fval (f64_floor x) = IZR q.
Proof.
  intros Hx Hq Hb. destruct x as [s| | |s m e]; try (exfalso; exact (proj2 Hx)).
  - cbn [f64_floor fval] in *. split; [exact Hx|]. assert (q = 0)%Z as ->; [|reflexivity].
    assert (A : IZR q <= 0) by lra. assert (B : -1 < IZR q) by lra. apply le_IZR in A. apply lt_IZR in B. lia.
  - cbn [f64_floor]. destruct (Z.leb_spec 0 e) as [He|He].
    + split; [exact Hx|]. cbn [fval] in *. rewrite (two_nonneg e He) in *.
      assert (H : exists z, (if s then - IZR (Z.pos m) else IZR (Z.pos m)) * IZR (2 ^ e) = IZR z).
      { exists ((if s then - Z.pos m else Z.pos m) * 2 ^ e)%Z. rewrite mult_IZR. destruct s; rewrite ?opp_IZR; reflexivity. }
      destruct H as [z Hz]. rewrite Hz in *. f_equal. destruct Hq as [A B]. apply le_IZR in A. rewrite <- plus_IZR in B. apply lt_IZR in B. lia.
    + cbn [fval] in Hq. pose proof (two_pos e) as Te. assert (T1 : two e * IZR (2 ^ (- e)) = 1).
      { rewrite <- two_nonneg, <- two_add by lia. replace (e + - e)%Z with 0%Z by lia. reflexivity. }
      set (D := (2 ^ (- e))%Z) in *. assert (HD : (0 < D)%Z) by (apply Z.pow_pos_nonneg; lia).
      set (M := (if s then - Z.pos m else Z.pos m)%Z).
      assert (EM : (if s then - IZR (Z.pos m) else IZR (Z.pos m)) = IZR M) by (unfold M; destruct s; rewrite ?opp_IZR; reflexivity).
      rewrite EM in Hq. assert (HDR : 0 < IZR D) by now apply IZR_lt.
      assert (Q : (M / D)%Z = q).
      { symmetry. apply (Z.div_unique M D q (M - D * q)%Z); [|ring]. left.
        assert (A : IZR q * IZR D <= IZR M).
        { replace (IZR M) with (IZR M * two e * IZR D) by (rewrite Rmult_assoc, T1; ring). apply Rmult_le_compat_r; lra. }
        assert (B : IZR M < (IZR q + 1) * IZR D).
        { replace (IZR M) with (IZR M * two e * IZR D) by (rewrite Rmult_assoc, T1; ring). apply Rmult_lt_compat_r; lra. }
        rewrite <- mult_IZR in A. apply le_IZR in A. rewrite <- plus_IZR, <- mult_IZR in B. apply lt_IZR in B. lia. }
      rewrite Q. destruct q as [|p|p].
      * split; [split; [reflexivity|exact I]|reflexivity].
      * apply ofZ_exact. exact Hb.
      * apply ofZ_exact. exact Hb.
Qed.

(** ** fmod *)
Lemma fmod_val a b : finite64 a -> finite64 b -> 0 < fval b ->
  finite64 (f64_fmod a b) /\ Rabs (fval (f64_fmod a b)) < fval b /\ 0 <= fval a * fval (f64_fmod a b) /\
  exists k, fval a = IZR k * fval b + fval (f64_fmod a b) /\ Rabs (IZR k * fval b) <= Rabs (fval a).
Proof.
  intros Ha Hb Pb. destruct b as [s'| | |s' m' e']; try (exfalso; exact (proj2 Hb)); [cbn in Pb; lra|].
  assert (s' = false) as ->.
  { destruct s'; [|reflexivity]. cbn [fval] in Pb. pose proof (two_pos e'). assert (0 < IZR (Z.pos m')) by (apply IZR_lt; lia). nra. }
  destruct a as [s| | |s m e]; try (exfalso; exact (proj2 Ha)).
  { cbn [f64_fmod]. split; [exact Ha|]. cbn [fval] in *. rewrite Rabs_R0. split; [exact Pb|]. split; [lra|]. exists 0%Z.
    split; [lra|]. rewrite Rmult_0_l, Rabs_R0. lra. }
  pose proof (valid_parts _ _ _ (proj1 Ha)) as [Va We]. pose proof (valid_parts _ _ _ (proj1 Hb)) as [Vb Wb].
  cbn [f64_fmod]. set (d := Z.min e e'). set (X := (Z.pos m * 2 ^ (e - d))%Z). set (Y := (Z.pos m' * 2 ^ (e' - d))%Z).
  assert (P1 : (0 < 2 ^ (e - d))%Z) by (apply Z.pow_pos_nonneg; lia). assert (P2 : (0 < 2 ^ (e' - d))%Z) by (apply Z.pow_pos_nonneg; lia).
  assert (HX : (0 < X)%Z) by (unfold X; lia). assert (HY : (0 < Y)%Z) by (unfold Y; lia).
  pose proof (two_pos d) as Td.
  assert (EX : IZR (Z.pos m) * two e = IZR X * two d).
  { unfold X. rewrite mult_IZR, <- two_nonneg by lia. rewrite Rmult_assoc, <- two_add. do 2 f_equal. lia. }
  assert (EY : IZR (Z.pos m') * two e' = IZR Y * two d).
  { unfold Y. rewrite mult_IZR, <- two_nonneg by lia. rewrite Rmult_assoc, <- two_add. do 2 f_equal. lia. }
  assert (Fb : fval (S754_finite false m' e') = IZR Y * two d) by (cbn [fval]; exact EY).
  assert (Fa : fval (S754_finite s m e) = IZR (if s then - X else X) * two d).
  { cbn [fval]. destruct s; [|exact EX]. rewrite opp_IZR, !Ropp_mult_distr_l_reverse. now rewrite EX. }
  rewrite Fb in *. rewrite Fa.
  pose proof (Z.div_mod X Y ltac:(lia)) as DM. pose proof (Z.mod_pos_bound X Y HY) as RB. pose proof (Z.div_pos X Y ltac:(lia) HY) as KP.
  set (r := (X mod Y)%Z) in *. set (K := (X / Y)%Z) in *.
  assert (R53 : (r < 2 ^ 53)%Z).
  { assert (rX : (r <= X)%Z) by nia. destruct (Z.min_spec e e') as [[L E]|[L E]].
    - assert (X = Z.pos m) by (unfold X, d; rewrite E, Z.sub_diag; lia). lia.
    - assert (Y = Z.pos m') by (unfold Y, d; rewrite E, Z.sub_diag; lia). lia. }
  assert (RR : 0 <= IZR r < IZR Y) by (split; [apply IZR_le|apply IZR_lt]; lia).
  assert (XR : IZR X = IZR Y * IZR K + IZR r) by (rewrite <- mult_IZR, <- plus_IZR; now f_equal).
  assert (KR : 0 <= IZR K) by (apply IZR_le; exact KP).
  assert (G : finite64 (match r return f64 with 0%Z => S754_zero s | _ => SpecFloat.binary_normalize 53 1024 (if s then - r else r) d s end) /\
    fval (match r return f64 with 0%Z => S754_zero s | _ => SpecFloat.binary_normalize 53 1024 (if s then - r else r) d s end) = IZR (if s then - r else r) * two d).
  { assert (Q : r = 0%Z \/ r <> 0%Z) by lia. destruct Q as [Q|Q].
    - rewrite Q. split; [split; [reflexivity|exact I]|]. cbn [fval]. destruct s; cbn; ring.
    - assert (B : finite64 (SpecFloat.binary_normalize 53 1024 (if s then - r else r) d s) /\
        fval (SpecFloat.binary_normalize 53 1024 (if s then - r else r) d s) = IZR (if s then - r else r) * two d).
      { apply (bn_exact _ _ _ (S754_finite s m e)); [destruct s; lia|unfold d; lia|exact Ha|].
        rewrite Fa, !Rabs_mult, (Rabs_right (two d)) by lra. apply Rmult_le_compat_r; [lra|].
        rewrite <- !abs_IZR. apply IZR_le. destruct s; nia. }
      destruct r; [lia|exact B|exact B]. }
  destruct G as [G1 G2]. split; [exact G1|]. rewrite G2. split.
  { rewrite Rabs_mult, (Rabs_right (two d)) by lra. apply Rmult_lt_compat_r; [lra|]. rewrite <- abs_IZR. apply IZR_lt. destruct s; lia. }
  assert (XP : 0 < IZR X) by (apply IZR_lt; lia).
  split.
  { destruct s; rewrite ?opp_IZR; [replace (- IZR X * two d * (- IZR r * two d)) with ((IZR X * two d) * (IZR r * two d)) by ring|]; apply Rmult_le_pos; apply Rmult_le_pos; lra. }
  exists (if s then - K else K)%Z. split.
  - destruct s; rewrite ?opp_IZR, XR; ring.
  - rewrite !Rabs_mult, (Rabs_right (two d)) by lra. rewrite <- Rmult_assoc. apply Rmult_le_compat_r; [lra|].
    rewrite <- !abs_IZR, <- mult_IZR. apply IZR_le. destruct s; nia.
Qed.

(** ** floor division *)
Lemma near_int_floor x k : finite64 x -> (Z.abs k <= 2 ^ 52)%Z -> Rabs (fval x - IZR k) <= / 4 ->
  let fl := f64_floor x in
  let r := if SFltb half64 (SFsub 53 1024 x fl) then SFadd 53 1024 fl (f64_ofZ 1) else fl in
  finite64 r /\ fval r = IZR k.
Proof.
  intros Hx Hk HD fl r. apply abs_inv in HD. destruct half_val as [Fh Vh].
  assert (B1023 : 2 <= 2 ^ 1023) by (apply Rle_trans with (2 ^ 1); [lra|apply Rle_pow; [lra|lia]]).
  pose proof uro_pos as UP. assert (US : uro <= / 100) by (rewrite uro_num; lra).
  destruct (Rle_or_lt (IZR k) (fval x)) as [C|C].
  - destruct (floor_val x k Hx) as [F1 F2]; [lra|lia|]. fold fl in F1, F2.
    destruct (sub_ok x fl Hx F1) as [S1 S2]; [rewrite F2, Rabs_right by lra; lra|].
    rewrite F2 in S2. rewrite (Rabs_right (fval x - IZR k)) in S2 by lra. apply abs_inv in S2.
    assert (uro * (fval x - IZR k) <= / 100 * (fval x - IZR k)) by (apply Rmult_le_compat_r; lra).
    assert (E : SFltb half64 (SFsub 53 1024 x fl) = false) by (apply ltb_no; [exact Fh|exact S1|rewrite Vh; lra]).
    unfold r. rewrite E. split; assumption.
  - destruct (floor_val x (k - 1) Hx) as [F1 F2]; [rewrite minus_IZR; lra|lia|]. fold fl in F1, F2.
    rewrite minus_IZR in F2. destruct (sub_ok x fl Hx F1) as [S1 S2]; [rewrite F2, Rabs_right by lra; lra|].
    rewrite F2 in S2. rewrite (Rabs_right (fval x - (IZR k - 1))) in S2 by lra. apply abs_inv in S2.
    assert (uro * (fval x - (IZR k - 1)) <= / 100 * (fval x - (IZR k - 1))) by (apply Rmult_le_compat_r; lra).
    assert (E : SFltb half64 (SFsub 53 1024 x fl) = true) by (apply ltb_val; [exact Fh|exact S1|rewrite Vh; lra]).
    unfold r. rewrite E. destruct (ofZ_exact 1 ltac:(lia)) as [O1 O2]. replace (IZR k) with (IZR (k - 1 + 1)) by (f_equal; lia).
    apply add_int; [exact F1|exact O1|now rewrite minus_IZR|exact O2|lia].
Qed.

Lemma eta_small : eta <= / 1000.
Proof.
  pose proof uro_num as U. pose proof W_1 as W1. assert (H : / W ^ 4 <= 1) by (apply Rle_trans with (/ 1); [apply Rinv_le_contravar; [lra|now apply pow_R1_Rle]|lra]).
  apply tiny in H. lra.
Qed.
Lemma div0 x y : finite64 y -> fval x = 0 -> finite64 x -> fval y <> 0 -> exists s, SFdiv 53 1024 x y = S754_zero s.
Proof.
  intros Hy Ex Hx N. destruct (fin0 x Hx Ex) as [s ->].
  destruct y as [s'| | |s' m' e']; try (exfalso; exact (proj2 Hy)); [cbn in N; lra|]. now exists (xorb s s').
Qed.

Lemma floordiv_exact a b q : finite64 a -> finite64 b -> 0 < fval b -> Rabs (fval a) <= 2 ^ 49 * fval b -> Rabs (fval a) <= 2 ^ 1023 ->
  IZR q <= fval a / fval b < IZR q + 1 ->
  finite64 (f64_floordiv a b) /\ fval (f64_floordiv a b) = IZR q.
Proof.
  intros Ha Hb Pb HB HM HQ. pose proof uro_pos as UP. assert (Un := uro_num). pose proof eta_pos as EP.
  pose proof eta_small as EN.
  assert (B1023 : 2 ^ 60 <= 2 ^ 1023) by (apply Rle_pow; [lra|lia]).
  destruct (fmod_val a b Ha Hb Pb) as (Fm & Bm & Sm & k & Ek & Bk).
  unfold f64_floordiv. rewrite (neqb0 b Hb) by lra. set (md := f64_fmod a b) in *. clearbody md. cbv zeta.
  destruct (ofZ_exact 0 ltac:(lia)) as [Z1 Z2]. destruct (ofZ_exact 1 ltac:(lia)) as [O1 O2].
  change (SpecFloat.binary_normalize 53 1024 0 0 false) with (f64_ofZ 0) in *. change (SpecFloat.binary_normalize 53 1024 1 0 false) with (f64_ofZ 1) in *.
  assert (Kb : Rabs (IZR k) <= 2 ^ 49).
  { apply Rmult_le_reg_r with (fval b); [exact Pb|]. rewrite Rabs_mult, (Rabs_right (fval b)) in Bk by lra. lra. }
  assert (Ekb : fval a - fval md = IZR k * fval b) by lra.
  destruct (sub_ok a md Ha Fm) as [S1 S2]; [rewrite Ekb; lra|]. rewrite Ekb in S2.
  set (d1 := SFsub 53 1024 a md) in *. clearbody d1.
  assert (D1 : Rabs (fval d1 / fval b - IZR k) <= / 16).
  { replace (fval d1 / fval b - IZR k) with ((fval d1 - IZR k * fval b) / fval b) by (field; lra).
    unfold Rdiv. rewrite Rabs_mult, Rabs_inv, (Rabs_right (fval b)) by lra.
    rewrite Rabs_mult, (Rabs_right (fval b)) in S2 by lra.
    apply Rmult_le_reg_r with (fval b); [exact Pb|]. rewrite Rmult_assoc, Rinv_l, Rmult_1_r by lra.
    apply Rle_trans with (1 := S2). rewrite <- Rmult_assoc. apply Rmult_le_compat_r; [lra|]. rewrite Un. lra. }
  assert (D2 : Rabs (fval d1 / fval b) <= 2 ^ 49 + / 16) by (apply tri in D1; lra).
  destruct (div_ok d1 b S1 Hb) as [V1 V2]; [lra|lra|].
  assert (D3 : Rabs (fval (SFdiv 53 1024 d1 b) - IZR k) <= / 16 + (/ 15 + / 1000)).
  { replace (fval (SFdiv 53 1024 d1 b) - IZR k) with ((fval (SFdiv 53 1024 d1 b) - fval d1 / fval b) + (fval d1 / fval b - IZR k)) by ring.
    apply Rle_trans with (1 := Rabs_triang _ _).
    assert (uro * Rabs (fval d1 / fval b) <= / 15) by (rewrite Un; lra). lra. }
  assert (K0 : k = 0%Z -> exists s, SFdiv 53 1024 d1 b = S754_zero s).
  { intros ->. apply div0; try assumption; [|lra]. rewrite Rmult_0_l, Rabs_R0, Rmult_0_r, Rminus_0_r in S2.
    destruct (Req_dec (fval d1) 0) as [E|E]; [exact E|]. apply Rabs_pos_lt in E. lra. }
  set (dv := SFdiv 53 1024 d1 b) in *. clearbody dv.
  assert (KI : (Z.abs k <= 2 ^ 49)%Z).
  { apply le_IZR. rewrite abs_IZR. replace (IZR (2 ^ 49)) with (2 ^ 49); [exact Kb|]. rewrite pow_IZR. reflexivity. }
  rewrite (ltb_no b (f64_ofZ 0) Hb Z1) by (rewrite Z2; lra). rewrite xorb_false_l.
  apply Rabs_def2 in Bm.
  destruct (SFltb md (f64_ofZ 0)) eqn:Neg.
  - (* negative remainder *)
    apply ltb_val in Neg; [|exact Fm|exact Z1]. rewrite Z2 in Neg. rewrite (neqb0 md Fm) by lra. cbn [negb andb].
    assert (Qk : q = (k - 1)%Z).
    { assert (HA : IZR k - 1 < fval a / fval b < IZR k).
      { split; apply Rmult_lt_reg_r with (fval b); try exact Pb; unfold Rdiv; rewrite Rmult_assoc, Rinv_l, Rmult_1_r by lra; nra. }
      assert (A1 : IZR q < IZR k) by lra. assert (A2 : IZR (k - 1) < IZR (q + 1)) by (rewrite minus_IZR, plus_IZR; lra).
      apply lt_IZR in A1. apply lt_IZR in A2. lia. }
    assert (Kneg : (k <= 0)%Z).
    { apply le_IZR. assert (fval a <= 0) by nra. destruct (Rle_or_lt (IZR k) 0) as [L|L]; [exact L|]. exfalso.
      assert (1 <= IZR k) by (apply lt_IZR in L; apply IZR_le; lia). nra. }
    assert (KR : IZR k <= 0) by now apply IZR_le.
    apply abs_inv in D3.
    assert (M1 : Rabs (fval dv - 1) <= 2 ^ 49 + 2).
    { apply Rabs_le. apply abs_inv in Kb. lra. }
    destruct (sub_ok dv (f64_ofZ 1) V1 O1) as [W1 W2]; [rewrite O2; lra|]. rewrite O2 in W2.
    assert (W3 : uro * Rabs (fval dv - 1) <= / 15) by (rewrite Un; lra). apply abs_inv in W2.
    set (dw := SFsub 53 1024 dv (f64_ofZ 1)) in *. clearbody dw.
    assert (W4 : Rabs (fval dw - IZR (k - 1)) <= / 4) by (rewrite minus_IZR; apply Rabs_le; lra).
    rewrite (neqb0 dw W1) by (apply abs_inv in W4; rewrite minus_IZR in W4; lra).
    rewrite Qk. apply (near_int_floor dw (k - 1) W1); [lia|exact W4].
  - assert (Pos : 0 <= fval md).
    { destruct (Rle_or_lt 0 (fval md)) as [L|L]; [exact L|]. exfalso.
      assert (SFltb md (f64_ofZ 0) = true) by (apply ltb_val; [exact Fm|exact Z1|rewrite Z2; exact L]). congruence. }
    rewrite andb_false_r.
    assert (Qk : q = k).
    { assert (HA : IZR k <= fval a / fval b < IZR k + 1).
      { split; [apply Rmult_le_reg_r with (fval b)|apply Rmult_lt_reg_r with (fval b)]; try exact Pb; unfold Rdiv; rewrite Rmult_assoc, Rinv_l, Rmult_1_r by lra; nra. }
      assert (A1 : IZR q < IZR (k + 1)) by (rewrite plus_IZR; lra). assert (A2 : IZR k < IZR (q + 1)) by (rewrite plus_IZR; lra).
      apply lt_IZR in A1. apply lt_IZR in A2. lia. }
    rewrite Qk. destruct (Z.eq_dec k 0) as [Kz|Kn].
    + destruct (K0 Kz) as [s ->]. replace (SFeqb (S754_zero s) (f64_ofZ 0)) with true by (destruct s; reflexivity).
      split; [split; [reflexivity|exact I]|]. cbn [fval]. now rewrite Kz.
    + rewrite (neqb0 dv V1).
      2:{ assert (1 <= Rabs (IZR k)) by (rewrite <- abs_IZR; apply IZR_le; lia). intros E. rewrite E in D3. rewrite Rabs_minus_sym, Rminus_0_r in D3. lra. }
      apply (near_int_floor dv k V1); [lia|lra].
Qed.
Lemma floordiv_int a b q : finite64 a -> finite64 b -> 0 < fval b -> Rabs (fval a) <= 2 ^ 49 * fval b -> Rabs (fval a) <= 2 ^ 1023 ->
  IZR q <= fval a / fval b < IZR q + 1 -> f64_trunc (f64_floordiv a b) = Ok q.
Proof. intros Ha Hb Pb B1 B2 H. destruct (floordiv_exact a b q Ha Hb Pb B1 B2 H). now apply trunc_int. Qed.

(** ** rint *)
Lemma rint_int x k : finite64 x -> Rabs (fval x - IZR k) < / 2 -> (Z.abs k <= 2 ^ 53)%Z -> f64_trunc (f64_rint x) = Ok k.
Proof.
  intros Hx HD Hk. apply Rabs_def2 in HD. destruct x as [s| | |s m e]; try (exfalso; exact (proj2 Hx)).
  - cbn [f64_rint f64_trunc fval] in *. f_equal. assert (A : IZR k < 1) by lra. assert (B : -1 < IZR k) by lra. apply lt_IZR in A. apply lt_IZR in B. lia.
  - cbn [f64_rint]. destruct (Z.leb_spec 0 e) as [He|He].
    + apply trunc_int; [exact Hx|]. cbn [fval] in *. rewrite (two_nonneg e He) in *.
      assert (H : exists z, (if s then - IZR (Z.pos m) else IZR (Z.pos m)) * IZR (2 ^ e) = IZR z).
      { exists ((if s then - Z.pos m else Z.pos m) * 2 ^ e)%Z. rewrite mult_IZR. destruct s; rewrite ?opp_IZR; reflexivity. }
      destruct H as [z Hz]. rewrite Hz in *. f_equal. destruct HD as [A B].
      assert (A' : IZR z < IZR (k + 1)) by (rewrite plus_IZR; lra). assert (B' : IZR k < IZR (z + 1)) by (rewrite plus_IZR; lra).
      apply lt_IZR in A'. apply lt_IZR in B'. lia.
    + cbn [fval] in HD. pose proof (two_pos e) as Te. assert (T1 : two e * IZR (2 ^ (- e)) = 1).
      { rewrite <- two_nonneg, <- two_add by lia. replace (e + - e)%Z with 0%Z by lia. reflexivity. }
      set (D := (2 ^ (- e))%Z) in *. assert (HDp : (0 < D)%Z) by (apply Z.pow_pos_nonneg; lia).
      assert (HDR : 0 < IZR D) by now apply IZR_lt.
      pose proof (Z.div_mod (Z.pos m) D ltac:(lia)) as DM. pose proof (Z.mod_pos_bound (Z.pos m) D HDp) as RB.
      set (f := (Z.pos m / D)%Z) in *. set (r := (Z.pos m mod D)%Z) in *.
      set (k' := (if s then - k else k)%Z).
      assert (KB : (2 * Z.abs (Z.pos m - k' * D) < D)%Z).
      { assert (G : - / 2 < IZR (Z.pos m) * two e - IZR k' < / 2) by (unfold k'; destruct s; rewrite ?opp_IZR; lra).
        assert (EQ : IZR (Z.pos m - k' * D) = (IZR (Z.pos m) * two e - IZR k') * IZR D).
        { rewrite minus_IZR, mult_IZR, Rmult_minus_distr_r, Rmult_assoc, T1. ring. }
        apply lt_IZR. rewrite mult_IZR, abs_IZR, EQ, Rabs_mult, (Rabs_right (IZR D)) by lra.
        assert (Rabs (IZR (Z.pos m) * two e - IZR k') < / 2) by (apply Rabs_def1; lra). nra. }
      assert (A : match Z.compare (2 * r) D with Lt => f | Gt => (f + 1)%Z | Eq => if Z.even f then f else (f + 1)%Z end = k').
      { set (j := (f - k')%Z). assert (Ej : (Z.pos m - k' * D = D * j + r)%Z) by (unfold j; lia). rewrite Ej in KB.
        assert (J : (-1 <= j <= 0)%Z) by nia.
        destruct (Z.compare_spec (2 * r) D) as [C|C|C].
        - exfalso. assert (j = 0 \/ j = -1)%Z as [-> | ->] by lia; lia.
        - assert (j = 0 \/ j = -1)%Z as [H|H] by lia; rewrite H in KB; lia.
        - assert (j = 0 \/ j = -1)%Z as [H|H] by lia; rewrite H in KB; lia. }
      rewrite A. assert (KE : (if s then - k' else k')%Z = k) by (unfold k'; destruct s; lia).
      destruct k' as [|p|p] eqn:Ek.
      * cbn [f64_trunc]. f_equal. destruct s; lia.
      * rewrite KE. destruct (ofZ_exact k Hk). now apply trunc_int.
      * rewrite KE. destruct (ofZ_exact k Hk). now apply trunc_int.
Qed.

(** int(x) in general *)
Lemma trunc_val x : finite64 x -> exists z, f64_trunc x = Ok z /\
  (0 <= fval x -> IZR z <= fval x < IZR z + 1) /\ (fval x <= 0 -> IZR z - 1 < fval x <= IZR z).
Proof.
  intros [V F]. destruct x as [s| | |s m e]; try tauto; cbn [f64_trunc fval].
  - exists 0%Z. split; [reflexivity|]. split; intros; lra.
  - assert (H : exists a, (if (0 <=? e)%Z then Z.pos m * 2 ^ e else Z.pos m / 2 ^ (- e))%Z = a /\ IZR a <= IZR (Z.pos m) * two e < IZR a + 1).
    { eexists. split; [reflexivity|]. destruct (Z.leb_spec 0 e) as [He|He].
      - rewrite mult_IZR, <- two_nonneg by exact He. lra.
      - pose proof (two_pos e) as Te. assert (T1 : two e * IZR (2 ^ (- e)) = 1).
        { rewrite <- two_nonneg, <- two_add by lia. replace (e + - e)%Z with 0%Z by lia. reflexivity. }
        set (D := (2 ^ (- e))%Z) in *. assert (HDp : (0 < D)%Z) by (apply Z.pow_pos_nonneg; lia).
        assert (HDR : 0 < IZR D) by now apply IZR_lt.
        pose proof (Z.div_mod (Z.pos m) D ltac:(lia)) as DM. pose proof (Z.mod_pos_bound (Z.pos m) D HDp) as RB.
        set (q := (Z.pos m / D)%Z) in *.
        assert (E : IZR (Z.pos m) * two e * IZR D = IZR (Z.pos m)) by (rewrite Rmult_assoc, T1; ring).
        split; [apply Rmult_le_reg_r with (IZR D)|apply Rmult_lt_reg_r with (IZR D)]; try exact HDR; rewrite E.
        + rewrite <- mult_IZR. apply IZR_le. lia.
        + rewrite <- plus_IZR, <- mult_IZR. apply IZR_lt. lia. }
    destruct H as (a & -> & Ha). exists (if s then - a else a)%Z. split; [destruct s; reflexivity|].
    assert (P : 0 < IZR (Z.pos m) * two e) by (apply Rmult_lt_0_compat; [apply IZR_lt; lia|apply two_pos]).
    destruct s; rewrite ?opp_IZR; split; intros; lra.
Qed.
