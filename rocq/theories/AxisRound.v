(** The time axis of time traces in binary64. *)
From Coq Require Import ZArith Reals Lra Lia List String SpecFloat Bool.
From Verif Require Import Num NdArray ModelIO ModelRun ModelPlot ModelPlot64 SpecRound RoundFacts FloorFacts.
Import ListNotations.
Local Open Scope R_scope.

Lemma ceil_near v L : finite64 v -> (Z.of_nat L <= 2 ^ 50)%Z -> Rabs (fval v - INR L) <= / 4 ->
  exists z, t_ceil (TN := TimeF64) v = Ok z /\ (Z.of_nat L <= z <= Z.of_nat L + 1)%Z.
Proof.
  intros Hv HL HD. apply abs_inv in HD. unfold t_ceil. cbn [t_int TimeF64]. destruct (trunc_val v Hv) as (z & E & P & N). rewrite E. cbn [bind].
  eexists. split; [reflexivity|]. cbn [nltb nofZ t_num TimeF64 NumF64]. rewrite INR_IZR_INZ in HD.
  assert (B : (-1 <= z - Z.of_nat L <= 0)%Z).
  { destruct (Rle_or_lt 0 (fval v)) as [C|C].
    - specialize (P C). assert (A1 : IZR (Z.of_nat L) < IZR (z + 2)) by (rewrite plus_IZR; lra). assert (A2 : IZR z < IZR (Z.of_nat L + 1)) by (rewrite plus_IZR; lra).
      apply lt_IZR in A1. apply lt_IZR in A2. lia.
    - specialize (N ltac:(lra)). assert (Z.of_nat L = 0)%Z as L0.
      { assert (A1 : IZR (Z.of_nat L) < 1) by lra. apply lt_IZR in A1. lia. }
      rewrite L0 in *. assert (A1 : -1 < IZR z) by lra. assert (A2 : IZR z < 1) by lra. apply lt_IZR in A1. apply lt_IZR in A2. lia. }
  destruct (ofZ_exact z ltac:(lia)) as [Z1 Z2]. change (SpecFloat.binary_normalize 53 1024 z 0 false) with (f64_ofZ z) in *.
  destruct (SFltb (f64_ofZ z) v) eqn:C; [lia|].
  destruct (Z.eq_dec z (Z.of_nat L)) as [->|Nz]; [lia|]. exfalso.
  assert (z = Z.of_nat L - 1)%Z as Ez by lia.
  assert (SFltb (f64_ofZ z) v = true); [|congruence]. apply ltb_val; [exact Z1|exact Hv|]. rewrite Z2, Ez, minus_IZR. lra.
Qed.

Section Axis.
Variables (t0 dt : f64) (L : nat).
Hypothesis Ft : finite64 t0.
Hypothesis Fd : finite64 dt.
Hypothesis Sd : scale64 (fval dt).
Let T := Rabs (fval t0) + INR (L + 1) * fval dt.
Hypothesis HT : T <= 2 ^ 47 * fval dt.

Lemma ax_pos : 0 < fval dt.
Proof. exact (mag_pos _ _ (scale_mag _ Sd)). Qed.
Lemma ax_eta : eta <= uro * fval dt / 1000000.
Proof. exact (mag_tiny 1 _ ltac:(lia) (scale_mag _ Sd)). Qed.
Lemma ax_big : 16 * T <= big.
Proof.
  assert (S51 : scale64 (2 ^ 51)).
  { unfold scale64. split; [|apply Rle_pow; [lra|lia]]. apply Rle_trans with 1; [|apply pow_R1_Rle; lra].
    apply Rle_trans with (/ 1); [apply Rinv_le_contravar; [lra|apply pow_R1_Rle; lra]|lra]. }
  pose proof (mag_mul 1 1 _ _ (scale_mag _ S51) (scale_mag _ Sd)) as M. apply (mag_huge (1 + 1) _ ltac:(lia)) in M.
  pose proof ax_pos. assert (0 < 2 ^ 51 * fval dt) by (apply Rmult_lt_0_compat; [lra|exact H]). lra.
Qed.
Lemma ax_LT : 0 <= INR L * fval dt <= T - fval dt /\ fval dt <= T /\ Rabs (fval t0) <= T - fval dt.
Proof.
  unfold T. rewrite plus_INR. cbn [INR]. pose proof ax_pos. pose proof (pos_INR L). pose proof (Rabs_pos (fval t0)).
  assert (0 <= INR L * fval dt) by (apply Rmult_le_pos; lra). lra.
Qed.
Lemma ax_uu : 0 < uro <= / 1000.
Proof. split; [apply uro_pos|rewrite uro_num; lra]. Qed.
Lemma ax_L : (Z.of_nat L <= 2 ^ 47)%Z.
Proof.
  apply le_IZR. rewrite <- INR_IZR_INZ. replace (IZR (2 ^ 47)) with (2 ^ 47) by (rewrite pow_IZR; reflexivity).
  pose proof ax_pos. destruct ax_LT as ([_ H1] & _ & _). apply Rmult_le_reg_r with (fval dt); lra.
Qed.
Lemma ax_ofZ i : (i <= L + 1)%nat -> near (f64_ofZ (Z.of_nat i)) (INR i) 0.
Proof.
  intros Hi. pose proof ax_L. destruct (ofZ_exact (Z.of_nat i) ltac:(lia)) as [A B]. split; [exact A|].
  unfold f64_ofZ. rewrite B, <- INR_IZR_INZ, Rminus_diag_eq, Rabs_R0 by reflexivity. lra.
Qed.

(** the number of values *)
Lemma ax_ratio : let time := SFmul 53 1024 (f64_ofZ (Z.of_nat L)) dt in
  let v := SFdiv 53 1024 (SFsub 53 1024 (SFadd 53 1024 t0 time) t0) dt in
  finite64 v /\ Rabs (fval v - INR L) <= / 4.
Proof.
  intros time v. pose proof ax_pos as Pd. pose proof ax_eta as Te. pose proof ax_big as Tb. destruct ax_LT as (H1 & H2 & H3). destruct ax_uu as [U0 U1].
  set (A := uro * T). assert (A0 : 0 <= A) by (unfold A; apply Rmult_le_pos; lra).
  assert (uA : uro * A <= A / 1000) by (assert (uro * A <= / 1000 * A) by (apply Rmult_le_compat_r; lra); lra).
  assert (uA0 : 0 <= uro * A) by (apply Rmult_le_pos; lra).
  assert (ud : uro * fval dt <= A) by (unfold A; apply Rmult_le_compat_l; lra).
  assert (AT : A <= T / 1000) by (unfold A; assert (uro * T <= / 1000 * T) by (apply Rmult_le_compat_r; lra); lra).
  assert (N1 : near time (INR L * fval dt) (1.001 * A)).
  { eapply near_mono; [apply (near_mul _ _ (INR L) (fval dt) 0 0 (INR L) (fval dt)); [apply ax_ofZ; lia|now apply near_self| | |]|].
    - rewrite Rabs_right; [lra|apply Rle_ge, pos_INR].
    - rewrite Rabs_right; lra.
    - lra.
    - assert (uro * (INR L * fval dt) <= A) by (unfold A; apply Rmult_le_compat_l; lra).
      match goal with |- ?e <= _ => replace e with (uro * (INR L * fval dt) + eta) by ring end. lra. }
  assert (N2 : near (SFadd 53 1024 t0 time) (fval t0 + INR L * fval dt) (2.1 * A)).
  { eapply near_mono; [apply (near_add _ _ _ _ 0 (1.001 * A) T); [now apply near_self|exact N1| |]|].
    - apply Rle_trans with (1 := Rabs_triang _ _). rewrite (Rabs_right (INR L * fval dt)) by lra. unfold T. rewrite plus_INR. cbn [INR]. lra.
    - lra.
    - match goal with |- ?e <= _ => replace e with (1.001 * A + A + 1.001 * (uro * A)) by (unfold A; ring) end. lra. }
  assert (N3 : near (SFsub 53 1024 (SFadd 53 1024 t0 time) t0) (INR L * fval dt) (3.2 * A)).
  { eapply near_mono; [eapply near_eq; [apply (near_sub _ _ (fval t0 + INR L * fval dt) (fval t0) (2.1 * A) 0 T); [exact N2|now apply near_self| |]|ring]|].
    - replace (fval t0 + INR L * fval dt - fval t0) with (INR L * fval dt) by ring. rewrite Rabs_right by lra. lra.
    - lra.
    - match goal with |- ?e <= _ => replace e with (2.1 * A + A + 2.1 * (uro * A)) by (unfold A; ring) end. lra. }
  destruct N3 as [F3 E3]. fold v.
  set (w := SFsub 53 1024 (SFadd 53 1024 t0 time) t0) in *.
  assert (AD : A / fval dt <= / 64).
  { unfold A. apply Rmult_le_reg_r with (fval dt); [exact Pd|]. unfold Rdiv. rewrite !Rmult_assoc, Rinv_l, Rmult_1_r by lra.
    apply Rle_trans with (uro * (2 ^ 47 * fval dt)); [apply Rmult_le_compat_l; lra|]. rewrite uro_num. lra. }
  assert (Q : Rabs (fval w / fval dt - INR L) <= 3.2 / 64).
  { replace (fval w / fval dt - INR L) with ((fval w - INR L * fval dt) / fval dt) by (field; lra).
    unfold Rdiv at 1. rewrite Rabs_mult, Rabs_inv, (Rabs_right (fval dt)) by lra.
    apply Rle_trans with (3.2 * A * / fval dt); [apply Rmult_le_compat_r; [apply Rlt_le, Rinv_0_lt_compat; lra|exact E3]|]. unfold Rdiv in AD. lra. }
  assert (LB : 0 <= INR L <= 2 ^ 47).
  { split; [apply pos_INR|]. rewrite INR_IZR_INZ. replace (2 ^ 47) with (IZR (2 ^ 47)) by (rewrite pow_IZR; reflexivity). apply IZR_le, ax_L. }
  assert (M : Rabs (fval w / fval dt) <= 2 ^ 47 + 1) by (apply tri in Q; rewrite (Rabs_right (INR L)) in Q by lra; lra).
  assert (B1023 : 2 ^ 60 <= 2 ^ 1023) by (apply Rle_pow; [lra|lia]).
  destruct (div_ok w dt F3 Fd ltac:(lra) ltac:(lra)) as [V1 V2]. fold v in V1, V2. split; [exact V1|].
  replace (fval v - INR L) with ((fval v - fval w / fval dt) + (fval w / fval dt - INR L)) by ring.
  apply Rle_trans with (1 := Rabs_triang _ _). pose proof eta_small.
  assert (uro * Rabs (fval w / fval dt) <= / 30) by (rewrite uro_num; lra). lra.
Qed.

(** the values *)
Lemma ax_value i : (i < L)%nat ->
  near (match i with
        | 0%nat => t0
        | 1%nat => SFadd 53 1024 t0 dt
        | _ => SFadd 53 1024 t0 (SFmul 53 1024 (f64_ofZ (Z.of_nat i)) (SFsub 53 1024 (SFadd 53 1024 t0 dt) t0))
        end) (fval t0 + INR i * fval dt) ((INR i + 4) * (uro * T)).
Proof.
  intros Hi. pose proof ax_pos as Pd. pose proof ax_eta as Te. pose proof ax_big as Tb. destruct ax_LT as (H1 & H2 & H3). destruct ax_uu as [U0 U1].
  set (A := uro * T). assert (A0 : 0 <= A) by (unfold A; apply Rmult_le_pos; lra).
  assert (uA : uro * A <= A / 1000) by (assert (uro * A <= / 1000 * A) by (apply Rmult_le_compat_r; lra); lra).
  assert (uA0 : 0 <= uro * A) by (apply Rmult_le_pos; lra).
  assert (ud : 0 <= uro * fval dt <= A) by (split; [apply Rmult_le_pos; lra|unfold A; apply Rmult_le_compat_l; lra]).
  assert (AT : A <= T / 1000) by (unfold A; assert (uro * T <= / 1000 * T) by (apply Rmult_le_compat_r; lra); lra).
  pose proof (pos_INR i) as Pi.
  assert (ID : INR i * fval dt <= T - fval dt).
  { apply Rle_trans with (INR L * fval dt); [apply Rmult_le_compat_r; [lra|apply le_INR; lia]|lra]. }
  assert (IDp : 0 <= INR i * fval dt) by (apply Rmult_le_pos; lra).
  assert (ST : Rabs (fval t0 + fval dt) <= T) by (apply Rle_trans with (1 := Rabs_triang _ _); rewrite (Rabs_right (fval dt)) by lra; lra).
  assert (SI : Rabs (fval t0 + INR i * fval dt) <= T).
  { apply Rle_trans with (1 := Rabs_triang _ _). rewrite (Rabs_right (INR i * fval dt)) by lra. unfold T. rewrite plus_INR. cbn [INR].
    assert (INR i * fval dt <= INR L * fval dt) by (apply Rmult_le_compat_r; [lra|apply le_INR; lia]). lra. }
  assert (N1 : near (SFadd 53 1024 t0 dt) (fval t0 + fval dt) A).
  { eapply near_mono; [apply (near_add _ _ _ _ 0 0 T); [now apply near_self|now apply near_self|exact ST|lra]|]. unfold A. lra. }
  assert (HI : 0 <= INR i * A) by (apply Rmult_le_pos; lra).
  destruct i as [|[|i]].
  { eapply near_mono; [eapply near_eq; [now apply near_self|cbn [INR]; ring]|]. cbn [INR]. lra. }
  { eapply near_mono; [eapply near_eq; [exact N1|cbn [INR]; ring]|]. cbn [INR]. lra. }
  set (j := Datatypes.S (Datatypes.S i)) in *.
  assert (N2 : near (SFsub 53 1024 (SFadd 53 1024 t0 dt) t0) (fval dt) (A + 1.01 * (uro * fval dt) + uro * A)).
  { eapply near_mono; [eapply near_eq; [apply (near_sub _ _ (fval t0 + fval dt) (fval t0) A 0 (fval dt)); [exact N1|now apply near_self| |]|ring]|].
    - replace (fval t0 + fval dt - fval t0) with (fval dt) by ring. rewrite Rabs_right by lra. lra.
    - lra.
    - lra. }
  set (D := A + 1.01 * (uro * fval dt) + uro * A) in *.
  assert (D0 : 0 <= D <= 3 * A) by (unfold D; lra).
  assert (JD : INR j * D <= INR j * A + 1.01 * A + INR j * A / 1000).
  { unfold D. replace (INR j * (A + 1.01 * (uro * fval dt) + uro * A)) with (INR j * A + 1.01 * (uro * (INR j * fval dt)) + INR j * (uro * A)) by ring.
    assert (uro * (INR j * fval dt) <= A) by (unfold A; apply Rmult_le_compat_l; lra).
    assert (INR j * (uro * A) <= INR j * (A / 1000)) by (apply Rmult_le_compat_l; lra). lra. }
  assert (JD0 : 0 <= INR j * D) by (apply Rmult_le_pos; lra).
  assert (JT : INR j * A <= T / 64).
  { apply Rle_trans with (INR L * A); [apply Rmult_le_compat_r; [lra|apply le_INR; lia]|].
    replace (INR L * A) with (uro * INR L * T) by (unfold A; ring).
    replace (T / 64) with (/ 64 * T) by field. apply Rmult_le_compat_r; [lra|].
    pose proof ax_L as HL. apply IZR_le in HL. rewrite <- INR_IZR_INZ in HL. replace (IZR (2 ^ 47)) with (2 ^ 47) in HL by (rewrite pow_IZR; reflexivity).
    apply Rle_trans with (uro * 2 ^ 47); [apply Rmult_le_compat_l; lra|]. rewrite uro_num. lra. }
  assert (N3 : near (SFmul 53 1024 (f64_ofZ (Z.of_nat j)) (SFsub 53 1024 (SFadd 53 1024 t0 dt) t0)) (INR j * fval dt) (INR j * D + A + uro * (INR j * D))).
  { eapply near_mono; [apply (near_mul _ _ (INR j) (fval dt) 0 D (INR j) (fval dt)); [apply ax_ofZ; lia|exact N2| | |]|].
    - rewrite Rabs_right; [lra|apply Rle_ge, pos_INR].
    - rewrite Rabs_right; lra.
    - replace (INR j * fval dt + (INR j * D + fval dt * 0 + 0 * D)) with (INR j * fval dt + INR j * D) by ring. lra.
    - match goal with |- ?e <= _ => replace e with (INR j * D + uro * (INR j * fval dt) + uro * (INR j * D) + eta) by ring end.
      assert (uro * (INR j * fval dt) <= uro * (T - fval dt)) by (apply Rmult_le_compat_l; lra).
      assert (uro * (T - fval dt) = A - uro * fval dt) by (unfold A; ring). lra. }
  set (G := INR j * D + A + uro * (INR j * D)) in *.
  assert (uJD : uro * (INR j * D) <= INR j * D / 1000) by (assert (uro * (INR j * D) <= / 1000 * (INR j * D)) by (apply Rmult_le_compat_r; lra); lra).
  assert (uJD0 : 0 <= uro * (INR j * D)) by (apply Rmult_le_pos; lra).
  assert (G0 : 0 <= G <= T) by (unfold G; lra).
  eapply near_mono; [apply (near_add _ _ _ _ 0 G T); [now apply near_self|exact N3|exact SI|lra]|].
  assert (J2 : 2 <= INR j) by (unfold j; rewrite !S_INR; pose proof (pos_INR i); lra).
  assert (uJA : INR j * (uro * A) * 0 <= INR j * A) by lra.
  assert (fin : uro * (INR j * A) <= A / 64).
  { replace (A / 64) with (uro * (T / 64)) by (unfold A; field). apply Rmult_le_compat_l; lra. }
  assert (JD' : INR j * D <= INR j * A + 1.01 * A + A / 64 + A / 64).
  { unfold D. replace (INR j * (A + 1.01 * (uro * fval dt) + uro * A)) with (INR j * A + 1.01 * (uro * (INR j * fval dt)) + uro * (INR j * A)) by ring.
    assert (uro * (INR j * fval dt) <= A) by (unfold A; apply Rmult_le_compat_l; lra). lra. }
  assert (uJD' : uro * (INR j * D) <= uro * (INR j * A) + 2 * (uro * A)).
  { replace (uro * (INR j * A) + 2 * (uro * A)) with (uro * (INR j * A + 2 * A)) by ring. apply Rmult_le_compat_l; lra. }
  assert (uG : uro * G <= 3 * (A / 64)).
  { apply Rle_trans with (uro * (INR j * A + 1.01 * A + A / 64 + A / 64 + A + (A / 64 + 2 * (A / 1000)))); [apply Rmult_le_compat_l; [lra|unfold G; lra]|].
    replace (uro * (INR j * A + 1.01 * A + A / 64 + A / 64 + A + (A / 64 + 2 * (A / 1000)))) with (uro * (INR j * A) + (1.01 + / 64 + / 64 + 1 + (/ 64 + 2 / 1000)) * (uro * A)) by field. lra. }
  replace (0 + G + uro * (T + 0 + G)) with (G + A + uro * G) by (unfold A; ring). unfold G at 1. lra.
Qed.

Lemma axis_ok {X} (values : list X) : List.length values = L ->
  exists x, get_uniform_x (TN := TimeF64) values dt t0 = Ok x /\ List.length x = L /\
  forall i, (i < L)%nat -> near (nth i x t0) (fval t0 + INR i * fval dt) ((INR i + 4) * (uro * T)).
Proof.
  intros HL. pose proof ax_pos as Pd. unfold get_uniform_x. rewrite HL. unfold np_arange. cbn [nadd nmul nsub ndiv nofZ neqb nzero t_num TimeF64 NumF64]. unfold truthy.
  cbn [neqb nzero t_num TimeF64 NumF64].
  assert (E0 : SFeqb dt (f64_ofZ 0) = false) by (apply neqb0; [exact Fd|lra]). rewrite E0. cbn [negb].
  destruct ax_ratio as [R1 R2]. pose proof ax_L as LL. destruct (ceil_near _ L R1 ltac:(lia) R2) as (z & Ez & Bz). rewrite Ez. cbn [bind].
  eexists. split; [reflexivity|]. set (g := fun i : nat => _).
  assert (E : firstn L (map g (seq 0 (Z.to_nat z))) = map g (seq 0 L)).
  { replace (Z.to_nat z) with (L + (Z.to_nat z - L))%nat by lia. rewrite seq_app, map_app, firstn_app, map_length, seq_length, Nat.sub_diag.
    cbn [firstn]. rewrite app_nil_r. apply firstn_all2. rewrite map_length, seq_length. lia. }
  rewrite E. split; [now rewrite map_length, seq_length|]. intros i Hi.
  assert (En : nth i (map g (seq 0 L)) t0 = g i).
  { rewrite (nth_indep _ t0 (g 0%nat)) by (rewrite map_length, seq_length; lia). rewrite map_nth, seq_nth by lia. reflexivity. }
  rewrite En. now apply ax_value.
Qed.
End Axis.
