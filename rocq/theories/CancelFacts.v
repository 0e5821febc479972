(** Exact cancellation in binary64 on fields that do not depend on the row. *)
From Coq Require Import List Arith ZArith Reals Lra Lia Psatz SpecFloat Bool.
From Flocq Require Import Core BinarySingleNaN.
From Verif Require Import Num NdArray ModelGradients ModelArakawa Spec SpecHW GradFacts ArakawaFacts SpecRound RoundFacts RoundStencil SpecCancel.
Import List ListNotations.
Local Open Scope R_scope.

Local Notation "x ⊕ y" := (SFadd 53 1024 x y) (at level 50, left associativity).
Local Notation "x ⊖ y" := (SFsub 53 1024 x y) (at level 50, left associativity).
Local Notation "x ⊗ y" := (SFmul 53 1024 x y) (at level 40, left associativity).
Local Notation "x ⊘ y" := (SFdiv 53 1024 x y) (at level 40, left associativity).
Local Notation prec := 53%Z.
Local Notation emax := 1024%Z.
Local Instance Hprec : FLX.Prec_gt_0 prec := eq_refl _.
Local Instance Hmax : Prec_lt_emax prec emax := eq_refl _.

(** ** values of the operations, exactly *)
Definition rd (r : R) : R := round radix2 (SpecFloat.fexp prec emax) (round_mode mode_NE) r.
Lemma rd_opp r : rd (- r) = - rd r.
Proof. unfold rd. cbn [round_mode]. apply round_NE_opp. Qed.
Lemma rd_0 : rd 0 = 0.
Proof. apply round_0. apply valid_rnd_N. Qed.
Lemma rd_val x : finite64 x -> rd (fval x) = fval x.
Proof. intros H. destruct (finite_B x H) as (a & <- & _). rewrite fval_B2R. apply rnd_exact. Qed.

Lemma add_rd x y : finite64 x -> finite64 y -> Rabs (fval x + fval y) <= 2 ^ 1023 -> fval (x ⊕ y) = rd (fval x + fval y).
Proof.
  intros Hx Hy H. destruct (finite_B x Hx) as (a & <- & Fa). destruct (finite_B y Hy) as (b & <- & Fb).
  rewrite add_equiv. rewrite !fval_B2R in *.
  pose proof (Bplus_correct prec emax Hprec Hmax mode_NE a b Fa Fb) as C. rewrite (rnd_big _ H) in C. apply C.
Qed.
Lemma sub_rd x y : finite64 x -> finite64 y -> Rabs (fval x - fval y) <= 2 ^ 1023 -> fval (x ⊖ y) = rd (fval x - fval y).
Proof.
  intros Hx Hy H. destruct (finite_B x Hx) as (a & <- & Fa). destruct (finite_B y Hy) as (b & <- & Fb).
  rewrite sub_equiv. rewrite !fval_B2R in *.
  pose proof (Bminus_correct prec emax Hprec Hmax mode_NE a b Fa Fb) as C. rewrite (rnd_big _ H) in C. apply C.
Qed.
Lemma mul_rd x y : finite64 x -> finite64 y -> Rabs (fval x * fval y) <= 2 ^ 1023 -> fval (x ⊗ y) = rd (fval x * fval y).
Proof.
  intros Hx Hy H. destruct (finite_B x Hx) as (a & <- & Fa). destruct (finite_B y Hy) as (b & <- & Fb).
  rewrite mul_equiv. rewrite !fval_B2R in *.
  pose proof (Bmult_correct prec emax Hprec Hmax mode_NE a b) as C. rewrite (rnd_big _ H) in C. apply C.
Qed.

Transparent big eta.

(** finite, of value [a], which is at most [A] in size *)
Definition V (x : f64) (a A : R) : Prop := finite64 x /\ fval x = a /\ Rabs a <= A.

Lemma V_rd x a A : V x a A -> rd a = a.
Proof. intros (H & <- & _). now apply rd_val. Qed.
Lemma V_mono x a A B : V x a A -> A <= B -> V x a B.
Proof. intros (H & E & L) M. repeat split; try apply H; auto. lra. Qed.

Lemma vadd x y a b A B c C : V x a A -> V y b B -> A + B <= big -> rd (a + b) = c -> Rabs c <= C -> V (x ⊕ y) c C.
Proof.
  intros (Hx & Ea & Ha) (Hy & Eb & Hb) HB E L. subst a b. unfold big in HB.
  assert (H : Rabs (fval x + fval y) <= 2 ^ 1023) by (apply Rle_trans with (1 := Rabs_triang _ _); lra).
  split; [now apply add_ok|]. split; [|exact L]. now rewrite add_rd.
Qed.
Lemma vsub x y a b A B c C : V x a A -> V y b B -> A + B <= big -> rd (a - b) = c -> Rabs c <= C -> V (x ⊖ y) c C.
Proof.
  intros (Hx & Ea & Ha) (Hy & Eb & Hb) HB E L. subst a b. unfold big in HB.
  assert (H : Rabs (fval x - fval y) <= 2 ^ 1023) by (apply Rle_trans with (1 := Rabs_triang _ _); rewrite Rabs_Ropp; lra).
  split; [now apply sub_ok|]. split; [|exact L]. now rewrite sub_rd.
Qed.
Lemma vmul x y a b A B c C : V x a A -> V y b B -> A * B <= big -> rd (a * b) = c -> Rabs c <= C -> V (x ⊗ y) c C.
Proof.
  intros (Hx & Ea & Ha) (Hy & Eb & Hb) HB E L. subst a b. unfold big in HB.
  assert (H : Rabs (fval x * fval y) <= 2 ^ 1023).
  { rewrite Rabs_mult. apply Rle_trans with (2 := HB). apply Rmult_le_compat; auto; apply Rabs_pos. }
  split; [now apply mul_ok|]. split; [|exact L]. now rewrite mul_rd.
Qed.
Lemma rd_le r A : Rabs r <= A -> Rabs (rd r) <= 2 * A + 1.
Proof.
  intros H. pose proof (rnd_err r) as E. fold (rd r) in E. apply tri in E.
  pose proof uro_pos. pose proof (Rabs_pos r). assert (uro <= 1) by (rewrite uro_num; lra).
  assert (eta <= 1) by (unfold eta; rewrite <- Rinv_1; apply Rinv_le_contravar; [lra|apply pow_R1_Rle; lra]).
  assert (uro * Rabs r <= 1 * Rabs r) by (apply Rmult_le_compat_r; lra). lra.
Qed.

Opaque big eta.

(** ** the kernel of the vectorised bracket *)
Section Kernel.
Variables (z p : Z -> Z -> f64) (zz pp : Z -> R).
Hypothesis Hz : forall a b, V (z a b) (zz b) W.
Hypothesis Hp : forall a b, V (p a b) (pp b) W.

Lemma W2_big : 100000 * W ^ 2 <= big.
Proof. apply Rle_trans with (2 := W_big). rewrite W20. pose proof W_1. assert (1 <= W ^ 3) by (apply pow_R1_Rle; lra). assert (1 <= W ^ 2) by (apply pow_R1_Rle; lra). replace (W ^ 5) with (W ^ 2 * W ^ 3) by ring. nra. Qed.
Lemma WW2 : W <= W ^ 2.
Proof. pose proof W_1. nra. Qed.
Ltac wlim := pose proof W_1; pose proof WW2; pose proof W2_big; nra.
Ltac wlin := pose proof W_1; pose proof WW2; pose proof W2_big; lra.

Lemma dif2 a b a' b' : V (p a b ⊖ p a' b') (rd (pp b - pp b')) (5 * W).
Proof.
  eapply vsub; [apply Hp|apply Hp|wlin|reflexivity|].
  pose proof (Hp a b) as (_ & _ & L1). pose proof (Hp a' b') as (_ & _ & L2).
  eapply Rle_trans; [apply (rd_le _ (2 * W))|wlin]. apply Rle_trans with (1 := Rabs_triang _ _). rewrite Rabs_Ropp. lra.
Qed.
Lemma dif2_0 a a' b : V (p a b ⊖ p a' b) 0 0.
Proof.
  eapply vsub; [apply Hp|apply Hp|wlin| |rewrite Rabs_R0; lra]. rewrite Rminus_diag_eq by reflexivity. apply rd_0.
Qed.
(** (p10 - p-10) + p1b - p-1b *)
Lemma row_0 b : V (p 1 0 ⊖ p (-1) 0 ⊕ p 1 b ⊖ p (-1) b) 0 0.
Proof.
  assert (A1 : V (p 1 0 ⊖ p (-1) 0 ⊕ p 1 b) (pp b) W).
  { eapply vadd; [apply dif2_0|apply Hp|wlin| |apply (Hp 1 b)]. rewrite Rplus_0_l. apply (V_rd _ _ _ (Hp 1 b)). }
  eapply vsub; [exact A1|apply Hp|wlin| |rewrite Rabs_R0; lra]. rewrite Rminus_diag_eq by reflexivity. apply rd_0.
Qed.
Definition qv : R := rd (rd (rd (pp 1 - pp (-1)) + pp 1) - pp (-1)).
Lemma col a : V (p 0 1 ⊖ p 0 (-1) ⊕ p a 1 ⊖ p a (-1)) qv (30 * W).
Proof.
  pose proof (dif2 0 1 0 (-1)) as D. pose proof (Hp a 1) as P1. pose proof (Hp a (-1)) as P2.
  assert (D' : V (p 0 1 ⊖ p 0 (-1) ⊕ p a 1) (rd (rd (pp 1 - pp (-1)) + pp 1)) (13 * W)).
  { eapply vadd; [exact D|exact P1|wlin|reflexivity|].
    eapply Rle_trans; [apply (rd_le _ (6 * W))|wlin]. apply Rle_trans with (1 := Rabs_triang _ _).
    destruct D as (_ & _ & L1), P1 as (_ & _ & L2). lra. }
  eapply vsub; [exact D'|exact P2|wlin|reflexivity|].
  eapply Rle_trans; [apply (rd_le _ (14 * W))|wlin]. apply Rle_trans with (1 := Rabs_triang _ _). rewrite Rabs_Ropp.
  destruct D' as (_ & _ & L1), P2 as (_ & _ & L2). lra.
Qed.
Lemma prod_0 a b x : V x 0 0 -> V (z a b ⊗ x) 0 0.
Proof. intros H. eapply vmul; [apply Hz|exact H|wlin| |rewrite Rabs_R0; lra]. rewrite Rmult_0_r. apply rd_0. Qed.
Lemma prod a b x v : V x v (30 * W) -> V (z a b ⊗ x) (rd (zz b * v)) (61 * W ^ 2).
Proof.
  intros H. pose proof (Hz a b) as Hz'. eapply vmul; [exact Hz'|exact H|wlim|reflexivity|].
  eapply Rle_trans; [apply (rd_le _ (30 * W ^ 2))|wlim]. rewrite Rabs_mult.
  replace (30 * W ^ 2) with (W * (30 * W)) by ring. destruct Hz' as (_ & _ & L1), H as (_ & _ & L2).
  apply Rmult_le_compat; auto; apply Rabs_pos.
Qed.

Lemma kernel_zero : V (nb_kernel (N := NumF64) z p) 0 0.
Proof.
  unfold nb_kernel. cbn [nadd nsub nmul NumF64].
  pose proof W_1 as W1. pose proof WW2 as WW. pose proof W2_big as WB.
  set (K := 61 * W ^ 2).
  pose proof (prod_0 0 1 _ (row_0 1)) as T1. pose proof (prod_0 0 (-1) _ (row_0 (-1))) as T2.
  pose proof (prod 1 0 _ _ (col 1)) as T3. pose proof (prod (-1) 0 _ _ (col (-1))) as T4. fold K in T3, T4.
  assert (D : forall a b a' b', V (p a b ⊖ p a' b') (rd (pp b - pp b')) (30 * W)) by (intros; eapply V_mono; [apply dif2|lra]).
  pose proof (prod (-1) 1 _ _ (D 0%Z 1%Z (-1)%Z 0)%Z) as T5. pose proof (prod 1 1 _ _ (D 1%Z 0%Z 0%Z 1)%Z) as T6.
  pose proof (prod 1 (-1) _ _ (D 1%Z 0%Z 0%Z (-1)%Z)) as T7. pose proof (prod (-1) (-1) _ _ (D 0%Z (-1)%Z (-1)%Z 0)%Z) as T8.
  fold K in T5, T6, T7, T8.
  assert (SW : forall c x y, rd (c * rd (x - y)) = - rd (c * rd (y - x))).
  { intros. replace (x - y) with (- (y - x)) by ring. rewrite rd_opp. rewrite Ropp_mult_distr_r_reverse. apply rd_opp. }
  rewrite (SW _ _ (pp 1)) in T6. rewrite (SW _ (pp (-1))) in T8.
  assert (KB : K + K <= big) by (unfold K; lra).
  assert (K0 : 0 <= K) by (unfold K; lra).
  set (t3 := rd (zz 0 * qv)) in *. set (t5 := rd (zz 1 * rd (pp 1 - pp 0))) in *. set (t7 := rd (zz (-1) * rd (pp 0 - pp (-1)))) in *.
  pose proof (V_rd _ _ _ T3) as R3. pose proof (V_rd _ _ _ T5) as R5. pose proof (V_rd _ _ _ T7) as R7.
  assert (L3 : Rabs t3 <= K) by apply T3. assert (L5 : Rabs t5 <= K) by apply T5. assert (L7 : Rabs t7 <= K) by apply T7.
  assert (Z : Rabs 0 <= 0) by (rewrite Rabs_R0; lra).
  eapply vsub; [eapply vsub; [eapply vadd; [eapply vadd; [eapply vadd; [eapply vsub; [eapply vsub; [exact T1|exact T2| | |]|exact T3| | |]|exact T4| | |]|exact T5| | |]|exact T6| | |]|exact T7| | |]|exact T8| | |].
  - lra.
  - rewrite Rminus_0_r. apply rd_0.
  - exact Z.
  - lra.
  - rewrite Rminus_0_l, rd_opp, R3. reflexivity.
  - rewrite Rabs_Ropp. exact L3.
  - lra.
  - rewrite Rplus_opp_l. apply rd_0.
  - exact Z.
  - lra.
  - rewrite Rplus_0_l. exact R5.
  - exact L5.
  - lra.
  - rewrite Rplus_opp_r. apply rd_0.
  - exact Z.
  - lra.
  - rewrite Rminus_0_l, rd_opp, R7. reflexivity.
  - rewrite Rabs_Ropp. exact L7.
  - lra.
  - replace (- t7 - - t7) with 0 by ring. apply rd_0.
  - exact Z.
Qed.
End Kernel.

(** second argument the same everywhere *)
Lemma kernel_const (z p : Z -> Z -> f64) (zz : Z -> Z -> R) (c : R) : (forall a b, V (z a b) (zz a b) W) -> (forall a b, V (p a b) c W) ->
  V (nb_kernel (N := NumF64) z p) 0 0.
Proof.
  intros Hz Hp. pose proof W_1 as W1. pose proof WW2 as WW. pose proof W2_big as WB.
  assert (Z : Rabs 0 <= 0) by (rewrite Rabs_R0; lra).
  assert (D : forall a b a' b', V (p a b ⊖ p a' b') 0 0).
  { intros. eapply vsub; [apply Hp|apply Hp|lra| |exact Z]. rewrite Rminus_diag_eq by reflexivity. apply rd_0. }
  assert (Q : forall a b a' b' a2 b2 a3 b3, V (p a b ⊖ p a' b' ⊕ p a2 b2 ⊖ p a3 b3) 0 0).
  { intros. eapply vsub; [eapply (vadd _ _ _ _ _ _ c W); [apply D|apply Hp|lra| |apply (Hp a b)]|apply Hp|lra| |exact Z].
    - rewrite Rplus_0_l. apply (V_rd _ _ _ (Hp a b)).
    - rewrite Rminus_diag_eq by reflexivity. apply rd_0. }
  assert (T : forall a b x, V x 0 0 -> V (z a b ⊗ x) 0 0).
  { intros a b x H. eapply vmul; [apply Hz|exact H|lra| |exact Z]. rewrite Rmult_0_r. apply rd_0. }
  assert (PL : forall x y, V x 0 0 -> V y 0 0 -> V (x ⊕ y) 0 0).
  { intros x y H1 H2. eapply vadd; [exact H1|exact H2|lra| |exact Z]. rewrite Rplus_0_l. apply rd_0. }
  assert (MI : forall x y, V x 0 0 -> V y 0 0 -> V (x ⊖ y) 0 0).
  { intros x y H1 H2. eapply vsub; [exact H1|exact H2|lra| |exact Z]. rewrite Rminus_0_r. apply rd_0. }
  unfold nb_kernel. cbn [nadd nsub nmul NumF64]. repeat first [apply MI; [|apply T] | apply PL; [|apply T] | apply T]; auto.
Qed.

(** ** equality up to the sign of zero *)
Lemma same_refl x : same64 x x.
Proof. now left. Qed.
Lemma same_sym x y : same64 x y -> same64 y x.
Proof. intros [->|[A B]]; [now left|now right]. Qed.
Lemma same_trans x y z : same64 x y -> same64 y z -> same64 x z.
Proof. intros [->|[A B]] [->|[C D]]; try (now left); right; auto. Qed.
Lemma same_val x y : same64 x y -> fval x = fval y.
Proof. intros [->|[[s ->] [t ->]]]; reflexivity. Qed.
Lemma zero_val x : finite64 x -> fval x = 0 -> is_zero x.
Proof.
  intros [_ F] E. destruct x as [s|s| |s m e]; cbn in F; try tauto; [now exists s|]. exfalso. cbn [fval] in E.
  apply Rmult_integral in E. destruct E as [E|E].
  - destruct s; assert (IZR (Zpos m) = 0) as E' by lra; apply eq_IZR in E'; discriminate.
  - revert E. unfold two. apply powerRZ_NOR. lra.
Qed.
Ltac zeros := repeat match goal with H : is_zero _ |- _ => destruct H as [? ->] end.
Lemma same_add x x' y y' : same64 x x' -> same64 y y' -> same64 (x ⊕ y) (x' ⊕ y').
Proof.
  intros [->|[A B]] [->|[C D]]; [now left| | |]; zeros.
  - destruct x'; cbn [SFadd]; try (now left). right. split; match goal with |- is_zero (if ?b then _ else _) => destruct b end; eexists; reflexivity.
  - destruct y'; cbn [SFadd]; try (now left). right. split; match goal with |- is_zero (if ?b then _ else _) => destruct b end; eexists; reflexivity.
  - right. cbn [SFadd]. split; match goal with |- is_zero (if ?b then _ else _) => destruct b end; eexists; reflexivity.
Qed.
Lemma same_sub x x' y y' : same64 x x' -> same64 y y' -> same64 (x ⊖ y) (x' ⊖ y').
Proof.
  intros [->|[A B]] [->|[C D]]; [now left| | |]; zeros.
  - destruct x'; cbn [SFsub]; try (now left). right. split; match goal with |- is_zero (if ?b then _ else _) => destruct b end; eexists; reflexivity.
  - destruct y'; cbn [SFsub]; try (now left). right. split; match goal with |- is_zero (if ?b then _ else _) => destruct b end; eexists; reflexivity.
  - right. cbn [SFsub]. split; match goal with |- is_zero (if ?b then _ else _) => destruct b end; eexists; reflexivity.
Qed.
Lemma same_mul c x x' : same64 x x' -> same64 (c ⊗ x) (c ⊗ x').
Proof. intros [->|[A B]]; [now left|]; zeros. destruct c; cbn [SFmul]; try (now left); right; split; eexists; reflexivity. Qed.
Lemma same_div c x x' : same64 x x' -> same64 (x ⊘ c) (x' ⊘ c).
Proof. intros [->|[A B]]; [now left|]; zeros. destruct c; cbn [SFdiv]; try (now left); right; split; eexists; reflexivity. Qed.
Lemma add_zero o t : is_zero t -> same64 (o ⊕ t) o.
Proof.
  intros [s ->]. destruct o; cbn [SFadd]; try (now left). right. split; [|eexists; reflexivity].
  destruct (Bool.eqb _ _); eexists; reflexivity.
Qed.
Lemma mul_zero c t : finite64 c -> is_zero t -> is_zero (c ⊗ t).
Proof. intros [_ F] [s ->]. destruct c; cbn in F; try tauto; cbn [SFmul]; eexists; reflexivity. Qed.
Lemma div_zero t y : is_zero t -> finite64 (t ⊘ y) -> is_zero (t ⊘ y).
Proof. intros [s ->] [_ F]. destruct y; cbn [SFdiv] in *; try tauto; eexists; reflexivity. Qed.
