(** Which iterations a run records and at what times; number of steps. *)
From Coq Require Import Arith ZArith Bool String List Lia Sorted QArith Qround Lqa.
From Verif Require Import Num NdArray ModelIO ModelRun SpecIO SpecRun IOFacts RunFacts RunProps.
Import ListNotations.
Local Close Scope Q_scope.
Local Open Scope nat_scope.

(** ** Multiples among 1 .. n *)
Lemma mult_seq s n : 1 <= s ->
  filter (fun j => (Z.of_nat j mod Z.of_nat s =? 0)%Z) (seq 1 n) = map (fun i => i * s) (seq 1 (n / s)).
Proof.
  intros Hs. induction n as [|n IH].
  - rewrite Nat.div_0_l by lia. reflexivity.
  - rewrite seq_S, filter_app, IH. cbn [filter plus]. rewrite <- Nat2Z.inj_mod.
    pose proof (Nat.div_mod (S n) s ltac:(lia)) as D. pose proof (Nat.mod_upper_bound (S n) s ltac:(lia)) as M.
    pose proof (Nat.div_mod n s ltac:(lia)) as D'. pose proof (Nat.mod_upper_bound n s ltac:(lia)) as M'.
    destruct (Z.eqb_spec (Z.of_nat (S n mod s)) 0) as [E|E].
    + assert (E0 : S n mod s = 0) by lia. rewrite E0 in D.
      assert (Q : S n / s = S (n / s)).
      { assert (n / s < S n / s) by nia. assert (S n / s <= S (n / s)) by nia. lia. }
      rewrite Q, seq_S, map_app. cbn [map]. f_equal. f_equal. rewrite Q in D. nia.
    + rewrite app_nil_r. f_equal. f_equal. assert (0 < S n mod s) by lia. nia.
Qed.

Section Log.
Context {V T : Type} {TN : TimeNum T}.
Variable c : cfg V T.

(** every snapshot is recorded when recording starts before the first one *)
Lemma frames_all time n : (1 <= c_snaps c)%Z -> (forall j, 1 <= j <= n -> nleb (c_rec c) (time j) = true) ->
  frames c time n = map (fun i => i * Z.to_nat (c_snaps c)) (seq 1 (n / Z.to_nat (c_snaps c))).
Proof.
  intros Hs Hr. rewrite <- mult_seq by lia. rewrite Z2Nat.id by lia. unfold frames.
  apply filter_ext_in. intros j Hj. apply in_seq in Hj. unfold recorded. rewrite Hr by lia. reflexivity.
Qed.

Lemma loop_log_all time traj n : (1 <= c_snaps c)%Z -> (forall j, 1 <= j <= n -> nleb (c_rec c) (time j) = true) ->
  let k := Z.to_nat (c_snaps c) in
  loop_log c time traj n = map (fun i => (time (i * k), traj (i * k))) (seq 1 (n / k)).
Proof. intros Hs Hr k. unfold loop_log. rewrite frames_all by assumption. now rewrite map_map. Qed.

Lemma fresh_log_all pl0 time traj n : (1 <= c_snaps c)%Z -> truthy (c_rec c) = false ->
  (forall j, 1 <= j <= n -> nleb (c_rec c) (time j) = true) ->
  let k := Z.to_nat (c_snaps c) in
  fresh_log c pl0 time traj n = (nofZ 0, pl0) :: map (fun i => (time (i * k), traj (i * k))) (seq 1 (n / k)).
Proof. intros Hs H0 Hr k. unfold fresh_log. rewrite H0. cbn [app]. f_equal. now apply loop_log_all. Qed.

Lemma frames_rec time n j : (1 <= c_snaps c)%Z ->
  In j (frames c time n) <-> 1 <= j <= n /\ nleb (c_rec c) (time j) = true /\ exists i, j = i * Z.to_nat (c_snaps c).
Proof.
  intros Hs. unfold frames. rewrite filter_In, in_seq. unfold recorded. rewrite andb_true_iff, Z.eqb_eq. split.
  - intros [H [H1 H2]]. split; [lia|]. split; [exact H1|]. apply Z.mod_divide in H2; [|lia]. destruct H2 as [q Hq].
    exists (Z.to_nat q). nia.
  - intros [H [H1 [i ->]]]. split; [lia|]. split; [exact H1|]. rewrite Nat2Z.inj_mul, Z2Nat.id by lia. apply Z.mod_mul. lia.
Qed.
Lemma frames_sorted time n : StronglySorted lt (frames c time n).
Proof.
  unfold frames. generalize 1. induction n as [|n IH]; intros a; [constructor|]. cbn [seq filter].
  destruct (recorded c time a); [|apply IH]. constructor; [apply IH|].
  apply Forall_forall. intros x Hx. apply filter_In in Hx. destruct Hx as [Hx _]. apply in_seq in Hx. lia.
Qed.
End Log.

(** ** Exact rational times *)
Section ExactTimes.
Context {V : Type}.
Variable c : cfg V Q.
Notation time1 := (@time1 V Q TimeQ c).
Notation time2 := (@time2 V Q TimeQ c).
Local Open Scope Q_scope.

Definition nQ (n : nat) : Q := inject_Z (Z.of_nat n).
Lemma nQ_S n : nQ (S n) == nQ n + 1.
Proof. unfold nQ. rewrite Nat2Z.inj_succ, <- Z.add_1_r, inject_Z_plus. reflexivity. Qed.
Lemma nQ_mul a b : nQ (a * b) == nQ a * nQ b.
Proof. unfold nQ. rewrite Nat2Z.inj_mul, inject_Z_mult. reflexivity. Qed.

Lemma time1_exact j : time1 j == nQ j * c_step c.
Proof. unfold SpecRun.time1. cbn [TimeQ t_num NumQ nmul nofZ]. apply Qred_correct. Qed.

Lemma sum_repeat (x : Q) n : forall a, fold_left (fun a b => Qred (a + b)) (repeat x n) a == a + nQ n * x.
Proof.
  induction n as [|n IH]; intros a; cbn [repeat fold_left]; [unfold nQ; cbn; ring|].
  rewrite IH, Qred_correct, nQ_S. ring.
Qed.

Lemma time2_exact t0 j : time2 t0 j == t0 + nQ j * c_step c.
Proof.
  destruct j as [|j]; [unfold SpecRun.time2, nQ; cbn; ring|]. cbv beta iota delta [SpecRun.time2]. destruct (c_adaptive c).
  - cbn [TimeQ t_num NumQ nadd t_sum]. rewrite Qred_correct, sum_repeat. ring.
  - cbn [TimeQ t_num NumQ nadd]. rewrite Qred_correct, time1_exact. reflexivity.
Qed.

(** the number of steps run makes *)
Lemma steps_exact t0 : 0 < c_step c -> t0 <= c_end c ->
  exists n : nat, @t_int Q TimeQ (@ndiv Q NumQ (@nsub Q NumQ (c_end c) t0) (c_step c)) = Ok (Z.of_nat n)
   /\ t0 + nQ n * c_step c <= c_end c /\ c_end c < t0 + nQ (S n) * c_step c.
Proof.
  intros Hs He. cbn [TimeQ NumQ t_int ndiv nsub]. set (q := Qred (Qred (c_end c - t0) / c_step c)).
  assert (Eq : q == (c_end c - t0) / c_step c) by (unfold q; now rewrite !Qred_correct).
  assert (Hq : 0 <= q). { rewrite Eq. apply Qle_shift_div_l; [exact Hs|]. lra. }
  assert (N0 : (0 <= Qnum q)%Z) by (clearbody q; destruct q as [a b]; unfold Qle in Hq; cbn in Hq |- *; lia).
  exists (Z.to_nat (Z.quot (Qnum q) (Z.pos (Qden q)))).
  rewrite Z.quot_div_nonneg by lia. set (m := (Qnum q / Z.pos (Qden q))%Z).
  assert (Hm : (0 <= m)%Z) by (apply Z.div_pos; lia).
  assert (F : Qfloor q = m) by (unfold m; destruct q; reflexivity).
  pose proof (Qfloor_le q) as F1. pose proof (Qlt_floor q) as F2. rewrite F in F1, F2.
  assert (EE : q * c_step c == c_end c - t0). { rewrite Eq. field. lra. }
  rewrite Z2Nat.id by exact Hm. split; [reflexivity|]. rewrite nQ_S. unfold nQ. rewrite Z2Nat.id by exact Hm.
  rewrite inject_Z_plus in F2. change (inject_Z 1) with 1 in F2. split.
  - assert (inject_Z m * c_step c <= q * c_step c) by (apply Qmult_le_compat_r; lra). lra.
  - assert (q * c_step c < (inject_Z m + 1) * c_step c) by (apply Qmult_lt_compat_r; lra). lra.
Qed.

(** rounding to four digits moves a number by at most half a unit *)
Lemma round_even_near q : q - (1 # 2) <= inject_Z (q_round_even q) <= q + (1 # 2).
Proof.
  unfold q_round_even. pose proof (Qfloor_le q) as F1. pose proof (Qlt_floor q) as F2. rewrite inject_Z_plus in F2.
  change (inject_Z 1) with 1 in F2. set (f := Qfloor q) in *.
  destruct (Qcompare (q - inject_Z f) (1 # 2)) eqn:E.
  - apply Qeq_alt in E. destruct (Z.even f); [|rewrite inject_Z_plus; change (inject_Z 1) with 1]; split; lra.
  - apply Qlt_alt in E. split; lra.
  - apply Qgt_alt in E. rewrite inject_Z_plus. change (inject_Z 1) with 1. split; lra.
Qed.
Lemma round4_near q : q - (1 # 20000) <= @t_round4 Q TimeQ q <= q + (1 # 20000).
Proof.
  cbn [TimeQ t_round4]. rewrite Qred_correct. pose proof (round_even_near (q * 10000)) as [H1 H2].
  set (z := inject_Z (q_round_even (q * 10000))) in *.
  assert (E : z / 10000 == z * (1 # 10000)) by field. rewrite E. split; lra.
Qed.

(** run2 makes the steps that the end time asks for, up to that rounding *)
Lemma run2_steps t0 n : (forall j, (j < n)%nat -> @nltb Q NumQ (@t_round4 Q TimeQ (time2 t0 j)) (c_end c) = true) ->
  @nltb Q NumQ (@t_round4 Q TimeQ (time2 t0 n)) (c_end c) = false ->
  c_end c <= t0 + nQ n * c_step c + (1 # 20000) /\
  forall j, (j < n)%nat -> t0 + nQ j * c_step c - (1 # 20000) < c_end c.
Proof.
  intros H1 H2. cbn [NumQ nltb] in H1, H2. split.
  - apply negb_false_iff, Qle_bool_iff in H2. pose proof (round4_near (time2 t0 n)) as [_ R]. pose proof (time2_exact t0 n) as E. lra.
  - intros j Hj. specialize (H1 j Hj). apply negb_true_iff in H1.
    assert (L : @t_round4 Q TimeQ (time2 t0 j) < c_end c).
    { apply Qnot_le_lt. intros C. apply Qle_bool_iff in C. congruence. }
    pose proof (round4_near (time2 t0 j)) as [R _]. pose proof (time2_exact t0 j) as E. lra.
Qed.
End ExactTimes.
