(** Taylor expansion and the second-order accuracy of the stencils. *)
From Coq Require Import List Arith ZArith Lia Bool Reals Lra Psatz.
From Verif Require Import Num NdArray NdFacts Spec GradFacts SumFacts LapFacts GradProps SpecHW SpecPlasma HWFacts RhsFacts SpecSmooth.
Import ListNotations.
Local Open Scope R_scope.

(** ** derivatives *)
Lemma dpl_ext f g x l : (forall t, f t = g t) -> derivable_pt_lim f x l -> derivable_pt_lim g x l.
Proof.
  intros H D e He. destruct (D e He) as [d Hd]. exists d. intros h Hh Hl. rewrite <- !H. now apply Hd.
Qed.
Lemma dpl_eq f x l l' : derivable_pt_lim f x l -> l = l' -> derivable_pt_lim f x l'.
Proof. now intros ? <-. Qed.
Lemma dpl_plus f g x l m : derivable_pt_lim f x l -> derivable_pt_lim g x m ->
  derivable_pt_lim (fun t => f t + g t) x (l + m).
Proof. exact (derivable_pt_lim_plus f g x l m). Qed.
Lemma dpl_minus f g x l m : derivable_pt_lim f x l -> derivable_pt_lim g x m ->
  derivable_pt_lim (fun t => f t - g t) x (l - m).
Proof. exact (derivable_pt_lim_minus f g x l m). Qed.
Lemma dpl_scal c f x l : derivable_pt_lim f x l -> derivable_pt_lim (fun t => c * f t) x (c * l).
Proof. exact (derivable_pt_lim_scal f c x l). Qed.
Lemma dpl_const c x : derivable_pt_lim (fun _ => c) x 0.
Proof. exact (derivable_pt_lim_const c x). Qed.
Lemma dpl_id x : derivable_pt_lim (fun t => t) x 1.
Proof. exact (derivable_pt_lim_id x). Qed.
Lemma dpl_pow n x : derivable_pt_lim (fun t => t ^ S n) x (INR (S n) * x ^ n).
Proof. exact (derivable_pt_lim_pow x (S n)). Qed.
Lemma dpl_shift f a x l : derivable_pt_lim f (a + x) l -> derivable_pt_lim (fun t => f (a + t)) x l.
Proof.
  intros D e He. destruct (D e He) as [d Hd]. exists d. intros h Hh Hl. rewrite <- Rplus_assoc. now apply Hd.
Qed.
Lemma dpl_shiftr f a x l : derivable_pt_lim f (x + a) l -> derivable_pt_lim (fun t => f (t + a)) x l.
Proof.
  intros D. apply (dpl_ext (fun t => f (a + t))); [intros t; f_equal; ring|]. apply dpl_shift. now rewrite Rplus_comm.
Qed.
Lemma dpl_opp f x l : derivable_pt_lim f (- x) l -> derivable_pt_lim (fun t => f (- t)) x (- l).
Proof.
  intros D. apply dpl_eq with (l * -1); [|ring].
  apply (derivable_pt_lim_comp (fun t => - t) f); [|exact D].
  apply (dpl_ext (fun t => -1 * t)); [intros; ring|]. apply dpl_eq with (-1 * 1); [|ring]. apply dpl_scal, dpl_id.
Qed.

(** ** growth of a function whose derivative is bounded by a power *)
Lemma fact_S' n : INR (fact (S n)) = INR (S n) * INR (fact n).
Proof. now rewrite fact_simpl, mult_INR. Qed.
Lemma grow_pos (g g' : R -> R) C n : (forall t, derivable_pt_lim g t (g' t)) -> g 0 = 0 ->
  (forall t, 0 <= t -> g' t <= C * t ^ n / INR (fact n)) -> forall t, 0 <= t -> g t <= C * t ^ S n / INR (fact (S n)).
Proof.
  intros D H0 B t Ht. destruct (Req_dec t 0) as [->|Hne].
  - rewrite H0, pow_i by lia. unfold Rdiv. rewrite Rmult_0_r, Rmult_0_l. apply Rle_refl.
  - set (f := fun s => C / INR (fact (S n)) * s ^ S n - g s).
    assert (Df : forall s, derivable_pt_lim f s (C * s ^ n / INR (fact n) - g' s)).
    { intros s. unfold f. apply dpl_minus; [|apply D].
      apply dpl_eq with (C / INR (fact (S n)) * (INR (S n) * s ^ n)); [apply dpl_scal, dpl_pow|].
      rewrite fact_S'. field. split; [apply INR_fact_neq_0|apply not_0_INR; lia]. }
    destruct (MVT_cor2 f (fun s => C * s ^ n / INR (fact n) - g' s) 0 t) as (c & Ec & Hc); [lra|intros; apply Df|].
    assert (E0 : f 0 = 0) by (unfold f; rewrite H0, pow_i by lia; ring).
    specialize (B c ltac:(lra)). rewrite E0 in Ec.
    assert (0 <= (C * c ^ n / INR (fact n) - g' c) * (t - 0)) by (apply Rmult_le_pos; lra).
    assert (F : 0 <= f t) by lra. unfold f in F. unfold Rdiv in *. lra.
Qed.
Lemma grow (g g' : R -> R) C n : (forall t, derivable_pt_lim g t (g' t)) -> g 0 = 0 ->
  (forall t, Rabs (g' t) <= C * Rabs t ^ n / INR (fact n)) -> forall t, Rabs (g t) <= C * Rabs t ^ S n / INR (fact (S n)).
Proof.
  intros D H0 B t.
  assert (P : forall (g g' : R -> R), (forall t, derivable_pt_lim g t (g' t)) -> g 0 = 0 ->
    (forall t, Rabs (g' t) <= C * Rabs t ^ n / INR (fact n)) -> forall t, 0 <= t -> Rabs (g t) <= C * Rabs t ^ S n / INR (fact (S n))).
  { clear. intros g g' D H0 B t Ht. rewrite (Rabs_pos_eq t Ht).
    assert (U : g t <= C * t ^ S n / INR (fact (S n))).
    { apply (grow_pos g g'); auto. intros s Hs. specialize (B s). rewrite (Rabs_pos_eq s Hs) in B.
      pose proof (Rle_abs (g' s)). lra. }
    assert (L : (fun s => -1 * g s) t <= C * t ^ S n / INR (fact (S n))).
    { apply (grow_pos (fun s => -1 * g s) (fun s => -1 * g' s)); auto.
      - intros s. now apply dpl_scal.
      - rewrite H0. ring.
      - intros s Hs. specialize (B s). rewrite (Rabs_pos_eq s Hs) in B.
        pose proof (Rle_abs (- g' s)). rewrite Rabs_Ropp in *. lra. }
    cbn beta in L. apply Rabs_le. lra. }
  destruct (Rle_dec 0 t) as [Ht|Ht]; [now apply (P g g')|].
  replace (g t) with ((fun s => g (- s)) (- t)) by (cbn beta; f_equal; ring).
  rewrite <- (Rabs_Ropp t). apply (P (fun s => g (- s)) (fun s => - g' (- s))); [| | |lra].
  - intros s. now apply dpl_opp.
  - now rewrite Ropp_0.
  - intros s. rewrite Rabs_Ropp. specialize (B (- s)). now rewrite Rabs_Ropp in B.
Qed.

(** ** Taylor's formula with bounded remainder, orders 1 to 4 *)
Section Taylor.
Variables (f : nat -> R -> R) (M : R).
Lemma taylor1 : (forall x, derivable_pt_lim (f 0%nat) x (f 1%nat x)) -> (forall x, Rabs (f 1%nat x) <= M) ->
  forall x h, Rabs (f 0%nat (x + h) - f 0%nat x) <= M * Rabs h.
Proof.
  intros D B x h.
  assert (G : Rabs ((fun t => f 0%nat (x + t) - f 0%nat x) h) <= M * Rabs h ^ 1 / INR (fact 1)).
  { apply (grow (fun t => f 0%nat (x + t) - f 0%nat x) (fun t => f 1%nat (x + t) - 0)).
    - intros t. apply dpl_minus; [apply dpl_shift, D|apply dpl_const].
    - rewrite Rplus_0_r. ring.
    - intros t. cbn [pow fact INR]. rewrite Rminus_0_r. specialize (B (x + t)). unfold Rdiv. rewrite Rinv_1. lra. }
  cbn [pow fact INR Nat.mul Nat.add] in G. unfold Rdiv in G. rewrite Rinv_1 in G. lra.
Qed.
End Taylor.
Lemma taylor2 (f : nat -> R -> R) M : (forall k x, (k < 2)%nat -> derivable_pt_lim (f k) x (f (S k) x)) -> (forall x, Rabs (f 2%nat x) <= M) ->
  forall x h, Rabs (f 0%nat (x + h) - (f 0%nat x + h * f 1%nat x)) <= M * Rabs h ^ 2 / 2.
Proof.
  intros D B x h.
  assert (G : Rabs ((fun t => f 0%nat (x + t) - (f 0%nat x + t * f 1%nat x)) h) <= M * Rabs h ^ 2 / INR (fact 2)).
  { apply (grow (fun t => f 0%nat (x + t) - (f 0%nat x + t * f 1%nat x)) (fun t => f 1%nat (x + t) - f 1%nat x)).
    - intros t. apply dpl_minus; [apply dpl_shift, D; lia|].
      apply (dpl_ext (fun t => f 0%nat x + f 1%nat x * t)); [intros; ring|].
      apply dpl_eq with (0 + f 1%nat x * 1); [|ring]. apply dpl_plus; [apply dpl_const|apply dpl_scal, dpl_id].
    - rewrite Rplus_0_r. ring.
    - intros t. pose proof (taylor1 (fun k => f (S k)) M (fun y => D 1%nat y ltac:(lia)) B x t) as T.
      cbn [pow fact INR Nat.mul Nat.add]. unfold Rdiv. rewrite Rinv_1. cbn beta in T. lra. }
  cbn [pow fact INR Nat.mul Nat.add] in G |- *. replace (1 + 1) with 2 in G by ring. exact G.
Qed.
Lemma taylor3 (f : nat -> R -> R) M : (forall k x, (k < 3)%nat -> derivable_pt_lim (f k) x (f (S k) x)) -> (forall x, Rabs (f 3%nat x) <= M) ->
  forall x h, Rabs (f 0%nat (x + h) - (f 0%nat x + h * f 1%nat x + h ^ 2 / 2 * f 2%nat x)) <= M * Rabs h ^ 3 / 6.
Proof.
  intros D B x h.
  assert (G : Rabs ((fun t => f 0%nat (x + t) - (f 0%nat x + t * f 1%nat x + t ^ 2 / 2 * f 2%nat x)) h) <= M * Rabs h ^ 3 / INR (fact 3)).
  { apply (grow (fun t => f 0%nat (x + t) - (f 0%nat x + t * f 1%nat x + t ^ 2 / 2 * f 2%nat x)) (fun t => f 1%nat (x + t) - (f 1%nat x + t * f 2%nat x))).
    - intros t. apply dpl_minus; [apply dpl_shift, D; lia|].
      apply (dpl_ext (fun t => f 0%nat x + (f 1%nat x * t + f 2%nat x / 2 * t ^ 2))); [intros; field|].
      apply dpl_eq with (0 + (f 1%nat x * 1 + f 2%nat x / 2 * (INR 2 * t ^ 1))); [|cbn; field].
      apply dpl_plus; [apply dpl_const|]. apply dpl_plus; [apply dpl_scal, dpl_id|apply dpl_scal, dpl_pow].
    - rewrite Rplus_0_r. field.
    - intros t. pose proof (taylor2 (fun k => f (S k)) M (fun k y Hk => D (S k) y ltac:(lia)) B x t) as T.
      replace (INR (fact 2)) with 2 by (cbn; ring). exact T. }
  replace (INR (fact 3)) with 6 in G by (cbn; ring). exact G.
Qed.
Lemma taylor4 (f : nat -> R -> R) M : (forall k x, (k < 4)%nat -> derivable_pt_lim (f k) x (f (S k) x)) -> (forall x, Rabs (f 4%nat x) <= M) ->
  forall x h, Rabs (f 0%nat (x + h) - (f 0%nat x + h * f 1%nat x + h ^ 2 / 2 * f 2%nat x + h ^ 3 / 6 * f 3%nat x)) <= M * Rabs h ^ 4 / 24.
Proof.
  intros D B x h.
  assert (G : Rabs ((fun t => f 0%nat (x + t) - (f 0%nat x + t * f 1%nat x + t ^ 2 / 2 * f 2%nat x + t ^ 3 / 6 * f 3%nat x)) h) <= M * Rabs h ^ 4 / INR (fact 4)).
  { apply (grow (fun t => f 0%nat (x + t) - (f 0%nat x + t * f 1%nat x + t ^ 2 / 2 * f 2%nat x + t ^ 3 / 6 * f 3%nat x)) (fun t => f 1%nat (x + t) - (f 1%nat x + t * f 2%nat x + t ^ 2 / 2 * f 3%nat x))).
    - intros t. apply dpl_minus; [apply dpl_shift, D; lia|].
      apply (dpl_ext (fun t => f 0%nat x + (f 1%nat x * t + (f 2%nat x / 2 * t ^ 2 + f 3%nat x / 6 * t ^ 3)))); [intros; field|].
      apply dpl_eq with (0 + (f 1%nat x * 1 + (f 2%nat x / 2 * (INR 2 * t ^ 1) + f 3%nat x / 6 * (INR 3 * t ^ 2)))); [|cbn; field].
      apply dpl_plus; [apply dpl_const|]. apply dpl_plus; [apply dpl_scal, dpl_id|]. apply dpl_plus; apply dpl_scal, dpl_pow.
    - rewrite Rplus_0_r. field.
    - intros t. pose proof (taylor3 (fun k => f (S k)) M (fun k y Hk => D (S k) y ltac:(lia)) B x t) as T.
      replace (INR (fact 3)) with 6 by (cbn; ring). exact T. }
  replace (INR (fact 4)) with 24 in G by (cbn; ring). exact G.
Qed.

(** ** one-dimensional stencils *)
Lemma abs_add a b A B : Rabs a <= A -> Rabs b <= B -> Rabs (a + b) <= A + B.
Proof. intros. eapply Rle_trans; [apply Rabs_triang|lra]. Qed.
Lemma abs_sub a b A B : Rabs a <= A -> Rabs b <= B -> Rabs (a - b) <= A + B.
Proof. intros. unfold Rminus. apply abs_add; [assumption|now rewrite Rabs_Ropp]. Qed.
Lemma abs_mul a b A B : Rabs a <= A -> Rabs b <= B -> Rabs (a * b) <= A * B.
Proof. intros. rewrite Rabs_mult. apply Rmult_le_compat; auto using Rabs_pos. Qed.
Lemma abs_div a A h : 0 < h -> Rabs a <= A * h -> Rabs (a / h) <= A.
Proof.
  intros Hh H. unfold Rdiv. rewrite Rabs_mult, Rabs_inv, (Rabs_pos_eq h) by lra.
  apply (Rmult_le_reg_r h); [assumption|]. rewrite Rmult_assoc, Rinv_l by lra. lra.
Qed.
Lemma central1 (f : nat -> R -> R) M h : 0 < h ->
  (forall k x, (k < 3)%nat -> derivable_pt_lim (f k) x (f (S k) x)) -> (forall x, Rabs (f 3%nat x) <= M) ->
  forall x, Rabs ((f 0%nat (x + h) - f 0%nat (x - h)) / (2 * h) - f 1%nat x) <= M * h ^ 2 / 6.
Proof.
  intros Hh D B x. pose proof (taylor3 f M D B x h) as P. pose proof (taylor3 f M D B x (- h)) as Q.
  rewrite Rabs_Ropp in Q. rewrite (Rabs_pos_eq h) in P, Q by lra. replace (x + - h) with (x - h) in Q by ring.
  pose proof (abs_sub _ _ _ _ P Q) as S.
  replace ((f 0%nat (x + h) - f 0%nat (x - h)) / (2 * h) - f 1%nat x) with ((f 0%nat (x + h) - f 0%nat (x - h) - 2 * h * f 1%nat x) / (2 * h)) by (field; lra).
  apply abs_div; [lra|].
  replace (f 0%nat (x + h) - f 0%nat (x - h) - 2 * h * f 1%nat x) with
    (f 0%nat (x + h) - (f 0%nat x + h * f 1%nat x + h ^ 2 / 2 * f 2%nat x) - (f 0%nat (x - h) - (f 0%nat x + - h * f 1%nat x + (- h) ^ 2 / 2 * f 2%nat x))) by field.
  eapply Rle_trans; [exact S|]. apply Req_le. field.
Qed.
Lemma central2 (f : nat -> R -> R) M h : 0 < h ->
  (forall k x, (k < 4)%nat -> derivable_pt_lim (f k) x (f (S k) x)) -> (forall x, Rabs (f 4%nat x) <= M) ->
  forall x, Rabs ((f 0%nat (x + h) - 2 * f 0%nat x + f 0%nat (x - h)) / h ^ 2 - f 2%nat x) <= M * h ^ 2 / 12.
Proof.
  intros Hh D B x. pose proof (taylor4 f M D B x h) as P. pose proof (taylor4 f M D B x (- h)) as Q.
  rewrite Rabs_Ropp in Q. rewrite (Rabs_pos_eq h) in P, Q by lra. replace (x + - h) with (x - h) in Q by ring.
  pose proof (abs_add _ _ _ _ P Q) as S.
  assert (0 < h ^ 2) by (apply pow_lt; lra).
  replace ((f 0%nat (x + h) - 2 * f 0%nat x + f 0%nat (x - h)) / h ^ 2 - f 2%nat x) with ((f 0%nat (x + h) - 2 * f 0%nat x + f 0%nat (x - h) - h ^ 2 * f 2%nat x) / h ^ 2) by (field; lra).
  apply abs_div; [assumption|].
  match goal with |- Rabs ?a <= _ => match type of S with Rabs ?b <= _ => replace a with b by field end end.
  eapply Rle_trans; [exact S|]. apply Req_le. field.
Qed.
(** without the remainder: bounded by the second derivative *)
Lemma central2_bd (f : nat -> R -> R) M h : 0 < h ->
  (forall k x, (k < 2)%nat -> derivable_pt_lim (f k) x (f (S k) x)) -> (forall x, Rabs (f 2%nat x) <= M) ->
  forall x, Rabs ((f 0%nat (x + h) - 2 * f 0%nat x + f 0%nat (x - h)) / h ^ 2) <= M.
Proof.
  intros Hh D B x. pose proof (taylor2 f M D B x h) as P. pose proof (taylor2 f M D B x (- h)) as Q.
  rewrite Rabs_Ropp in Q. rewrite (Rabs_pos_eq h) in P, Q by lra. replace (x + - h) with (x - h) in Q by ring.
  pose proof (abs_add _ _ _ _ P Q) as S.
  assert (0 < h ^ 2) by (apply pow_lt; lra).
  apply abs_div; [assumption|].
  match goal with |- Rabs ?a <= _ => match type of S with Rabs ?b <= _ => replace a with b by field end end.
  eapply Rle_trans; [exact S|]. apply Req_le. field.
Qed.
