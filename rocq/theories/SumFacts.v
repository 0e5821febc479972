(** Finite sums: a generic layer (any commutative group-like addition), and
    its instances over R used by the grid statements of [Spec]. *)
From Coq Require Import List Arith ZArith Lia Reals Lra Psatz.
From Verif Require Import Num NdArray NdFacts Spec.
Import ListNotations.

Section Generic.
Variable T : Type.
Variable z : T.
Variable add : T -> T -> T.
Hypothesis add_comm : forall a b, add a b = add b a.
Hypothesis add_assoc : forall a b c, add a (add b c) = add (add a b) c.
Hypothesis add_0_l : forall a, add z a = a.

Fixpoint bsum (n : nat) (f : nat -> T) : T :=
  match n with O => z | S n' => add (bsum n' f) (f n') end.

Lemma bsum_ext n f g : (forall i, i < n -> f i = g i) -> bsum n f = bsum n g.
Proof.
  induction n as [|n IH]; intros H; cbn [bsum]; [reflexivity|].
  rewrite IH, H; auto.
Qed.

Lemma bsum_S_l n f : bsum (S n) f = add (f 0) (bsum n (fun i => f (S i))).
Proof.
  induction n as [|n IH].
  - cbn [bsum]. rewrite add_comm. reflexivity.
  - cbn [bsum] in IH |- *. rewrite IH at 1. now rewrite add_assoc.
Qed.

Lemma bsum_zero n : bsum n (fun _ => z) = z.
Proof. induction n as [|n IH]; cbn [bsum]; [reflexivity|]. now rewrite IH, add_0_l. Qed.

Lemma bsum_add n f g : bsum n (fun i => add (f i) (g i)) = add (bsum n f) (bsum n g).
Proof.
  induction n as [|n IH]; cbn [bsum]; [now rewrite add_0_l|].
  rewrite IH. rewrite <- !add_assoc. f_equal.
  rewrite !add_assoc. f_equal. apply add_comm.
Qed.

Lemma bsum_swap n m (f : nat -> nat -> T) :
  bsum n (fun i => bsum m (fun j => f i j)) = bsum m (fun j => bsum n (fun i => f i j)).
Proof.
  induction n as [|n IH]; cbn [bsum].
  - now rewrite bsum_zero.
  - now rewrite IH, <- bsum_add.
Qed.

Lemma bsum_shift1 n f : 0 < n -> bsum n (fun i => f (pidx n (Z.of_nat i + 1))) = bsum n f.
Proof.
  intros Hn. destruct n as [|m]; [lia|].
  rewrite (bsum_S_l m f). cbn [bsum]. rewrite add_comm. f_equal.
  - f_equal. unfold pidx.
    replace (Z.of_nat m + 1)%Z with (0 + 1 * Z.of_nat (S m))%Z by lia.
    rewrite Z_mod_plus_full. rewrite Z.mod_0_l; lia.
  - apply bsum_ext. intros i Hi. f_equal. unfold pidx. rewrite Z.mod_small by lia. lia.
Qed.

Lemma bsum_shift_nat n k f : 0 < n -> bsum n (fun i => f (pidx n (Z.of_nat i + Z.of_nat k))) = bsum n f.
Proof.
  intros Hn. revert f; induction k as [|k IH]; intros f.
  - apply bsum_ext. intros i Hi. now rewrite Z.add_0_r, pidx_small.
  - rewrite <- (IH f). rewrite <- (bsum_shift1 n (fun i => f (pidx n (Z.of_nat i + Z.of_nat k)))) by assumption.
    apply bsum_ext. intros i Hi. f_equal. rewrite pidx_add by assumption. f_equal. lia.
Qed.

(** periodic translation does not change a sum over the period *)
Lemma bsum_shift n (k : Z) f : 0 < n -> bsum n (fun i => f (pidx n (Z.of_nat i + k))) = bsum n f.
Proof.
  intros Hn. rewrite <- (bsum_shift_nat n (Z.to_nat (k mod Z.of_nat n)) f Hn).
  apply bsum_ext. intros i Hi. f_equal. apply pidx_eq; [exact Hn|].
  rewrite Z2Nat.id by (apply Z.mod_pos_bound; lia). now rewrite Zplus_mod_idemp_r.
Qed.

Lemma bsum_split n m f : bsum (n + m) f = add (bsum n f) (bsum m (fun i => f (n + i))).
Proof.
  induction m as [|m IH].
  - rewrite Nat.add_0_r. cbn [bsum]. now rewrite add_comm, add_0_l.
  - rewrite Nat.add_succ_r. cbn [bsum]. now rewrite IH, <- add_assoc.
Qed.

(** reversal *)
Lemma bsum_rev n f : bsum n (fun i => f (n - 1 - i)) = bsum n f.
Proof.
  revert f; induction n as [|n IH]; intros f; [reflexivity|].
  rewrite bsum_S_l. cbn [bsum]. rewrite add_comm. f_equal.
  - rewrite <- (IH f). apply bsum_ext. intros i Hi. f_equal. lia.
  - f_equal. lia.
Qed.

(** negation of the index on a periodic axis *)
Lemma bsum_neg n f : bsum n (fun i => f (pidx n (- Z.of_nat i))) = bsum n f.
Proof.
  destruct (Nat.eq_dec n 0) as [->|Hn]; [reflexivity|].
  rewrite <- (bsum_shift n 1 (fun i => f (pidx n (- Z.of_nat i)))) by lia.
  rewrite <- (bsum_rev n f). apply bsum_ext. intros i Hi. f_equal.
  destruct (Nat.eq_dec (i + 1) n) as [E|E].
  - replace (Z.of_nat i + 1)%Z with (0 + Z.of_nat n)%Z by lia.
    rewrite pidx_period by lia. unfold pidx. rewrite Z.mod_0_l by lia. cbn. lia.
  - replace (Z.of_nat i + 1)%Z with (Z.of_nat (i + 1)) by lia.
    rewrite (pidx_small n (i + 1)) by lia. rewrite <- pidx_period by lia.
    replace (- Z.of_nat (i + 1) + Z.of_nat n)%Z with (Z.of_nat (n - 1 - i)) by lia.
    apply pidx_small; lia.
Qed.

(** a single nonzero term *)
Lemma bsum_single n k f : k < n -> (forall i, i < n -> i <> k -> f i = z) -> bsum n f = f k.
Proof.
  induction n as [|n IH]; intros Hk H; [lia|]. cbn [bsum].
  destruct (Nat.eq_dec k n) as [->|Hne].
  - rewrite (bsum_ext n f (fun _ => z)), bsum_zero, add_0_l; [reflexivity|].
    intros i Hi. apply H; lia.
  - rewrite IH by (try lia; intros; apply H; lia).
    rewrite (H n), add_comm, add_0_l by lia. reflexivity.
Qed.

End Generic.

Local Open Scope R_scope.

Lemma rsum_bsum n f : rsum n f = bsum R 0 Rplus n f.
Proof. reflexivity. Qed.

Lemma nsum_rsum n (f : nat -> R) : nsum n f = rsum n f.
Proof. reflexivity. Qed.

Local Ltac gen H := intros; rewrite ?rsum_bsum; apply H; auto using Rplus_comm, Rplus_0_l;
  intros; now rewrite Rplus_assoc.

Lemma rsum_ext n f g : (forall i, (i < n)%nat -> f i = g i) -> rsum n f = rsum n g.
Proof. gen bsum_ext. Qed.
Lemma rsum_S_l n f : rsum (S n) f = f 0%nat + rsum n (fun i => f (S i)).
Proof. gen bsum_S_l. Qed.
Lemma rsum_zero n : rsum n (fun _ => 0) = 0.
Proof. gen bsum_zero. Qed.
Lemma rsum_add n f g : rsum n (fun i => f i + g i) = rsum n f + rsum n g.
Proof. gen bsum_add. Qed.
Lemma rsum_swap n m f : rsum n (fun i => rsum m (fun j => f i j)) = rsum m (fun j => rsum n (fun i => f i j)).
Proof. gen bsum_swap. Qed.
Lemma rsum_shift n k f : (0 < n)%nat -> rsum n (fun i => f (sh n i k)) = rsum n f.
Proof. gen bsum_shift. Qed.
Lemma rsum_split n m f : rsum (n + m) f = rsum n f + rsum m (fun i => f (n + i)%nat).
Proof. gen bsum_split. Qed.
Lemma rsum_rev n f : rsum n (fun i => f (n - 1 - i)%nat) = rsum n f.
Proof. gen bsum_rev. Qed.
Lemma rsum_neg n f : rsum n (fun i => f (pidx n (- Z.of_nat i))) = rsum n f.
Proof. gen bsum_neg. Qed.
Lemma rsum_single n k f : (k < n)%nat -> (forall i, (i < n)%nat -> i <> k -> f i = 0) -> rsum n f = f k.
Proof. gen bsum_single. Qed.

Lemma rsum_scal n c f : rsum n (fun i => c * f i) = c * rsum n f.
Proof. induction n as [|n IH]; cbn [rsum]; [lra|]. rewrite IH; lra. Qed.
Lemma rsum_scal_r n c f : rsum n (fun i => f i * c) = rsum n f * c.
Proof. induction n as [|n IH]; cbn [rsum]; [lra|]. rewrite IH; lra. Qed.
Lemma rsum_opp n f : rsum n (fun i => - f i) = - rsum n f.
Proof. induction n as [|n IH]; cbn [rsum]; [lra|]. rewrite IH; lra. Qed.
Lemma rsum_sub n f g : rsum n (fun i => f i - g i) = rsum n f - rsum n g.
Proof. induction n as [|n IH]; cbn [rsum]; [lra|]. rewrite IH; lra. Qed.
Lemma rsum_const n c : rsum n (fun _ => c) = INR n * c.
Proof. induction n as [|n IH]; [cbn; lra|]. rewrite S_INR; cbn [rsum]. rewrite IH; lra. Qed.
Lemma rsum_nonneg n f : (forall i, (i < n)%nat -> 0 <= f i) -> 0 <= rsum n f.
Proof.
  induction n as [|n IH]; intros H; cbn [rsum]; [lra|].
  assert (0 <= f n) by (apply H; lia). assert (0 <= rsum n f) by (apply IH; auto). lra.
Qed.
Lemma rsum_le n f g : (forall i, (i < n)%nat -> f i <= g i) -> rsum n f <= rsum n g.
Proof.
  induction n as [|n IH]; intros H; cbn [rsum]; [lra|].
  assert (f n <= g n) by (apply H; lia). assert (rsum n f <= rsum n g) by (apply IH; auto). lra.
Qed.
Lemma rsum_0_iff n f : (forall i, (i < n)%nat -> 0 <= f i) ->
  (rsum n f = 0 <-> forall i, (i < n)%nat -> f i = 0).
Proof.
  intros Hp; split.
  - induction n as [|n IH]; intros H i Hi; [lia|]. cbn [rsum] in H.
    assert (0 <= f n) by (apply Hp; lia).
    assert (0 <= rsum n f) by (apply rsum_nonneg; intros; apply Hp; lia).
    destruct (Nat.eq_dec i n) as [->|]; [lra|].
    apply IH; [intros; apply Hp; lia|lra|lia].
  - intros H. rewrite (rsum_ext n f (fun _ => 0)) by exact H. apply rsum_zero.
Qed.

(** ** two-dimensional sums *)
Lemma gsum_ext ny nx f g :
  (forall i j, (i < ny)%nat -> (j < nx)%nat -> f i j = g i j) -> gsum ny nx f = gsum ny nx g.
Proof. intros H. apply rsum_ext; intros i Hi. apply rsum_ext; intros j Hj. now apply H. Qed.
Lemma gsum_add ny nx f g : gsum ny nx (fun i j => f i j + g i j) = gsum ny nx f + gsum ny nx g.
Proof. unfold gsum. rewrite <- rsum_add. apply rsum_ext; intros. apply rsum_add. Qed.
Lemma gsum_sub ny nx f g : gsum ny nx (fun i j => f i j - g i j) = gsum ny nx f - gsum ny nx g.
Proof. unfold gsum. rewrite <- rsum_sub. apply rsum_ext; intros. apply rsum_sub. Qed.
Lemma gsum_scal ny nx c f : gsum ny nx (fun i j => c * f i j) = c * gsum ny nx f.
Proof. unfold gsum. rewrite <- rsum_scal. apply rsum_ext; intros. apply rsum_scal. Qed.
Lemma gsum_scal_r ny nx c f : gsum ny nx (fun i j => f i j * c) = gsum ny nx f * c.
Proof. unfold gsum. rewrite <- rsum_scal_r. apply rsum_ext; intros. apply rsum_scal_r. Qed.
Lemma gsum_opp ny nx f : gsum ny nx (fun i j => - f i j) = - gsum ny nx f.
Proof. unfold gsum. rewrite <- rsum_opp. apply rsum_ext; intros. apply rsum_opp. Qed.
Lemma gsum_zero ny nx : gsum ny nx (fun _ _ => 0) = 0.
Proof. unfold gsum. rewrite (rsum_ext ny _ (fun _ => 0)) by (intros; apply rsum_zero). apply rsum_zero. Qed.
Lemma gsum_const ny nx c : gsum ny nx (fun _ _ => c) = INR ny * INR nx * c.
Proof. unfold gsum. rewrite (rsum_ext ny _ (fun _ => INR nx * c)) by (intros; apply rsum_const). rewrite rsum_const; ring. Qed.
Lemma gsum_nonneg ny nx f :
  (forall i j, (i < ny)%nat -> (j < nx)%nat -> 0 <= f i j) -> 0 <= gsum ny nx f.
Proof. intros H. apply rsum_nonneg; intros i Hi. apply rsum_nonneg; intros j Hj. now apply H. Qed.
Lemma gsum_0_iff ny nx f : (forall i j, (i < ny)%nat -> (j < nx)%nat -> 0 <= f i j) ->
  (gsum ny nx f = 0 <-> forall i j, (i < ny)%nat -> (j < nx)%nat -> f i j = 0).
Proof.
  intros Hp. unfold gsum. rewrite rsum_0_iff.
  - split.
    + intros H i j Hi Hj. specialize (H i Hi). rewrite rsum_0_iff in H; auto.
    + intros H i Hi. rewrite rsum_0_iff; auto.
  - intros i Hi. apply rsum_nonneg; auto.
Qed.
Lemma gsum_swap ny nx f : gsum ny nx f = gsum nx ny (fun j i => f i j).
Proof. apply rsum_swap. Qed.
Lemma gsum_shift ny nx ky kx f : (0 < ny)%nat -> (0 < nx)%nat ->
  gsum ny nx (fun i j => f (sh ny i ky) (sh nx j kx)) = gsum ny nx f.
Proof.
  intros Hy Hx. unfold gsum.
  transitivity (rsum ny (fun i => rsum nx (fun j => f (sh ny i ky) j))).
  - apply rsum_ext; intros i Hi. exact (rsum_shift nx kx (fun j => f (sh ny i ky) j) Hx).
  - exact (rsum_shift ny ky (fun i => rsum nx (fun j => f i j)) Hy).
Qed.
Lemma gsum_shift_y ny nx k f : (0 < ny)%nat ->
  gsum ny nx (fun i j => f (sh ny i k) j) = gsum ny nx f.
Proof. intros Hy. exact (rsum_shift ny k (fun i => rsum nx (fun j => f i j)) Hy). Qed.
Lemma gsum_shift_x ny nx k f : (0 < nx)%nat ->
  gsum ny nx (fun i j => f i (sh nx j k)) = gsum ny nx f.
Proof. intros Hx. apply rsum_ext; intros i Hi. exact (rsum_shift nx k (fun j => f i j) Hx). Qed.
Lemma gsum_mean0 ny nx f : (0 < ny)%nat -> (0 < nx)%nat ->
  gsum ny nx (fun i j => f i j - gmean ny nx f) = 0.
Proof.
  intros Hy Hx. rewrite gsum_sub, gsum_const. unfold gmean.
  assert (INR ny <> 0) by (apply not_0_INR; lia).
  assert (INR nx <> 0) by (apply not_0_INR; lia). field. auto.
Qed.
