(** Facts about pair means, strided slices and Fourier resampling. *)
From Coq Require Import List Arith ZArith Reals Lra Lia Bool.
From Verif Require Import Num NdArray NdFacts Spec SumFacts Cplx DftFacts ModelRunHW ModelDownsample SpecDownsample.
Import ListNotations.

Ltac dm := match goal with |- context [Nat.div ?a ?b] => pose proof (Nat.div_mod_eq a b); assert (a mod b < b) by (apply Nat.mod_upper_bound; lia) end.

Section G.
Context {A : Type} {NA : Num A}.

Lemma div2_0 n : (2 * n + 1) / 2 = n.
Proof. symmetry. apply (Nat.div_unique _ 2 n 1); lia. Qed.
Lemma evens_len n : ps_len s_evens (2 * n) = n.
Proof.
  unfold ps_len, ps_stop, ps_start, clip; cbn [ps_lo ps_hi ps_step s_evens].
  destruct (Z.ltb_spec (Z.of_nat (2 * n)) 0); [lia|]. cbn [Z.ltb Z.compare].
  rewrite Z.min_id, Z.max_r, Nat2Z.id by lia. rewrite Z.min_r, Z.max_id by lia. cbn [Z.to_nat].
  replace (2 * n - 0 + (2 - 1)) with (2 * n + 1) by lia. apply div2_0.
Qed.
Lemma odds_len_gen n : ps_len s_odds n = n / 2.
Proof.
  unfold ps_len, ps_stop, ps_start, clip; cbn [ps_lo ps_hi ps_step s_odds].
  destruct (Z.ltb_spec (Z.of_nat n) 0); [lia|]. change (1 <? 0)%Z with false. cbv iota.
  rewrite Z.min_id, Z.max_r, Nat2Z.id by lia.
  destruct n as [|n]; [reflexivity|]. rewrite Z.min_r, Z.max_r by lia.
  change (Z.to_nat 1) with 1. f_equal. lia.
Qed.
Lemma evens_len_gen n : ps_len s_evens n = (n + 1) / 2.
Proof.
  unfold ps_len, ps_stop, ps_start, clip; cbn [ps_lo ps_hi ps_step s_evens].
  destruct (Z.ltb_spec (Z.of_nat n) 0); [lia|]. change (0 <? 0)%Z with false. cbv iota.
  rewrite Z.min_id, Z.max_r, Nat2Z.id by lia. rewrite Z.min_r, Z.max_id by lia. cbn [Z.to_nat].
  f_equal. lia.
Qed.
Lemma odds_len n : ps_len s_odds (2 * n) = n.
Proof. rewrite odds_len_gen. symmetry. apply (Nat.div_unique _ 2 n 0); lia. Qed.
Lemma evens_start n : ps_start s_evens n = 0.
Proof. unfold ps_start, clip; cbn [ps_lo s_evens]. change (0 <? 0)%Z with false. cbv iota. lia. Qed.
Lemma odds_start n : 0 < n -> ps_start s_odds n = 1.
Proof. intro. unfold ps_start, clip; cbn [ps_lo s_odds]. change (1 <? 0)%Z with false. cbv iota. lia. Qed.

(** the pair means along one position *)
Definition pairs (k : nat) (f : list nat -> A) (ix : list nat) : A :=
  ndiv (nadd (f (upd k (fun i => 2 * i) ix)) (f (upd k (fun i => 2 * i + 1) ix))) (nofZ 2).

Lemma inb_lt_upd (s : list nat) ix k (g : nat -> nat) (h : nat -> nat) :
  inb (upd k h s) ix -> (k < length s -> forall i, i < h (nth k s 0) -> g i < nth k s 0) -> inb s (upd k g ix).
Proof.
  intros Hi Hg. revert k ix Hi Hg. induction s as [|d s IH]; intros k ix Hi Hg.
  - destruct k; cbn [upd] in Hi; inversion Hi; subst; constructor.
  - destruct k as [|k]; cbn [upd] in Hi; inversion Hi; subst; cbn [upd]; constructor; auto.
    + apply Hg; [cbn; lia|]. cbn. assumption.
    + apply IH; [assumption|]. intros L i. apply (Hg ltac:(cbn; lia) i).
Qed.
Lemma inb_upd_pos (s : list nat) ix k (h : nat -> nat) :
  inb (upd k h s) ix -> k < length s -> nth k ix 0 < h (nth k s 0).
Proof.
  revert k ix. induction s as [|d s IH]; intros k ix Hi L; cbn in L; [lia|].
  destruct k as [|k]; cbn [upd] in Hi; inversion Hi; subst; cbn; [assumption|]. apply IH; [assumption|lia].
Qed.
Lemma upd_ext_at k g h ix : k < length ix -> g (nth k ix 0) = h (nth k ix 0) -> upd k g ix = upd k h ix.
Proof.
  revert k. induction ix as [|x ix IH]; intros k L E; cbn in L; [lia|].
  destruct k; cbn in *; [now rewrite E|]. f_equal. apply IH; [lia|assumption].
Qed.

Lemma pair_step k s (f : list nat -> A) m : nth k s 0 = 2 * m -> k < length s ->
  div_ (add_ (Ok (slice_pos k s_evens (build s f))) (Ok (slice_pos k s_odds (build s f)))) (sc (nofZ 2))
  = Ok (build (upd k (fun _ => m) s) (pairs k f)).
Proof.
  intros E L.
  assert (S1 : slice_pos k s_evens (build s f) = build (upd k (fun _ => m) s) (fun ix => f (upd k (fun i => 2 * i) ix))).
  { unfold slice_pos. cbn [shape build]. rewrite (upd_ext_at k (ps_len s_evens) (fun _ => m) s L) by (rewrite E; apply evens_len).
    apply build_ext. intros ix Hi. unfold dim. cbn [shape build]. rewrite evens_start.
    rewrite (upd_ext_at k _ (fun i => 2 * i) ix); cbn [ps_step s_evens].
    - apply get_build. apply (inb_lt_upd s ix k _ _ Hi). intros _ i. rewrite E. lia.
    - rewrite (inb_length _ _ Hi), length_upd. exact L.
    - lia. }
  assert (S2 : slice_pos k s_odds (build s f) = build (upd k (fun _ => m) s) (fun ix => f (upd k (fun i => 2 * i + 1) ix))).
  { unfold slice_pos. cbn [shape build]. rewrite (upd_ext_at k (ps_len s_odds) (fun _ => m) s L) by (rewrite E; apply odds_len).
    apply build_ext. intros ix Hi. unfold dim. cbn [shape build]. pose proof (inb_upd_pos _ _ _ _ Hi L) as P.
    rewrite (upd_ext_at k _ (fun i => 2 * i + 1) ix); cbn [ps_step s_odds].
    - apply get_build. apply (inb_lt_upd s ix k _ _ Hi). intros _ i. rewrite E. lia.
    - rewrite (inb_length _ _ Hi), length_upd. exact L.
    - rewrite E. rewrite odds_start by lia. lia. }
  rewrite S1, S2. unfold add_, div_. rewrite lift2_build, lift2_scr. reflexivity.
Qed.

Lemma mean_step rank i axes s (f : list nat -> A) m :
  nth (rank - 1 - i) s 0 = 2 * m -> rank - 1 - i < length s ->
  mean_ds_loop rank (i :: axes) (build s f) = mean_ds_loop rank axes (build (upd (rank - 1 - i) (fun _ => m) s) (pairs (rank - 1 - i) f)).
Proof.
  intros E L. cbn [mean_ds_loop]. unfold dim. cbn [shape build]. rewrite E.
  destruct (Nat.eqb_spec (2 * m) 1); [lia|]. rewrite <- E in *.
  fold (build s f). rewrite (pair_step _ _ _ m) by lia. reflexivity.
Qed.

(** an odd axis of five or more entries *)
Lemma pair_step_odd k s (f : list nat -> A) m : nth k s 0 = 2 * m + 1 -> 2 <= m -> k < length s ->
  div_ (add_ (Ok (slice_pos k s_evens (build s f))) (Ok (slice_pos k s_odds (build s f)))) (sc (nofZ 2)) = Exn ValueError.
Proof.
  intros E M L. unfold add_, div_, lift2 at 2. cbn [bind]. unfold bc2 at 1.
  enough (B : bshape (shape (slice_pos k s_evens (build s f))) (shape (slice_pos k s_odds (build s f))) = None) by (rewrite B; reflexivity).
  cbn [slice_pos shape build].
  rewrite (upd_ext_at k (ps_len s_evens) (fun _ => S m) s L).
  2:{ rewrite E, evens_len_gen. replace (2 * m + 1 + 1) with (2 * S m) by lia. symmetry. apply (Nat.div_unique _ 2 _ 0); lia. }
  rewrite (upd_ext_at k (ps_len s_odds) (fun _ => m) s L).
  2:{ rewrite E, odds_len_gen. apply div2_0. }
  clear E f. revert k L. induction s as [|d s IH]; intros k L; cbn in L; [lia|].
  destruct k as [|k]; cbn [upd bshape].
  - rewrite bshape_refl. destruct (Nat.eqb_spec (S m) m); [lia|]. destruct (Nat.eqb_spec (S m) 1); [lia|].
    destruct (Nat.eqb_spec m 1); [lia|]. reflexivity.
  - rewrite IH by lia. reflexivity.
Qed.
End G.
