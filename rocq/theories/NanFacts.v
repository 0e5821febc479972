(** binary64: lost fields stay lost, and their sum is NaN. *)
From Coq Require Import Arith ZArith Bool String List Lia Permutation Floats.SpecFloat.
From Verif Require Import Num NdArray NdFacts ModelHW LogProps SpecDiverge.
Import ListNotations.
#[local] Existing Instance NumF64.

Lemma add_nan_l y : SFadd 53 1024 S754_nan y = S754_nan.
Proof. destruct y; reflexivity. Qed.
Lemma add_nan_r x : SFadd 53 1024 x S754_nan = S754_nan.
Proof. destruct x; reflexivity. Qed.
Lemma add_inf_l b y : SFadd 53 1024 (S754_infinity b) y = S754_infinity b \/ SFadd 53 1024 (S754_infinity b) y = S754_nan.
Proof. destruct y as [z|z| |z m e], b; try destruct z; cbn; auto. Qed.
Lemma add_inf_r b x : SFadd 53 1024 x (S754_infinity b) = S754_infinity b \/ SFadd 53 1024 x (S754_infinity b) = S754_nan.
Proof. destruct x as [z|z| |z m e], b; try destruct z; cbn; auto. Qed.

Lemma sums_nan l x : sums l x -> In S754_nan l -> x = S754_nan.
Proof.
  induction 1 as [x|a b x y _ IH1 _ IH2|a b x P _ IH]; intros H.
  - destruct H as [H|[]]. exact H.
  - apply in_app_iff in H. destruct H as [H|H]; [rewrite IH1 by exact H; apply add_nan_l|rewrite IH2 by exact H; apply add_nan_r].
  - apply IH. eapply Permutation_in; [apply Permutation_sym; exact P|exact H].
Qed.
Lemma sums_inf b0 l x : sums l x -> In (S754_infinity b0) l -> x = S754_infinity b0 \/ x = S754_nan.
Proof.
  induction 1 as [x|a b x y _ IH1 _ IH2|a b x P _ IH]; intros H.
  - destruct H as [H|[]]. left. exact H.
  - apply in_app_iff in H. destruct H as [H|H].
    + destruct (IH1 H) as [->| ->]; [apply add_inf_l|right; apply add_nan_l].
    + destruct (IH2 H) as [->| ->]; [apply add_inf_r|right; apply add_nan_r].
  - apply IH. eapply Permutation_in; [apply Permutation_sym; exact P|exact H].
Qed.
Lemma sums_lost a x : lost a -> sums (data a) x -> x = S754_nan.
Proof.
  intros [H|[H1 H2]] S; [now apply (sums_nan _ _ S)|].
  destruct (sums_inf _ _ _ S H1) as [E1|E1]; [|exact E1]. destruct (sums_inf _ _ _ S H2) as [E2|E2]; [|exact E2]. congruence.
Qed.

(** ** adding anything to a field *)
Lemma add_cells (o v w : arr f64) : bc2 nadd o v = Ok w -> shape w = shape v -> wf w /\
  forall ix, inb (shape v) ix -> exists x, get w ix = SFadd 53 1024 x (get v ix).
Proof.
  unfold bc2. destruct (bshape (shape o) (shape v)) as [u|]; [|discriminate]. intros E Hs. injection E as <-. cbn [build shape] in Hs. subst u.
  split; [apply wf_build|]. intros ix H. rewrite get_build by exact H. rewrite (bidx_self (shape v)) by exact H. eexists. reflexivity.
Qed.
Lemma cell_in (a : arr f64) x : wf a -> In x (data a) <-> exists ix, inb (shape a) ix /\ get a ix = x.
Proof.
  intros W. rewrite (wf_eta a W) at 1. cbn [build data]. rewrite in_map_iff. split.
  - intros [ix [E H]]. exists ix. split; [now apply in_indices|exact E].
  - intros [ix [H E]]. exists ix. split; [exact E|now apply in_indices].
Qed.
Lemma lost_nan a ix : wf a -> inb (shape a) ix -> get a ix = S754_nan -> lost a.
Proof. intros W H E. left. apply cell_in; [exact W|]. eauto. Qed.
Lemma add_lost (o v w : arr f64) : wf v -> bc2 nadd o v = Ok w -> shape w = shape v -> lost v -> lost w.
Proof.
  intros Wv E Hs L. destruct (add_cells o v w E Hs) as [Ww C].
  assert (N : In S754_nan (data v) -> In S754_nan (data w)).
  { intros H. apply cell_in in H; [|exact Wv]. destruct H as [ix [Hi G]]. destruct (C ix Hi) as [x Gx]. apply cell_in; [exact Ww|].
    exists ix. rewrite Hs. split; [exact Hi|]. rewrite Gx, G. apply add_nan_r. }
  assert (F : forall b, In (S754_infinity b) (data v) -> In (S754_infinity b) (data w) \/ In S754_nan (data w)).
  { intros b H. apply cell_in in H; [|exact Wv]. destruct H as [ix [Hi G]]. destruct (C ix Hi) as [x Gx]. rewrite G in Gx.
    destruct (add_inf_r b x) as [A|A]; [left|right]; apply cell_in; try exact Ww; exists ix; rewrite Hs; (split; [exact Hi|]); now rewrite Gx. }
  destruct L as [H|[H1 H2]]; [left; auto|]. destruct (F _ H1) as [A|A]; [|now left]. destruct (F _ H2) as [B|B]; [|now left]. right. auto.
Qed.

(** ** Namespaces *)
Lemma ns_map_get (f : string -> arr f64 -> nd f64) : forall d r k v, ns_map f d = Ok r -> ns_get d k = Ok v ->
  exists w, f k v = Ok w /\ ns_get r k = Ok w.
Proof.
  induction d as [|[k' v'] d IH]; intros r k v H G; cbn [ns_get] in G; [discriminate|]. cbn [ns_map] in H.
  destruct (f k' v') as [w|] eqn:E; [|discriminate]. cbn [bind] in H. destruct (ns_map f d) as [d2|] eqn:E2; [|discriminate].
  cbn [bind] in H. injection H as <-. cbn [ns_get]. destruct (String.eqb_spec k k') as [->|N].
  - injection G as <-. eauto.
  - now apply IH.
Qed.
Lemma ns_get_set (d : ns f64) k k' v : k <> k' -> ns_get (ns_set d k v) k' = ns_get d k'.
Proof.
  intros N. induction d as [|[a w] d IH]; cbn [ns_set ns_get].
  - destruct (String.eqb_spec k' k); [congruence|reflexivity].
  - destruct (String.eqb_spec k a) as [->|Na]; cbn [ns_get].
    + destruct (String.eqb_spec k' a); [congruence|reflexivity].
    + destruct (String.eqb_spec k' a); [reflexivity|exact IH].
Qed.
Lemma ns_get_without (d : ns f64) k k' : k <> k' -> ns_get (ns_without k d) k' = ns_get d k'.
Proof.
  intros N. induction d as [|[a w] d IH]; [reflexivity|]. unfold ns_without in *. cbn [filter fst].
  destruct (String.eqb_spec a k) as [->|Na]; cbn [negb ns_get].
  - destruct (String.eqb_spec k' k); [congruence|exact IH].
  - destruct (String.eqb_spec k' a); [reflexivity|exact IH].
Qed.
Lemma ns_add_get (d e r : ns f64) k v : ns_add d e = Ok r -> ns_get d k = Ok v ->
  exists o w, bc2 nadd o v = Ok w /\ ns_get r k = Ok w.
Proof.
  intros H G. destruct (ns_map_get _ _ _ _ _ H G) as [w [E1 E2]]. destruct (ns_get e k) as [o|]; [|discriminate].
  exists o, w. split; [exact E1|exact E2].
Qed.

(** the last operations of a step *)
Ltac peel H := let l1 := fresh "l" in let x := fresh "x" in let l2 := fresh "l" in let H1 := fresh "H" in let E := fresh "E" in
  apply mbind_inv in H; destruct H as (l1 & x & l2 & H1 & H & E).
Lemma euler_adds (h : hw f64) pl dt dx lg y k v : euler_step h pl dt dx = (lg, Ok y) -> k <> "phi"%string -> k <> "age"%string ->
  ns_get pl k = Ok v -> exists o w, bc2 nadd o v = Ok w /\ ns_get y k = Ok w.
Proof.
  unfold euler_step. cbv zeta. intros H N1 N2 G. do 2 peel H. peel H. apply mlift_inv in H2. destruct H2 as [H2 _].
  destruct (ns_add_get _ _ _ k v H2) as (o & w & A & B). { rewrite ns_get_without by congruence. exact G. }
  exists o, w. split; [exact A|]. do 5 peel H. apply mret_inv in H. destruct H as [-> _]. now rewrite !ns_get_set by congruence.
Qed.
Lemma rk4_adds (h : hw f64) pl dt dx lg y k v : rk4_step h pl dt dx = (lg, Ok y) -> k <> "phi"%string -> k <> "age"%string ->
  ns_get pl k = Ok v -> exists o w, bc2 nadd o v = Ok w /\ ns_get y k = Ok w.
Proof.
  unfold rk4_step. cbv zeta. intros H N1 N2 G. do 22 peel H. clear -H N1 N2 G. peel H.
  apply mlift_inv in H0. destruct H0 as [H0 _].
  destruct (ns_add_get _ _ _ k v H0) as (o & w & A & B). { rewrite ns_get_without by congruence. exact G. }
  exists o, w. split; [exact A|]. do 5 peel H. apply mret_inv in H. destruct H as [-> _]. now rewrite !ns_get_set by congruence.
Qed.

(** ** Steps *)
Definition field (k : string) : Prop := k = "density"%string \/ k = "omega"%string.
Lemma euler_lost (h : hw f64) pl dt dx lg y k v w : euler_step h pl dt dx = (lg, Ok y) -> field k ->
  ns_get pl k = Ok v -> ns_get y k = Ok w -> wf v -> shape w = shape v -> lost v -> lost w.
Proof.
  intros H F G Gy W Sh L. destruct (euler_adds h pl dt dx lg y k v H) as (o & w' & A & B); try exact G;
    try (destruct F as [->| ->]; discriminate).
  rewrite Gy in B. injection B as <-. now apply (add_lost o v w).
Qed.
Lemma rk4_lost (h : hw f64) pl dt dx lg y k v w : rk4_step h pl dt dx = (lg, Ok y) -> field k ->
  ns_get pl k = Ok v -> ns_get y k = Ok w -> wf v -> shape w = shape v -> lost v -> lost w.
Proof.
  intros H F G Gy W Sh L. destruct (rk4_adds h pl dt dx lg y k v H) as (o & w' & A & B); try exact G;
    try (destruct F as [->| ->]; discriminate).
  rewrite Gy in B. injection B as <-. now apply (add_lost o v w).
Qed.
Lemma all_lost (h : hw f64) (Y : nat -> ns f64) (v : nat -> arr f64) dt dx k sh n : field k ->
  (forall j, j < n -> exists lg, rk4_step h (Y j) dt dx = (lg, Ok (Y (S j)))) ->
  (forall j, j <= n -> ns_get (Y j) k = Ok (v j) /\ wf (v j) /\ shape (v j) = sh) ->
  forall d, lost (v d) -> forall j, d <= j <= n -> lost (v j).
Proof.
  intros F St Fd d L j. induction j as [|j IH]; intros Hj; [replace 0 with d by lia; exact L|].
  destruct (Nat.eq_dec d (S j)) as [<-|N]; [exact L|].
  destruct (St j ltac:(lia)) as [lg R]. destruct (Fd j ltac:(lia)) as [G1 [W1 S1]]. destruct (Fd (S j) ltac:(lia)) as [G2 [W2 S2]].
  eapply rk4_lost; try eassumption; [congruence|]. apply IH. lia.
Qed.
