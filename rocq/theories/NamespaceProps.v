(** Proofs about the arithmetic of Namespaces. *)
From Coq Require Import List Arith ZArith Lia Bool String Reals Lra.
From Verif Require Import Num NdArray NdFacts ModelHW HWFacts LogProps ModelNamespace SpecNamespace.
Import ListNotations.

Section L.
Context {A : Type} {Nm : Num A}.
Implicit Types (d e r : ns A).


Lemma ns_map_keywise (f : string -> arr A -> nd A) (g : string -> list nat -> A) d : good d ->
  (forall k a, ns_get d k = Ok a -> exists u, f k a = Ok u /\ wf u /\ shape u = shape a /\ forall idx, inb (shape a) idx -> get u idx = g k idx) ->
  exists r, ns_map f d = Ok r /\ good r /\ same_layout r d /\
    forall k a u idx, ns_get d k = Ok a -> ns_get r k = Ok u -> inb (shape a) idx -> get u idx = g k idx.
Proof.
  intros [Hnd Hw] H. destruct (ns_map_total f d Hnd) as [r Hr].
  { intros k v Hk. destruct (H k v Hk) as (u & Eu & _). eauto. }
  exists r. split; [exact Hr|]. apply ns_map_ok in Hr as [H1 H2].
  assert (P : forall k u, ns_get r k = Ok u -> exists a, ns_get d k = Ok a /\ f k a = Ok u).
  { intros k u Hk. assert (In k (ns_keys d)) by (rewrite <- H1; eapply ns_get_keys, Hk).
    destruct (ns_get_keys_ex d k H0) as [a Ha]. exists a. split; [exact Ha|].
    destruct (H2 k a Ha) as (u' & Eu & Ec). congruence. }
  split; [|split].
  - split; [now rewrite H1|]. intros k u Hk. destruct (P k u Hk) as (a & Ha & E).
    destruct (H k a Ha) as (u' & Eu & Wu & _). congruence.
  - split; [exact H1|]. intros k a Ha. destruct (H2 k a Ha) as (u & Eu & Ec). exists u. split; [exact Ec|].
    destruct (H k a Ha) as (u' & Eu' & _ & Su & _). congruence.
  - intros k a u idx Ha Hu Hi. destruct (P k u Hu) as (a' & Ha' & E). rewrite Ha in Ha'. injection Ha' as <-.
    destruct (H k a Ha) as (u' & Eu' & _ & _ & G). rewrite E in Eu'. injection Eu' as <-. auto.
Qed.

Lemma lift2_num_l op x (a : arr A) : wf a -> lift2 op (sc x) (Ok a) = Ok (build (shape a) (fun ix => op x (get a ix))).
Proof. intros W. rewrite (wf_eta a W) at 1. apply lift2_scl. Qed.
Lemma lift2_num_r op x (a : arr A) : wf a -> lift2 op (Ok a) (sc x) = Ok (build (shape a) (fun ix => op (get a ix) x)).
Proof. intros W. rewrite (wf_eta a W) at 1. apply lift2_scr. Qed.

Definition flip_op (op : A -> A -> A) x y := op y x.
(** what the methods of Namespace compute from their own value and the other's *)
Definition own_other (o : pyop) : A -> A -> A :=
  match o with OTrueDiv => ndiv | _ => flip_op (num_op o) end.

Lemma forward_ns o d e : good d -> good e -> covers d e ->
  exists r, ns_forward o d (PNs e) = Ok r /\ keywise (own_other o) (PNs d) (PNs e) d r.
Proof.
  intros Gd Ge C.
  assert (G : exists r, ns_forward o d (PNs e) = Ok r /\ good r /\ same_layout r d /\
    forall k a u idx, ns_get d k = Ok a -> ns_get r k = Ok u -> inb (shape a) idx -> 
      get u idx = own_other o (match ns_get d k with Ok a => get a idx | _ => nofZ 0 end) (match ns_get e k with Ok a => get a idx | _ => nofZ 0 end)).
  { destruct o; cbn [ns_forward];
      (apply (ns_map_keywise _ (fun k idx => own_other _ (match ns_get d k with Ok a => get a idx | _ => nofZ 0 end) (match ns_get e k with Ok a => get a idx | _ => nofZ 0 end)) d Gd);
      intros k a Ha; destruct (C k a Ha) as (b & Hb & S); rewrite Ha, Hb; cbn [bind];
      pose proof (proj2 Gd k a Ha) as Wa; pose proof (proj2 Ge k b Hb) as Wb;
      unfold add_, sub_, mul_, div_; rewrite lift2_same by congruence; eexists; split; [reflexivity|];
      split; [apply wf_build|split; [exact S || reflexivity|]]; intros idx Hi; rewrite get_build; [reflexivity|congruence]). }
  destruct G as (r & E & G1 & G2 & G3). exists r. split; [exact E|]. split; [exact G1|split; [exact G2|]].
  intros k a u idx p q Ha Hu Hi (a1 & H1 & ->) (b1 & H2 & ->). rewrite (G3 k a u idx Ha Hu Hi), H1, H2. reflexivity.
Qed.
Lemma forward_num o d x : good d ->
  exists r, ns_forward o d (PNum x) = Ok r /\ keywise (own_other o) (PNs d) (PNum x) d r.
Proof.
  intros Gd.
  assert (G : exists r, ns_forward o d (PNum x) = Ok r /\ good r /\ same_layout r d /\
    forall k a u idx, ns_get d k = Ok a -> ns_get r k = Ok u -> inb (shape a) idx -> 
      get u idx = own_other o (match ns_get d k with Ok a => get a idx | _ => nofZ 0 end) x).
  { destruct o; cbn [ns_forward];
      (apply (ns_map_keywise _ (fun k idx => own_other _ (match ns_get d k with Ok a => get a idx | _ => nofZ 0 end) x) d Gd);
      intros k a Ha; rewrite Ha; pose proof (proj2 Gd k a Ha) as Wa;
      unfold add_, sub_, mul_, div_; rewrite ?lift2_num_l, ?lift2_num_r by assumption; eexists; split; [reflexivity|];
      split; [apply wf_build|split; [reflexivity|]]; intros idx Hi; rewrite get_build; [reflexivity|assumption]). }
  destruct G as (r & E & G1 & G2 & G3). exists r. split; [exact E|]. split; [exact G1|split; [exact G2|]].
  intros k a u idx p q Ha Hu Hi (a1 & H1 & ->) ->. rewrite (G3 k a u idx Ha Hu Hi), H1. reflexivity.
Qed.
End L.

Section Top.
Context {A : Type} {Nm : Num A}.
Implicit Types (d e r : ns A).

(** bit-exact: own value and the other's, in the order of the source *)
Lemma c105_order o d y (Hf : fits (PNs d) y d) :
  exists r, py_bin o (PNs d) y = Ok (PNs r) /\
    keywise (match o with OTrueDiv => ndiv | _ => fun own other => num_op o other own end) (PNs d) y d r.
Proof.
  assert (G : exists r, ns_forward o d y = Ok r /\ keywise (own_other o) (PNs d) y d r).
  { destruct y as [x|e]; cbn in Hf; [apply forward_num|apply forward_ns]; tauto. }
  destruct G as (r & E & K). exists r. cbn [py_bin]. rewrite E. split; [reflexivity|]. destruct o; exact K.
Qed.
Lemma c105_order_l o x d : good d -> o = OAdd \/ o = OMul ->
  exists r, py_bin o (PNum x) (PNs d) = Ok (PNs r) /\ keywise (num_op o) (PNum x) (PNs d) d r.
Proof.
  intros G Ho. destruct (forward_num o d x G) as (r & E & K1 & K2 & K3). exists r. split.
  - destruct Ho as [-> | ->]; cbn [py_bin ns_reflected]; rewrite E; reflexivity.
  - split; [exact K1|split; [exact K2|]]. intros k a u idx p q Ha Hu Hi Hp Hq. rewrite (K3 k a u idx q p Ha Hu Hi Hq Hp).
    destruct Ho as [-> | ->]; reflexivity.
Qed.
Lemma c105_reflected o x d : o = OSub \/ o = OTrueDiv -> py_bin o (PNum x) (PNs d) = Exn TypeError.
Proof. intros [-> | ->]; reflexivity. Qed.

Lemma ns_eq d e : NoDup (ns_keys d) -> ns_keys d = ns_keys e -> (forall k a, ns_get d k = Ok a -> ns_get e k = Ok a) -> d = e.
Proof.
  revert e. induction d as [|[k a] d IH]; intros [|[k' a'] e] Hn Hk H; try discriminate; [reflexivity|].
  cbn in Hk, Hn. injection Hk as <- Hk. inversion Hn; subst.
  pose proof (H k a) as H0. cbn in H0. rewrite String.eqb_refl in H0. specialize (H0 eq_refl). injection H0 as ->.
  f_equal. apply IH; auto. intros k1 a1 Hg. specialize (H k1 a1). cbn in H.
  destruct (String.eqb_spec k1 k) as [->|]; [|auto]. exfalso. apply H2. eapply ns_get_keys, Hg.
Qed.
Lemma arr_eq (a b : arr A) : wf a -> wf b -> shape b = shape a -> (forall idx, inb (shape a) idx -> get b idx = get a idx) -> b = a.
Proof.
  intros Ha Hb S H. rewrite (wf_eta a Ha), (wf_eta b Hb), S. apply build_ext. exact H.
Qed.
Lemma good_eq d r : good d -> good r -> same_layout r d ->
  (forall k a u idx, ns_get d k = Ok a -> ns_get r k = Ok u -> inb (shape a) idx -> get u idx = get a idx) -> r = d.
Proof.
  intros [G1 G2] [R1 R2] [L1 L2] H. symmetry. apply ns_eq; [exact G1|now symmetry|].
  intros k a Ha. destruct (L2 k a Ha) as (u & Hu & S). rewrite Hu. f_equal.
  apply arr_eq; eauto.
Qed.

Lemma c105_key o d e : good d -> good e ->
  (forall k a b, ns_get d k = Ok a -> ns_get e k = Ok b -> shape b = shape a) ->
  ((exists r, py_bin o (PNs d) (PNs e) = Ok (PNs r)) <-> forall k, In k (ns_keys d) -> In k (ns_keys e)) /\
  (py_bin o (PNs d) (PNs e) = Exn KeyError <-> exists k, In k (ns_keys d) /\ ~ In k (ns_keys e)).
Proof.
  intros Gd Ge S.
  assert (T : (forall k, In k (ns_keys d) -> In k (ns_keys e)) -> exists r, py_bin o (PNs d) (PNs e) = Ok (PNs r)).
  { intros H. destruct (c105_order o d (PNs e)) as (r & E & _); [|eauto]. cbn. repeat split; try apply Gd; try apply Ge.
    intros k a Ha. destruct (ns_get_keys_ex e k (H k (ns_get_keys _ _ _ Ha))) as [b Hb]. eauto. }
  assert (X : forall k, In k (ns_keys d) -> ~ In k (ns_keys e) -> py_bin o (PNs d) (PNs e) = Exn KeyError).
  { intros k Hi Hn. assert (Eb : ns_get e k = Exn KeyError).
    { destruct (ns_get e k) as [w|x] eqn:E; [exfalso; apply Hn; eapply ns_get_keys, E|]. apply ns_get_err in E as [-> _]. reflexivity. }
    cbn [py_bin].
    assert (G : ns_forward o d (PNs e) = Exn KeyError); [|now rewrite G].
    destruct o; cbn [ns_forward]; apply ns_map_key_error with k; try exact Hi; try apply Gd;
      (intros v; now rewrite Eb) ||
      (intros k' v Hk'; destruct (ns_get e k') as [w|x] eqn:E; cbn [bind];
       [left; pose proof (S k' v w Hk' E) as Q; pose proof (proj2 Gd _ _ Hk'); pose proof (proj2 Ge _ _ E);
        unfold add_, sub_, mul_, div_; rewrite lift2_same by congruence; eauto
       |right; apply ns_get_err in E as [-> _]; reflexivity]). }
  split; split.
  - intros [r Hr] k Hi. destruct (in_dec string_dec k (ns_keys e)) as [|Hn]; [assumption|]. rewrite (X k Hi Hn) in Hr. discriminate.
  - exact T.
  - intros E. destruct (Forall_Exists_dec (fun k => In k (ns_keys e)) (fun k => in_dec string_dec k (ns_keys e)) (ns_keys d)) as [F|Y].
    + rewrite Forall_forall in F. destruct (T F) as [c Hc]. rewrite Hc in E. discriminate.
    + apply Exists_exists in Y. exact Y.
  - intros (k & Hi & Hn). eapply X; eauto.
Qed.
End Top.

Section Real.
Implicit Types (d e r : ns R).
Local Open Scope R_scope.

Lemma keywise_ext (op op' : R -> R -> R) x y d r : (forall p q, op p q = op' p q) -> keywise op x y d r -> keywise op' x y d r.
Proof. intros H (K1 & K2 & K3). split; [exact K1|split; [exact K2|]]. intros. rewrite <- H. eauto. Qed.
Lemma c105_add x y d : fits x y d -> exists r, py_bin OAdd x y = Ok (PNs r) /\ keywise Rplus x y d r.
Proof.
  intros F. destruct x as [x|d1].
  - destruct y as [y|d2]; [destruct F|]. destruct F as [-> G].
    destruct (c105_order_l OAdd x d2 G (or_introl eq_refl)) as (r & E & K). exists r. split; [exact E|exact K].
  - assert (d = d1) as -> by (destruct y; apply F). destruct (c105_order OAdd d1 y F) as (r & E & K).
    exists r. split; [exact E|]. revert K. apply keywise_ext. intros p q. cbn. ring.
Qed.
Lemma c105_mul x y d : fits x y d -> exists r, py_bin OMul x y = Ok (PNs r) /\ keywise Rmult x y d r.
Proof.
  intros F. destruct x as [x|d1].
  - destruct y as [y|d2]; [destruct F|]. destruct F as [-> G].
    destruct (c105_order_l OMul x d2 G (or_intror eq_refl)) as (r & E & K). exists r. split; [exact E|exact K].
  - assert (d = d1) as -> by (destruct y; apply F). destruct (c105_order OMul d1 y F) as (r & E & K).
    exists r. split; [exact E|]. revert K. apply keywise_ext. intros p q. cbn. ring.
Qed.
Lemma c105_div d y : fits (PNs d) y d -> exists r, py_bin OTrueDiv (PNs d) y = Ok (PNs r) /\ keywise Rdiv (PNs d) y d r.
Proof. intros F. exact (c105_order OTrueDiv d y F). Qed.
Lemma c105_sub d y : fits (PNs d) y d -> exists r, py_bin OSub (PNs d) y = Ok (PNs r) /\ keywise (fun p q => q - p) (PNs d) y d r.
Proof. intros F. exact (c105_order OSub d y F). Qed.

Lemma fits_out d y r : fits (PNs d) y d -> good r -> same_layout r d -> fits (PNs r) y r.
Proof.
  intros F G [L1 L2]. destruct y as [y|e]; cbn in *; [tauto|]. destruct F as (_ & Gd & Ge & C). repeat split; try apply G; try apply Ge.
  intros k u Hu. assert (I : In k (ns_keys d)) by (rewrite <- L1; eapply ns_get_keys, Hu).
  destruct (ns_get_keys_ex d k I) as [a Ha]. destruct (C k a Ha) as (b & Hb & S). exists b. split; [exact Hb|].
  destruct (L2 k a Ha) as (u' & Hu' & S'). congruence.
Qed.
Lemma holds_ex (y : pyval R) d k a idx : fits (PNs d) y d -> ns_get d k = Ok a -> exists q, holds y k idx q.
Proof.
  intros F Ha. destruct y as [y|e]; cbn; [eauto|]. destruct F as (_ & _ & _ & C). destruct (C k a Ha) as (b & Hb & _). eauto.
Qed.
Lemma c105_mul_div d y : fits (PNs d) y d ->
  (forall k a idx q, ns_get d k = Ok a -> inb (shape a) idx -> holds y k idx q -> q <> 0) ->
  (let* p := py_bin OMul (PNs d) y in py_bin OTrueDiv p y) = Ok (PNs d).
Proof.
  intros F Z. destruct (c105_mul _ _ _ F) as (r & E & K1 & K2 & K3). rewrite E. cbn [bind].
  destruct (c105_div r y (fits_out d y r F K1 K2)) as (s & E' & S1 & S2 & S3). rewrite E'. do 2 f_equal.
  apply good_eq; [destruct y; apply F|exact S1| |].
  - destruct K2 as [K2 K2'], S2 as [S2 S2']. split; [congruence|]. intros k a Ha. destruct (K2' k a Ha) as (u & Hu & Q).
    destruct (S2' k u Hu) as (v & Hv & Q'). exists v. split; [exact Hv|congruence].
  - intros k a v idx Ha Hv Hi. destruct K2 as [_ K2']. destruct (K2' k a Ha) as (u & Hu & Q).
    destruct (holds_ex y d k a idx F Ha) as [q Hq].
    assert (Hu2 : get u idx = get a idx * q) by (apply (K3 k a u idx); auto; exists a; auto).
    rewrite (S3 k u v idx (get u idx) q Hu Hv); [|congruence|exists u; auto|exact Hq].
    rewrite Hu2. field. eapply Z; eauto.
Qed.
(** subtracting twice *)
Lemma c105_sub_sub d y : fits (PNs d) y d ->
  (let* p := py_bin OSub (PNs d) y in py_bin OSub p y) = Ok (PNs d).
Proof.
  intros F. destruct (c105_sub _ _ F) as (r & E & K1 & K2 & K3). rewrite E. cbn [bind].
  destruct (c105_sub r y (fits_out d y r F K1 K2)) as (s & E' & S1 & S2 & S3). rewrite E'. do 2 f_equal.
  apply good_eq; [destruct y; apply F|exact S1| |].
  - destruct K2 as [K2 K2'], S2 as [S2 S2']. split; [congruence|]. intros k a Ha. destruct (K2' k a Ha) as (u & Hu & Q).
    destruct (S2' k u Hu) as (v & Hv & Q'). exists v. split; [exact Hv|congruence].
  - intros k a v idx Ha Hv Hi. destruct K2 as [_ K2']. destruct (K2' k a Ha) as (u & Hu & Q).
    destruct (holds_ex y d k a idx F Ha) as [q Hq].
    assert (Hu2 : get u idx = q - get a idx) by (apply (K3 k a u idx (get a idx) q); auto; exists a; auto).
    rewrite (S3 k u v idx (get u idx) q Hu Hv); [|congruence|exists u; auto|exact Hq].
    rewrite Hu2. ring.
Qed.
End Real.
