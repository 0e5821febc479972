(** Programs in memory against programs on values. *)
From Coq Require Import List Arith ZArith Bool String Lia.
From Verif Require Import Num NdArray ModelGradients ModelArakawa ModelProperties ModelHW ModelHeap SpecHeap.
Import ListNotations.
Local Open Scope nd_scope.
Local Notation len := (@List.length _).

Section Facts.
Context {A : Type} {Nm : Num A}.
Implicit Types (h : heap A).

Definition ext (h h' : heap A) : Prop := forall r v, holds h r v -> holds h' r v.
Definition extbut (o : ref) (h h' : heap A) : Prop := forall r v, r <> o -> holds h r v -> holds h' r v.

Lemma holds_lt h r v : holds h r v -> r < len h.
Proof. intros E. apply nth_error_Some. unfold holds in E. congruence. Qed.
Lemma kept_refl k h : kept k h h.
Proof. split; [lia|reflexivity]. Qed.
Lemma kept_trans k h h1 h2 : kept k h h1 -> kept k h1 h2 -> kept k h h2.
Proof. intros [L E] [L2 E2]. split; [lia|]. intros r Hr. now rewrite E2, E. Qed.
Lemma kept_ext h h' : kept (len h) h h' -> ext h h'.
Proof. intros [_ E] r v Hr. unfold holds. rewrite E; [exact Hr|]. eapply holds_lt, Hr. Qed.
Lemma kept_le k k' h h' : k <= k' -> kept k' h h' -> kept k h h'.
Proof. intros L [B E]. split; [exact B|]. intros r Hr. apply E. lia. Qed.
Lemma ext_trans h h1 h2 : ext h h1 -> ext h1 h2 -> ext h h2.
Proof. intros E F r v Hr. now apply F, E. Qed.
Lemma ext_refl h : ext h h.
Proof. now intros r v. Qed.

Lemma ref_ret {X Y} k h (x : X) (y : Y) (Q : heap A -> X -> Y -> Prop) : Q h x y -> refines k h (hret x) (mret y) Q.
Proof. intros E. cbn. split; [reflexivity|]. split; [apply kept_refl|exact E]. Qed.
Lemma ref_lift {X Y} k h (x : res X) (y : res Y) (Q : heap A -> X -> Y -> Prop) :
  match x, y with Ok a, Ok b => Q h a b | Exn a, Exn b => a = b | _, _ => False end -> refines k h (hlift x) (mlift y) Q.
Proof. intros E. cbn. split; [reflexivity|]. split; [apply kept_refl|exact E]. Qed.
Lemma ref_log k h s (Q : heap A -> unit -> unit -> Prop) : Q h tt tt -> refines k h (hlog s) (mlog s) Q.
Proof. intros E. cbn. split; [reflexivity|]. split; [apply kept_refl|exact E]. Qed.
Lemma ref_bind {X Y X' Y'} k h (m : H A X) (f : X -> H A X') (p : M Y) (g : Y -> M Y') Q Q' :
  refines k h m p Q -> (forall h' x y, kept k h h' -> Q h' x y -> refines k h' (f x) (g y) Q') -> refines k h (hbind m f) (mbind p g) Q'.
Proof.
  unfold refines, hbind, mbind. destruct (m h) as [l [h' [x|e]]]; destruct p as [l2 [y|e2]]; cbn [fst snd]; intros (E & K & R) F; try easy.
  - specialize (F h' x y K R). destruct (f x h') as [l3 [h3 r3]]. destruct (g y) as [l4 r4]. cbn [fst snd] in *. destruct F as (-> & K2 & R2).
    subst l. split; [reflexivity|]. split; [now apply kept_trans with h'|exact R2].
Qed.
Lemma ref_imp {X Y} k h (m : H A X) (p : M Y) (Q Q' : heap A -> X -> Y -> Prop) :
  refines k h m p Q -> (forall h' x y, kept k h h' -> Q h' x y -> Q' h' x y) -> refines k h m p Q'.
Proof.
  unfold refines. destruct (m h) as [l [h' [x|e]]]; destruct p as [l2 [y|e2]]; cbn [fst snd]; intros (E & K & R) F; (split; [exact E|split; [exact K|auto]]).
Qed.
(** a function that leaves everything alone, called *)
Lemma ref_call {X Y} k h (m : H A X) (p : M Y) Q : k <= len h -> refines (len h) h m p Q ->
  refines k h m p (fun h' x y => Q h' x y /\ ext h h' /\ len h <= len h').
Proof.
  unfold refines. destruct (m h) as [l [h' [x|e]]]; destruct p as [l2 [y|e2]]; cbn [fst snd]; intros L (E & K & R); try easy.
  - split; [exact E|]. split; [now apply kept_le with (len h)|]. split; [exact R|]. split; [now apply kept_ext|apply K].
  - split; [exact E|]. split; [now apply kept_le with (len h)|exact R].
Qed.
Lemma ref_eq {X Y} k h (m : H A X) (p q : M Y) Q : p = q -> refines k h m q Q -> refines k h m p Q.
Proof. now intros ->. Qed.
Lemma mlift_bind {X Y} (x : res X) (f : X -> res Y) : mlift (bind x f) = mbind (mlift x) (fun a => mlift (f a)).
Proof. now destruct x. Qed.

Lemma holds_app h a r v : holds h r v -> holds (h ++ a) r v.
Proof. intros E. unfold holds in *. rewrite nth_error_app1; [exact E|]. eapply holds_lt, E. Qed.
Lemma holds_new h a : holds (h ++ [a]) (len h) a.
Proof. unfold holds. rewrite nth_error_app2 by lia. now rewrite Nat.sub_diag. Qed.
Lemma ref_new h (x : nd A) k : k <= len h ->
  refines k h (new x) (mlift x) (fun h' r v => holds h' r v /\ ext h h' /\ r = len h /\ len h <= len h').
Proof.
  intros L. unfold refines, new. destruct x as [a|e]; cbn.
  - split; [reflexivity|]. split.
    + split; [rewrite app_length; cbn; lia|]. intros r Hr. apply nth_error_app1. lia.
    + split; [apply holds_new|]. split; [intros r v E; now apply holds_app|]. split; [reflexivity|rewrite app_length; lia].
  - split; [reflexivity|]. split; [apply kept_refl|reflexivity].
Qed.
Definition made h (h' : heap A) (r : ref) (v : arr A) : Prop := holds h' r v /\ ext h h' /\ len h <= r /\ len h <= len h'.
Lemma rd_ok {X} h r a (f : arr A -> H A X) : holds h r a -> hbind (rd r) f h = f a h.
Proof. unfold holds, hbind, rd. intros ->. now destruct (f a h). Qed.
Lemma ref_rd {X Y} k h r a (f : arr A -> H A X) (p : M Y) Q : holds h r a -> refines k h (f a) p Q -> refines k h (hbind (rd r) f) p Q.
Proof. intros E. unfold refines. now rewrite (rd_ok _ _ _ _ E). Qed.
Lemma ref_op1 k h f r a : k <= len h -> holds h r a -> refines k h (op1 f r) (mlift (f (Ok a))) (made h).
Proof.
  intros L E. apply (ref_rd _ _ _ a); [exact E|]. eapply ref_imp; [apply ref_new, L|]. cbn. intros h' x y _ (F & G & -> & J). now repeat split.
Qed.
Lemma ref_op2 k h f r s a b : k <= len h -> holds h r a -> holds h s b -> refines k h (op2 f r s) (mlift (f (Ok a) (Ok b))) (made h).
Proof.
  intros L E F. apply (ref_rd _ _ _ a); [exact E|]. apply (ref_rd _ _ _ b); [exact F|]. eapply ref_imp; [apply ref_new, L|]. cbn. intros h' x y _ (? & G & -> & J). now repeat split.
Qed.
Lemma upd_len h r a : len (upd h r a) = len h.
Proof. revert r. induction h as [|b h IH]; intros [|r]; cbn; try reflexivity. now rewrite IH. Qed.
Lemma upd_other h r a s : s <> r -> nth_error (upd h r a) s = nth_error h s.
Proof. revert r s. induction h as [|b h IH]; intros [|r] [|s] Hs; cbn; try reflexivity; [easy|]. apply IH. lia. Qed.
Lemma upd_same h r a : r < len h -> nth_error (upd h r a) r = Some a.
Proof. revert r. induction h as [|b h IH]; intros [|r] Hr; cbn in *; try lia; [reflexivity|]. apply IH. lia. Qed.
Lemma ref_inplace k h f r s a b : k <= r -> holds h r a -> holds h s b ->
  refines k h (inplace f r s) (mlift (f (Ok a) (Ok b))) (fun h' x y => x = r /\ holds h' r y /\ extbut r h h' /\ len h <= len h').
Proof.
  intros L E F. apply (ref_rd _ _ _ a); [exact E|]. apply (ref_rd _ _ _ b); [exact F|]. unfold refines. destruct (f (Ok a) (Ok b)) as [c|e]; cbn.
  - split; [reflexivity|]. split.
    + split; [now rewrite upd_len|]. intros t Ht. apply upd_other. lia.
    + split; [reflexivity|]. split; [apply upd_same; eapply holds_lt, E|]. split; [|now rewrite upd_len].
      intros t v Ht Hv. unfold holds. now rewrite upd_other.
  - split; [reflexivity|]. split; [apply kept_refl|reflexivity].
Qed.

(** ** Namespaces *)
Lemma nsrel_ext h h' d v : ext h h' -> nsrel h d v -> nsrel h' d v.
Proof. intros E F. induction F as [|x y d v [G1 G2] F IH]; constructor; [|exact IH]. split; [exact G1|now apply E]. Qed.
Lemma rget_rel h d v k : nsrel h d v -> match rget d k, ns_get v k with Ok r, Ok a => holds h r a /\ In r (map snd d) | Exn a, Exn b => a = b | _, _ => False end.
Proof.
  intros F. induction F as [|[k1 r] [k2 a] d v [G1 G2] F IH]; cbn in *; [reflexivity|]. subst k2. destruct (String.eqb k k1); [split; [exact G2|now left]|].
  destruct (rget d k), (ns_get v k); try easy. destruct IH. split; [assumption|now right].
Qed.
Lemma rhas_rel h d v k : nsrel h d v -> rhas d k = ns_has v k.
Proof. intros F. pose proof (rget_rel h d v k F) as G. unfold rhas, ns_has. destruct (rget d k), (ns_get v k); easy. Qed.
Lemma rset_rel h d v k r a : nsrel h d v -> holds h r a -> nsrel h (rset d k r) (ns_set v k a).
Proof.
  intros F E. induction F as [|[k1 s] [k2 c] d v [G1 G2] F IH]; cbn in *; [repeat constructor; exact E|]. subst k2.
  destruct (String.eqb k k1); constructor; try easy.
Qed.
Lemma rwithout_rel h d v k : nsrel h d v -> nsrel h (rwithout k d) (ns_without k v).
Proof.
  intros F. induction F as [|[k1 s] [k2 c] d v [G1 G2] F IH]; cbn in *; [constructor|]. subst k2. destruct (String.eqb k1 k); cbn; [exact IH|constructor; easy].
Qed.
Lemma rset_in k r d x : In x (map snd (rset d k r)) -> x = r \/ In x (map snd d).
Proof.
  induction d as [|[k1 s] d IH]; cbn; [intros [->|[]]; now left|]. destruct (String.eqb k k1); cbn; intros [->|E]; auto. destruct (IH E); auto.
Qed.
Lemma rset_fresh h k r d : len h <= r -> ~ In r (map snd d) -> fresh h (map snd d) -> fresh h (map snd (rset d k r)).
Proof.
  intros L Hn [F D]. split.
  - apply Forall_forall. intros x Hx. apply rset_in in Hx. destruct Hx as [->|Hx]; [exact L|]. rewrite Forall_forall in F. now apply F.
  - clear F. induction d as [|[k1 s] d IH]; cbn in *; [repeat constructor; easy|]. inversion D as [|? ? D1 D2]; subst. destruct (String.eqb k k1); cbn; constructor; auto.
    intros E. apply rset_in in E. destruct E as [->|E]; [tauto|easy].
Qed.
Lemma rel_lt h d v x : nsrel h d v -> In x (map snd d) -> x < len h.
Proof. intros F. induction F as [|[k1 r] [k2 a] d v [G1 G2] F IH]; cbn in *; [easy|]. intros [->|E]; [eapply holds_lt, G2|auto]. Qed.
Lemma ref_rmap f g d v h : nsrel h d v ->
  (forall h' k r a, ext h h' -> holds h' r a -> refines (len h') h' (f k r) (mlift (g k a)) (made h')) ->
  refines (len h) h (rmap f d) (mlift (ns_map g v)) (fun h' x y => nsrel h' x y /\ fresh h (map snd x)).
Proof.
  intros F. revert v h F. induction d as [|[k r] d IH]; intros v h F Hf; inversion F as [|[k1 r1] [k2 a] d1 v1 [G1 G2] F1]; subst; cbn [rmap ns_map].
  - apply ref_ret. split; [constructor|split; constructor].
  - cbn in G1, G2. subst k2. rewrite mlift_bind. eapply ref_bind; [apply Hf; [apply ext_refl|exact G2]|].
    intros h1 w b _ (W & E1 & L1 & L2). cbn beta. rewrite mlift_bind. eapply ref_bind.
    + apply ref_call; [exact L2|]. apply IH; [now apply nsrel_ext with h|]. intros h2 k' r' a' E2. apply Hf. now apply ext_trans with h1.
    + intros h2 x y _ ((R & F2 & D2) & E2 & L3). cbn beta. apply ref_ret. split.
      * constructor; [split; [reflexivity|now apply E2]|exact R].
      * split; cbn; constructor; auto.
        { rewrite Forall_forall in F2 |- *. intros z Hz. specialize (F2 z Hz). lia. }
        { intros Hi. rewrite Forall_forall in F2. specialize (F2 w Hi). apply holds_lt in W. lia. }
Qed.
Definition madens h (h' : heap A) (x : rns) (y : ns A) : Prop := nsrel h' x y /\ fresh h (map snd x) /\ ext h h' /\ len h <= len h'.
Lemma ref_radd k h d v d2 v2 : k <= len h -> nsrel h d v -> nsrel h d2 v2 -> refines k h (radd d d2) (madd v v2) (madens h).
Proof.
  intros L F F2. unfold madd, ns_add, radd. eapply ref_imp; [apply ref_call; [exact L|]; apply ref_rmap; [exact F|]|].
  - intros h' k1 r a E G. rewrite mlift_bind. pose proof (rget_rel h' d2 v2 k1 (nsrel_ext _ _ _ _ E F2)) as T.
    eapply ref_bind with (Q := fun h1 x y => h1 = h' /\ holds h1 x y).
    + apply ref_lift. destruct (rget d2 k1), (ns_get v2 k1); try easy; now split.
    + intros h1 x y _ [-> Hx]. apply ref_op2; [lia|exact Hx|exact G].
  - cbn. intros h' x y _ ((R & F3) & E & L2). now repeat split; try apply F3.
Qed.
Lemma ref_rscale k h c d v : k <= len h -> nsrel h d v -> refines k h (rscale c d) (mscale c v) (madens h).
Proof.
  intros L F. unfold mscale, ns_scale, rscale. eapply ref_imp; [apply ref_call; [exact L|]; apply ref_rmap; [exact F|]|].
  - intros h' k1 r a E G. apply (ref_op1 _ _ (fun x => sc c * x)); [lia|exact G].
  - cbn. intros h' x y _ ((R & F3) & E & L2). now repeat split; try apply F3.
Qed.
End Facts.
