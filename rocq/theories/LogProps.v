(** Profiling counters (C28) and Namespace arithmetic (C27), for every
    arithmetic and every set of numerical schemes. *)
From Coq Require Import List Arith ZArith Lia Bool Reals Lra String.
From Verif Require Import Num NdArray NdFacts ModelGradients ModelProperties ModelHW HWFacts.
Import ListNotations.

Section L.
Context {A : Type} {Nm : Num A}.

Lemma mbind_inv {X Y} (m : M X) (f : X -> M Y) l y : mbind m f = (l, Ok y) ->
  exists l1 x l2, m = (l1, Ok x) /\ f x = (l2, Ok y) /\ l = (l1 ++ l2)%list.
Proof.
  destruct m as [l1 [x|e]]; cbn; [|discriminate]. destruct (f x) as [l2 r] eqn:E. intros K. injection K as <- ->.
  eauto 10.
Qed.
Lemma mlift_inv {X} (r : res X) l x : mlift r = (l, Ok x) -> r = Ok x /\ l = [].
Proof. unfold mlift. intros E. injection E as <- ->. auto. Qed.
Lemma mret_inv {X} (r x : X) l : mret r = (l, Ok x) -> x = r /\ l = [].
Proof. unfold mret. intros E. injection E as <- <-. auto. Qed.
Lemma mlog_inv s l x : mlog s = (l, Ok x) -> l = [s].
Proof. unfold mlog. intros E. injection E as <-. auto. Qed.

Ltac minv1 := match goal with
  | H : mbind _ _ = (_, Ok _) |- _ =>
      let l1 := fresh "l" in let x := fresh "x" in let l2 := fresh "l" in let H1 := fresh "H" in let H2 := fresh "H" in let E := fresh "E" in
      apply mbind_inv in H; destruct H as (l1 & x & l2 & H1 & H2 & E); subst
  | H : mlift _ = (_, Ok _) |- _ => apply mlift_inv in H; destruct H as [? ?]; subst
  | H : mret _ = (_, Ok _) |- _ => apply mret_inv in H; destruct H as [? ?]; subst
  | H : mlog _ = (_, Ok _) |- _ => apply mlog_inv in H; subst
  | H : mget _ _ = (_, Ok _) |- _ => unfold mget in H
  | H : mscale _ _ = (_, Ok _) |- _ => unfold mscale in H
  | H : madd _ _ = (_, Ok _) |- _ => unfold madd in H
  end.
Ltac minv := repeat (minv1; cbv zeta beta in *).

Variable h : hw A.
Definition gpb : list string := if truthy (hpb h) then ["poisson_bracket"%string] else [].
Definition gnu : list string := if truthy (hnu h) then ["diffuse"%string] else [].
Definition glog : list string :=
  (["gradient_2d"%string] ++ gpb ++ gnu ++ gpb ++ gnu ++ (if htest h then ["diffuse"%string] else []))%list.

Lemma get_phi_log om dx l r : hw_get_phi h om dx = (l, Ok r) -> l = ["get_phi"%string].
Proof. unfold hw_get_phi. intros H. minv. reflexivity. Qed.
Lemma diffuse_log a dx N l r : hw_diffuse h a dx N = (l, Ok r) -> l = ["diffuse"%string].
Proof. unfold hw_diffuse. intros H. minv. reflexivity. Qed.

Lemma gradient_log n o dt dx ph z age l r :
  hw2d_gradient h n o dt dx (Some ph) z age = (l, Ok r) -> l = glog.
Proof.
  unfold hw2d_gradient, glog, gpb, gnu. intros H.
  destruct (truthy (hpb h)), (truthy (hnu h)), (truthy (hkappa h)), (htest h); minv;
    repeat match goal with K : hw_diffuse _ _ _ _ = (_, Ok _) |- _ => apply diffuse_log in K; subst end; reflexivity.
Qed.
Lemma gradient_2d_log y ph dt dx l r : gradient_2d h y (Some ph) dt dx = (l, Ok r) -> l = glog.
Proof.
  unfold gradient_2d. destruct existsb; [intros; minv; discriminate|].
  destruct (ns_has y "debug"); [intros; minv; discriminate|].
  destruct (ns_get y "density"), (ns_get y "omega"); try (intros; minv; discriminate).
  apply gradient_log.
Qed.
Lemma stage_log y ph dtk dt dx l r : stage h y ph dtk dt dx = (l, Ok r) -> l = glog.
Proof. unfold stage. intros H. minv. apply gradient_2d_log in H0. subst. apply app_nil_r. Qed.

Definition slog : list string :=
  (glog ++ ["get_phi"%string] ++ glog ++ ["get_phi"%string] ++ glog ++ ["get_phi"%string] ++ glog
   ++ ["get_phi"; "full_step"]%string)%list.
Lemma rk4_log_gen pl dt dx l r : rk4_step h pl dt dx = (l, Ok r) -> l = slog.
Proof.
  unfold rk4_step. intros H. minv.
  repeat match goal with
  | K : stage _ _ _ _ _ _ = (_, Ok _) |- _ => apply stage_log in K; subst
  | K : hw_get_phi _ _ _ = (_, Ok _) |- _ => apply get_phi_log in K; subst
  end.
  unfold slog. cbn [app]. reflexivity.
Qed.

Lemma count_app (l m : list string) s : count_occ string_dec (l ++ m) s = count_occ string_dec l s + count_occ string_dec m s.
Proof. apply count_occ_app. Qed.
Lemma slog_counts :
  count_occ string_dec slog "full_step"%string = 1 /\
  count_occ string_dec slog "get_phi"%string = 4 /\
  count_occ string_dec slog "gradient_2d"%string = 4 /\
  count_occ string_dec slog "poisson_bracket"%string = (if truthy (hpb h) then 8 else 0) /\
  count_occ string_dec slog "diffuse"%string = (if truthy (hnu h) then 8 else 0) + (if htest h then 4 else 0) /\
  (forall s, ~ In s ["full_step"; "get_phi"; "gradient_2d"; "poisson_bracket"; "diffuse"]%string -> count_occ string_dec slog s = 0).
Proof.
  unfold slog, glog, gpb, gnu.
  destruct (truthy (hpb h)), (truthy (hnu h)), (htest h); cbn [app];
    (split; [reflexivity|]); (split; [reflexivity|]); (split; [reflexivity|]); (split; [reflexivity|]); (split; [reflexivity|]);
    intros s Hs; apply count_occ_not_In; intros Hi; apply Hs; cbn in Hi |- *; intuition.
Qed.

Lemma c28 pl dt dx k l pl' : steps (fun pl => rk4_step h pl dt dx) k pl = (l, Ok pl') ->
  count_occ string_dec l "full_step"%string = k /\
  count_occ string_dec l "get_phi"%string = 4 * k /\
  count_occ string_dec l "gradient_2d"%string = 4 * k /\
  count_occ string_dec l "poisson_bracket"%string = (if truthy (hpb h) then 8 * k else 0) /\
  count_occ string_dec l "diffuse"%string = (if truthy (hnu h) then 8 * k else 0) + (if htest h then 4 * k else 0) /\
  (forall s, ~ In s ["full_step"; "get_phi"; "gradient_2d"; "poisson_bracket"; "diffuse"]%string -> count_occ string_dec l s = 0).
Proof.
  revert pl l pl'. induction k as [|k IH]; intros pl l pl' H; cbn [steps] in H.
  - minv. cbn. destruct (truthy (hpb h)), (truthy (hnu h)), (htest h); repeat split; reflexivity.
  - minv. apply rk4_log_gen in H0. subst. destruct (IH _ _ _ H1) as (C1 & C2 & C3 & C4 & C5 & C6).
    destruct slog_counts as (D1 & D2 & D3 & D4 & D5 & D6).
    rewrite !count_app, C1, C2, C3, C4, C5, D1, D2, D3, D4, D5.
    split; [lia|]. split; [lia|]. split; [lia|].
    split; [destruct (truthy (hpb h)); lia|]. split; [destruct (truthy (hnu h)), (htest h); lia|].
    intros s Hs. now rewrite count_app, C6, D6.
Qed.

(** ** Namespaces *)
Lemma ns_map_ok f (d c : ns A) : ns_map f d = Ok c ->
  ns_keys c = ns_keys d /\
  forall k v, ns_get d k = Ok v -> exists u, f k v = Ok u /\ ns_get c k = Ok u.
Proof.
  revert c. induction d as [|[k0 v0] d IH]; intros c H; cbn in H.
  - injection H as <-. split; [reflexivity|]. cbn. discriminate.
  - destruct (f k0 v0) as [w|] eqn:E; cbn in H; [|discriminate].
    destruct (ns_map f d) as [c'|] eqn:E'; cbn in H; [|discriminate]. injection H as <-.
    destruct (IH c' eq_refl) as [K1 K2]. split; [unfold ns_keys in *; cbn; now rewrite K1|].
    intros k v. cbn. destruct (String.eqb_spec k k0) as [->|Hne].
    + intros Hv. injection Hv as <-. exists w. auto.
    + apply K2.
Qed.
Lemma ns_map_total f (d : ns A) : NoDup (ns_keys d) ->
  (forall k v, ns_get d k = Ok v -> exists u, f k v = Ok u) -> exists c, ns_map f d = Ok c.
Proof.
  induction d as [|[k0 v0] d IH]; intros Hnd H; [now exists []|]. cbn.
  destruct (H k0 v0) as [w Ew]; [cbn; now rewrite String.eqb_refl|]. rewrite Ew. cbn.
  cbn in Hnd. inversion Hnd; subst. destruct IH as [c Ec]; auto.
  - intros k v Hk. apply H. cbn. destruct (String.eqb_spec k k0) as [->|]; [|assumption].
    exfalso. apply H2. eapply ns_get_keys, Hk.
  - rewrite Ec. cbn. eauto.
Qed.
Lemma ns_map_key_error f (d : ns A) k0 : NoDup (ns_keys d) -> In k0 (ns_keys d) ->
  (forall v, f k0 v = Exn KeyError) ->
  (forall k v, ns_get d k = Ok v -> (exists u, f k v = Ok u) \/ f k v = Exn KeyError) ->
  ns_map f d = Exn KeyError.
Proof.
  induction d as [|[k1 v1] d IH]; intros Hnd Hi Hk H; [destruct Hi|]. cbn.
  destruct (H k1 v1) as [[w Ew]|Ew]; [cbn; now rewrite String.eqb_refl| |].
  - rewrite Ew. cbn. cbn in Hnd. inversion Hnd; subst.
    rewrite IH; auto.
    + destruct Hi as [Hi|Hi]; [|exact Hi]. cbn in Hi. subst. rewrite Hk in Ew. discriminate.
    + intros k v Hkv. apply H. cbn. destruct (String.eqb_spec k k1) as [->|]; [|assumption].
      exfalso. apply H2. eapply ns_get_keys, Hkv.
  - rewrite Ew. reflexivity.
Qed.

(** a binary Namespace operation, [flip] tells which operand comes first *)
Definition ns_bin (op : A -> A -> A) (self other : ns A) : res (ns A) :=
  ns_map (fun k v => let* o := ns_get other k in lift2 op (Ok o) (Ok v)) self.
Lemma ns_bin_ok op (a b c : ns A) : ns_bin op a b = Ok c ->
  ns_keys c = ns_keys a /\
  forall k v, ns_get a k = Ok v -> exists w u, ns_get b k = Ok w /\ lift2 op (Ok w) (Ok v) = Ok u /\ ns_get c k = Ok u.
Proof.
  intros H. apply ns_map_ok in H as [H1 H2]. split; [exact H1|].
  intros k v Hk. destruct (H2 k v Hk) as (u & Eu & Ec). destruct (ns_get b k) as [w|] eqn:E; cbn [bind] in Eu; [|discriminate].
  exists w, u. auto.
Qed.
Lemma ns_bin_key op (a b : ns A) : NoDup (ns_keys a) ->
  (forall k v w, ns_get a k = Ok v -> ns_get b k = Ok w -> exists u, lift2 op (Ok w) (Ok v) = Ok u) ->
  ((exists c, ns_bin op a b = Ok c) <-> (forall k, In k (ns_keys a) -> In k (ns_keys b))) /\
  (ns_bin op a b = Exn KeyError <-> exists k, In k (ns_keys a) /\ ~ In k (ns_keys b)).
Proof.
  intros Hnd Hop.
  assert (T : (forall k, In k (ns_keys a) -> In k (ns_keys b)) -> exists c, ns_bin op a b = Ok c).
  { intros Hs. apply ns_map_total; [assumption|]. intros k v Hk.
    destruct (ns_get_keys_ex b k) as [w Hw]; [apply Hs; eapply ns_get_keys, Hk|]. rewrite Hw. cbn [bind]. eauto. }
  assert (N : forall k, In k (ns_keys a) -> ~ In k (ns_keys b) -> ns_bin op a b = Exn KeyError).
  { intros k Hi Hn. assert (Eb : ns_get b k = Exn KeyError).
    { destruct (ns_get b k) as [w|e] eqn:E; [exfalso; apply Hn; eapply ns_get_keys, E|].
      apply ns_get_err in E as [-> _]. reflexivity. }
    apply ns_map_key_error with k; auto.
    - intros v. now rewrite Eb.
    - intros k' v Hk'. destruct (ns_get b k') as [w|e] eqn:E; cbn [bind]; [left; eauto|right].
      apply ns_get_err in E as [-> _]. reflexivity. }
  split; split.
  - intros [c Hc] k Hi. apply ns_bin_ok in Hc as [_ Hc]. destruct (ns_get_keys_ex a k Hi) as [v Hv].
    destruct (Hc k v Hv) as (w & _ & Hw & _). eapply ns_get_keys, Hw.
  - exact T.
  - intros E. destruct (Forall_Exists_dec (fun k => In k (ns_keys b)) (fun k => in_dec string_dec k (ns_keys b)) (ns_keys a)) as [F|X].
    + rewrite Forall_forall in F. destruct (T F) as [c Hc]. rewrite Hc in E. discriminate.
    + apply Exists_exists in X. exact X.
  - intros (k & Hi & Hn). eapply N; eauto.
Qed.

Lemma lift2_same op (v w : arr A) : wf v -> wf w -> shape w = shape v ->
  lift2 op (Ok w) (Ok v) = Ok (build (shape v) (fun ix => op (get w ix) (get v ix))).
Proof.
  intros Hv Hw E. rewrite (wf_eta w Hw), (wf_eta v Hv) at 1. rewrite E. apply lift2_build.
Qed.
Lemma ns_bin_cells op (a b c : ns A) : ns_bin op a b = Ok c ->
  forall k v w, ns_get a k = Ok v -> ns_get b k = Ok w -> wf v -> wf w -> shape w = shape v ->
  exists u, ns_get c k = Ok u /\ shape u = shape v /\
    forall idx, inb (shape v) idx -> get u idx = op (get w idx) (get v idx).
Proof.
  intros H k v w Hv Hw Wv Ww E. destruct (ns_bin_ok _ _ _ _ H) as [_ K]. destruct (K k v Hv) as (w' & u & Hw' & Eu & Ec).
  rewrite Hw in Hw'. injection Hw' as <-. rewrite lift2_same in Eu by assumption. injection Eu as <-.
  eexists. split; [exact Ec|]. split; [reflexivity|]. intros idx Hi. now rewrite get_build.
Qed.
Lemma ns_scale_cells (a : ns A) (x : A) : NoDup (ns_keys a) -> (forall k v, ns_get a k = Ok v -> wf v) ->
  exists c, ns_scale a x = Ok c /\ ns_keys c = ns_keys a /\
    forall k v, ns_get a k = Ok v -> exists u, ns_get c k = Ok u /\ shape u = shape v /\
      forall idx, inb (shape v) idx -> get u idx = nmul x (get v idx).
Proof.
  intros Hnd Hw.
  assert (S1 : forall v, wf v -> mul_ (sc x) (Ok v) = Ok (build (shape v) (fun ix => nmul x (get v ix)))).
  { intros v Wv. rewrite (wf_eta v Wv) at 1. apply lift2_scl. }
  destruct (ns_map_total (fun _ v => mul_ (sc x) (Ok v)) a Hnd) as [c Hc].
  { intros k v Hk. rewrite S1 by eauto. eauto. }
  exists c. split; [exact Hc|]. apply ns_map_ok in Hc as [H1 H2]. split; [exact H1|].
  intros k v Hk. destruct (H2 k v Hk) as (u & Eu & Ec). rewrite S1 in Eu by eauto. injection Eu as <-.
  eexists. split; [exact Ec|]. split; [reflexivity|]. intros idx Hi. now rewrite get_build.
Qed.
Lemma ns_sub_num_cells (a c : ns A) (x : A) : ns_sub_num a x = Ok c ->
  ns_keys c = ns_keys a /\
  forall k v, ns_get a k = Ok v -> wf v -> exists u, ns_get c k = Ok u /\ shape u = shape v /\
      forall idx, inb (shape v) idx -> get u idx = nsub x (get v idx).
Proof.
  intros H. apply ns_map_ok in H as [H1 H2]. split; [exact H1|]. intros k v Hk Wv.
  destruct (H2 k v Hk) as (u & Eu & Ec).
  assert (S1 : sub_ (sc x) (Ok v) = Ok (build (shape v) (fun ix => nsub x (get v ix)))).
  { rewrite (wf_eta v Wv) at 1. apply lift2_scl. }
  rewrite S1 in Eu. injection Eu as <-.
  eexists. split; [exact Ec|]. split; [reflexivity|]. intros idx Hi. now rewrite get_build.
Qed.
End L.
