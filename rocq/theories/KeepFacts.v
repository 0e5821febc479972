(** Programs that never lose recorded rows, wherever they are stopped. *)
From Coq Require Import Arith ZArith Bool String List Lia.
From Verif Require Import Num NdArray ModelIO ModelRun SpecIO IOFacts BufFacts RunFiles.
Import ListNotations.

(** [grown] is a preorder *)
Section Grown.
Context {V T : Type}.
Variable K : string -> Prop.
Notation grown := (@grown V T K).
Lemma grown_refl fs : grown fs fs.
Proof. destruct fs as [f|]; [|exact I]. split; [reflexivity|]. intros k l _ H. exists []. now rewrite app_nil_r. Qed.
Lemma grown_trans a b c : grown a b -> grown b c -> grown a c.
Proof.
  destruct a as [f|]; [|now intros]. destruct b as [g|]; [|intros []]. destruct c as [h|]; [|now intros _ []].
  intros [A1 G1] [A2 G2]. split; [congruence|]. intros k l Hk H. destruct (G1 k l Hk H) as [l1 H1].
  destruct (G2 k _ Hk H1) as [l2 H2]. exists (l1 ++ l2). rewrite app_assoc. exact H2.
Qed.

(** the datasets named in [K] and the attributes are the same *)
Definition same (fs fs' : disk V T) : Prop :=
  match fs, fs' with
  | None, _ => True
  | Some _, None => False
  | Some f, Some f' => attrs f' = attrs f /\ forall k, K k -> dget (dsets f') k = dget (dsets f) k
  end.
Lemma same_refl fs : same fs fs.
Proof. destruct fs as [f|]; [|exact I]. now split. Qed.
Lemma same_trans a b c : same a b -> same b c -> same a c.
Proof.
  destruct a as [f|]; [|now intros]. destruct b as [g|]; [|intros []]. destruct c as [h|]; [|now intros _ []].
  intros [A1 G1] [A2 G2]. split; [congruence|]. intros k Hk. now rewrite G2, G1.
Qed.
Lemma same_grown fs fs' : same fs fs' -> grown fs fs'.
Proof.
  destruct fs as [f|]; [|now intros]. destruct fs' as [g|]; [|intros []]. intros [A S]. split; [exact A|].
  intros k l Hk H. exists []. now rewrite app_nil_r, S.
Qed.
End Grown.

Class PreO {D : Type} (R : D -> D -> Prop) : Prop := {
  R_refl : forall a, R a a; R_trans : forall a b c, R a b -> R b c -> R a c }.
#[export] Instance grown_pre V T K : PreO (@grown V T K).
Proof. constructor; [apply grown_refl|apply grown_trans]. Qed.
#[export] Instance same_pre V T K : PreO (@same V T K).
Proof. constructor; [apply same_refl|apply same_trans]. Qed.

(** Programs that respect a preorder on files at every crash point *)
Section KeepR.
Context {V T : Type}.
Variable zl : string -> row V T.
Variable R : disk V T -> disk V T -> Prop.
Context {PR : PreO R}.

(** at every crash point the rows are still there *)
Definition keeps_at {X} (m : IO V T X) (fs : disk V T) : Prop := forall j, R fs (crash_after zl j m fs).
Definition keeps {X} (m : IO V T X) : Prop := faithful zl m /\ forall fs, keeps_at m fs.

Lemma crash_all {X} (m : IO V T X) fs j : faithful zl m -> length (trace_of m fs) <= j -> crash_after zl j m fs = disk_of m fs.
Proof. intros F H. unfold crash_after. rewrite firstn_all2 by exact H. apply F. Qed.
Lemma keeps_disk {X} (m : IO V T X) fs : faithful zl m -> keeps_at m fs -> R fs (disk_of m fs).
Proof. intros F H. rewrite <- (crash_all m fs (length (trace_of m fs)) F (le_n _)). apply H. Qed.

Lemma keeps_at_bind {X Y} (m : IO V T X) (k : X -> IO V T Y) fs : faithful zl m -> (forall x, faithful zl (k x)) -> keeps_at m fs ->
  (forall x, result_of m fs = Ok x -> keeps_at (k x) (disk_of m fs)) -> keeps_at (ibind m k) fs.
Proof.
  intros F Fk H Hk j. pose proof (keeps_disk m fs F H) as HD. pose proof (F fs) as [AL RE].
  specialize (H j). unfold crash_after, trace_of, disk_of, result_of, ibind in *.
  destruct (m fs) as [[tr fs1] [x|e]]; cbn [fst snd] in *; [|exact H].
  specialize (Hk x eq_refl). unfold keeps_at in Hk. destruct (k x fs1) as [[tr' fs2] r] eqn:E. cbn [fst].
  rewrite (crash_split zl tr tr' fs fs1 j AL RE). destruct (j <=? length tr); [exact H|].
  eapply R_trans; [exact HD|]. specialize (Hk (j - length tr)). unfold crash_after, trace_of in Hk. rewrite E in Hk. exact Hk.
Qed.
Lemma keeps_bind {X Y} (m : IO V T X) (k : X -> IO V T Y) : keeps m -> (forall x, keeps (k x)) -> keeps (ibind m k).
Proof.
  intros [F H] Hk. split; [apply faithful_bind; [exact F|intros x; apply Hk]|].
  intros fs. apply keeps_at_bind; [exact F|intros x; apply Hk|apply H|]. intros x _. apply Hk.
Qed.
Lemma keeps_nil {X} (r : res X) : keeps (fun fs => (([], fs), r)).
Proof. split; [split; [exact I|reflexivity]|]. intros fs j. unfold crash_after, trace_of. cbn. rewrite firstn_nil. apply R_refl. Qed.
Lemma keeps_ret {X} (x : X) : keeps (iret x). Proof. apply keeps_nil. Qed.
Lemma keeps_fail {X} e : keeps (@ifail V T X e). Proof. apply keeps_nil. Qed.
Lemma keeps_lift {X} (r : res X) : keeps (ilift r). Proof. apply keeps_nil. Qed.
Lemma keeps_get : keeps (@iget V T).
Proof. split; [apply faithful_get|]. intros fs j. unfold crash_after, trace_of, iget. cbn. rewrite firstn_nil. apply R_refl. Qed.
Lemma keeps_iseq l : (forall m, In m l -> keeps m) -> keeps (iseq l).
Proof.
  induction l as [|m l IH]; intros H; [apply keeps_ret|]. cbn [iseq].
  apply keeps_bind; [apply H; now left|]. intros _. apply IH. intros m' Hm. apply H. now right.
Qed.
Lemma keeps_op o : (forall fs fs', exec1 zl o fs = Ok fs' -> R fs fs') -> keeps (iop zl o).
Proof.
  intros H. split; [apply faithful_op|]. intros fs j. unfold crash_after, trace_of, iop.
  destruct (exec1 zl o fs) as [fs'|e] eqn:E; cbn [fst].
  - destruct j; cbn [firstn replay]; [apply R_refl|]. rewrite firstn_nil. rewrite E. cbn [replay]. now apply H.
  - rewrite firstn_nil. apply R_refl.
Qed.
Lemma keeps_weaken {X} (m : IO V T X) (R' : disk V T -> disk V T -> Prop) : keeps m -> (forall a b, R a b -> R' a b) ->
  faithful zl m /\ forall fs j, R' fs (crash_after zl j m fs).
Proof. intros [F H] W. split; [exact F|]. intros fs j. apply W, H. Qed.

(** calculate_properties *)
Variables (f32V : V -> V) (f32T : T -> T).
Lemma keeps_with {X} (k : h5 V T -> IO V T X) : (forall f, keeps (k f)) -> keeps (with_file k).
Proof. intros H. apply keeps_bind; [apply keeps_get|]. intros [f|]; [apply H|apply keeps_fail]. Qed.
Hypothesis R_open : keeps (iop zl OpenRP).
(** a dataset that may be deleted, created and overwritten *)
Definition modifiable (name : string) : Prop :=
  keeps (iop zl (DeleteDs name)) /\ (forall d, keeps (iop zl (CreateDs name d))) /\
  (forall i b rows, keeps (iop zl (WriteAt name i b rows))).
Lemma keeps_prepare ps steps fr : (forall p, In p ps -> modifiable p) -> keeps (prepare zl ps steps fr).
Proof.
  induction ps as [|p ps IH]; intros N; cbn [prepare]; [apply keeps_ret|].
  apply keeps_bind; [apply keeps_with|].
  { intros f. destruct (_ && _); [apply N; now left|apply keeps_ret]. }
  intros _. apply keeps_bind; [apply keeps_with|].
  { intros f. destruct (dhas _ _); [apply keeps_ret|]. apply keeps_bind; [apply N; now left|]. intros _. apply keeps_ret. }
  intros sel. apply keeps_bind; [apply IH; intros q Hq; apply N; now right|]. intros sel'. apply keeps_ret.
Qed.
Lemma bind_inv {X Y} (m : IO V T X) (k : X -> IO V T Y) fs y : result_of (ibind m k) fs = Ok y ->
  exists x, result_of m fs = Ok x /\ result_of (k x) (disk_of m fs) = Ok y.
Proof.
  unfold result_of, disk_of, ibind. destruct (m fs) as [[tr fs1] [x|e]]; cbn [fst snd]; [|discriminate].
  destruct (k x fs1) as [[tr' fs2] r] eqn:E. cbn [snd]. intros ->. exists x. rewrite E. auto.
Qed.
Lemma prepare_incl ps steps fr : forall fs sel, result_of (prepare zl ps steps fr) fs = Ok sel -> incl sel ps.
Proof.
  induction ps as [|p ps IH]; intros fs sel H.
  - injection H as <-. intros x [].
  - cbn [prepare] in H. apply bind_inv in H. destruct H as [_ [_ H]]. apply bind_inv in H. destruct H as [s1 [H1 H]].
    apply bind_inv in H. destruct H as [s2 [H2 H]]. injection H as <-. apply IH in H2.
    apply bind_inv in H1. destruct H1 as [[f|] [_ H1]]; [|discriminate].
    intros x Hx. apply in_app_iff in Hx. destruct Hx as [Hx|Hx]; [|right; now apply H2].
    destruct (dhas _ _); [injection H1 as <-; destruct Hx|]. apply bind_inv in H1. destruct H1 as [_ [_ H1]]. injection H1 as <-.
    destruct Hx as [<-|[]]. now left.
Qed.
Lemma keeps_batch tb sel b i : (forall p, In p sel -> modifiable p) -> keeps (do_batch zl f32V f32T tb sel b i).
Proof.
  intros N. apply keeps_with. intros f. do 3 (apply keeps_bind; [apply keeps_lift|]; intros ?). apply keeps_iseq.
  intros m Hm. apply in_map_iff in Hm. destruct Hm as [e [<- _]]. unfold add_data.
  destruct (existsb (String.eqb (fst e)) sel) eqn:E; [|apply keeps_ret].
  apply keeps_bind; [apply keeps_lift|]. intros d. apply N.
  apply existsb_exists in E. destruct E as [y [Hy Ey]]. apply String.eqb_eq in Ey. now subst.
Qed.
Lemma keeps_at_with {X} (k : h5 V T -> IO V T X) fs : (forall f, faithful zl (k f)) -> (forall f, keeps_at (k f) fs) -> keeps_at (with_file k) fs.
Proof.
  intros F H. apply keeps_at_bind; [apply faithful_get| |apply keeps_get|].
  - intros [f|]; [apply F|apply keeps_fail].
  - intros x _. destruct x as [f|]; [apply H|apply keeps_fail].
Qed.
Lemma faithful_prepare ps steps fr : faithful zl (prepare zl ps steps fr).
Proof.
  induction ps as [|p ps IH]; cbn [prepare]; [apply faithful_ret|].
  apply faithful_bind; [|intros _; apply faithful_bind; [|intros sel; apply faithful_bind; [exact IH|intros ?; apply faithful_ret]]].
  - apply faithful_bind; [apply faithful_get|]. intros [f|]; [|apply faithful_lift]. destruct (_ && _); [apply faithful_op|apply faithful_ret].
  - apply faithful_bind; [apply faithful_get|]. intros [f|]; [|apply faithful_lift]. destruct (dhas _ _); [apply faithful_ret|].
    apply faithful_bind; [apply faithful_op|intros _; apply faithful_ret].
Qed.
Lemma faithful_batch tb sel b i : faithful zl (do_batch zl f32V f32T tb sel b i).
Proof.
  apply faithful_bind; [apply faithful_get|]. intros [f|]; [|apply faithful_lift].
  do 3 (apply faithful_bind; [apply faithful_lift|]; intros ?). apply faithful_iseq.
  intros m Hm. apply in_map_iff in Hm. destruct Hm as [e [<- _]]. unfold add_data.
  destruct (existsb _ sel); [|apply faithful_ret]. apply faithful_bind; [apply faithful_lift|]. intros d. apply faithful_op.
Qed.
Lemma faithful_batches tb sel b steps : faithful zl (if b =? 0 then ifail ValueError else iseq (map (do_batch zl f32V f32T tb sel b) (batch_starts steps b))).
Proof.
  destruct (b =? 0); [apply faithful_lift|]. apply faithful_iseq. intros m Hm. apply in_map_iff in Hm. destruct Hm as [i [<- _]]. apply faithful_batch.
Qed.
Lemma keeps_calculate table b ps fr : (forall p, In p ps -> modifiable p) -> keeps (calculate_properties zl f32V f32T table b ps fr).
Proof.
  intros N. assert (F : forall f : h5 V T, faithful zl (ibind (ilift (pick (attrs f) ["k0"; "x_save"; "c1"; "frame_dt"]%string)) (fun _ =>
    ibind (ilift (rows_of f "density")) (fun n => ibind (prepare zl ps (length n) fr) (fun sel =>
    if b =? 0 then ifail ValueError else iseq (map (do_batch zl f32V f32T (table (attrs f)) sel b) (batch_starts (length n) b))))))).
  { intros f. apply faithful_bind; [apply faithful_lift|]. intros _. apply faithful_bind; [apply faithful_lift|]. intros n.
    apply faithful_bind; [apply faithful_prepare|]. intros sel. apply faithful_batches. }
  unfold calculate_properties. apply keeps_bind; [apply R_open|]. intros _. apply keeps_with. intros f. split; [apply F|].
  intros fs. apply keeps_at_bind; [apply faithful_lift| |apply keeps_lift|].
  { intros _. apply faithful_bind; [apply faithful_lift|]. intros n. apply faithful_bind; [apply faithful_prepare|]. intros sel. apply faithful_batches. }
  intros _ _. apply keeps_at_bind; [apply faithful_lift| |apply keeps_lift|].
  { intros n. apply faithful_bind; [apply faithful_prepare|]. intros sel. apply faithful_batches. }
  intros n _. apply keeps_at_bind; [apply faithful_prepare|intros sel; apply faithful_batches|now apply keeps_prepare|].
  intros sel Hs. destruct (b =? 0); [apply keeps_fail|]. apply keeps_iseq. intros m Hm. apply in_map_iff in Hm. destruct Hm as [i [<- _]].
  apply keeps_batch. intros p Hp. apply N. now apply (prepare_incl ps (length n) fr _ _ Hs).
Qed.
End KeepR.

(** ** Programs that keep the recorded rows *)
Section Keep.
Context {V T : Type}.
Variable zl : string -> row V T.
Variable K : string -> Prop.
Notation grown := (@grown V T K).
Notation same := (@same V T K).
Notation keeps := (keeps zl grown).
Notation keeps_bind := (KeepFacts.keeps_bind zl grown).
Notation keeps_ret := (KeepFacts.keeps_ret zl grown).
Notation keeps_lift := (KeepFacts.keeps_lift zl grown).
Notation keeps_fail := (KeepFacts.keeps_fail zl grown).
Notation keeps_get := (KeepFacts.keeps_get zl grown).
Notation keeps_iseq := (KeepFacts.keeps_iseq zl grown).
Notation keeps_op := (KeepFacts.keeps_op zl grown).

Lemma keeps_open_a : keeps (iop zl OpenA).
Proof. apply keeps_op. intros [f|] fs' E; cbn in E; injection E as <-; [apply grown_refl|exact I]. Qed.
Lemma keeps_open_rp : keeps (iop zl OpenRP).
Proof. apply keeps_op. intros [f|] fs' E; cbn in E; [|discriminate]. injection E as <-. apply grown_refl. Qed.

(** replacing a dataset by a longer one *)
Lemma grown_set f k d : (forall l, K k -> dget (dsets f) k = Some (Rows l) -> exists l', d = Rows (l ++ l')) -> grown (Some f) (Some (fset f k d)).
Proof.
  intros H. split; [reflexivity|]. intros k' l Hk E. rewrite fset_get. destruct (String.eqb_spec k' k) as [->|_].
  - destruct (H l Hk E) as [l' ->]. now exists l'.
  - exists []. now rewrite app_nil_r.
Qed.

Lemma tail_grown f name l n rows f2 : dget (dsets f) name = Some (Rows l) ->
  exec1 zl (WriteTail name n (firstn n rows)) (Some (fset f name (Rows (l ++ repeat (zl name) n)))) = Ok f2 ->
  grown (Some f) f2.
Proof.
  intros El E2. cbn in E2. unfold on_ds, dlook in E2. rewrite fset_get, String.eqb_refl in E2. cbn [bind] in E2.
  match type of E2 with context [overwrite ?L ?s ?r] => assert (Q : exists l', overwrite L s r = l ++ l') end.
  { unfold overwrite. destruct (Nat.eqb_spec n 0) as [->|Hn].
    - cbn [repeat firstn app length] in *. rewrite app_nil_r in *. exists []. rewrite app_nil_r. reflexivity.
    - rewrite app_length, repeat_length. replace (length l + n - n) with (length l) by lia.
      rewrite firstn_app, Nat.sub_diag, firstn_all. cbn [firstn]. rewrite app_nil_r. eauto. }
  destruct Q as [l' Q]. rewrite Q in E2. destruct (_ =? _); [|discriminate]. cbn [bind] in E2. injection E2 as <-.
  eapply grown_trans; [apply (grown_set f name (Rows (l ++ l')))|].
  - intros l0 _ H. rewrite El in H. injection H as <-. eauto.
  - split; [reflexivity|]. intros k l0 _ H. exists []. rewrite app_nil_r, <- H. cbn [dsets fset]. rewrite !dget_dset.
    destruct (String.eqb k name); reflexivity.
Qed.
Lemma keeps_entry name n rows : keeps (ibind (iop zl (Resize name n)) (fun _ => iop zl (WriteTail name n (firstn n rows)))).
Proof.
  split; [apply faithful_bind; [apply faithful_op|]; intros _; apply faithful_op|].
  intros fs j. unfold crash_after, trace_of, ibind, iop.
  destruct (exec1 zl (Resize name n) fs) as [fs1|e] eqn:E1; cbn [fst]; [|rewrite firstn_nil; apply grown_refl].
  destruct fs as [f|]; [|exact I]. pose proof E1 as R1. cbn in E1. unfold on_ds in E1.
  unfold dlook in E1. destruct (dget (dsets f) name) as [[l|v]|] eqn:El; cbn [bind] in E1; try discriminate.
  injection E1 as <-.
  assert (G1 : grown (Some f) (Some (fset f name (Rows (l ++ repeat (zl name) n))))).
  { apply grown_set. intros l0 _ H. rewrite El in H. injection H as <-. eauto. }
  change (mkH5 (dset_ (dsets f) name (Rows (l ++ repeat (zl name) n)%list)) (attrs f)) with (fset f name (Rows (l ++ repeat (zl name) n))) in *.
  destruct (exec1 zl (WriteTail name n (firstn n rows)) (Some (fset f name (Rows (l ++ repeat (zl name) n))))) as [fs2|e] eqn:E2.
  - cbn [app fst]. destruct j as [|[|j]]; cbn [firstn replay]; rewrite ?R1; cbn [replay]; [apply grown_refl|exact G1|].
    rewrite E2, firstn_nil. cbn [replay]. now apply (tail_grown f name l n rows).
  - cbn [app fst]. destruct j as [|j]; cbn [firstn replay]; rewrite ?firstn_nil, ?R1; cbn [replay]; [apply grown_refl|exact G1].
Qed.
Lemma keeps_append buf n : keeps (append_h5 zl buf n).
Proof.
  apply keeps_bind; [apply keeps_open_a|]. intros _. apply keeps_iseq. intros m Hm.
  apply in_map_iff in Hm. destruct Hm as [kv [<- _]]. apply keeps_entry.
Qed.
Lemma keeps_whole name v : keeps (iop zl (WriteWhole name v)).
Proof.
  apply keeps_op. intros [f|] fs' E; [|exact I]. cbn in E. unfold on_ds, dlook in E.
  destruct (dget (dsets f) name) as [[l|v0]|] eqn:El; cbn [bind] in E; try discriminate. injection E as <-.
  apply grown_set. intros l _ H. rewrite El in H. discriminate.
Qed.
Lemma keeps_update ls : keeps (update_last_state zl ls).
Proof.
  apply keeps_bind; [apply keeps_open_rp|]. intros _. apply keeps_iseq. intros m Hm.
  apply in_map_iff in Hm. destruct Hm as [kv [<- _]]. apply keeps_whole.
Qed.
Variables (f32V : V -> V) (f32T : T -> T).
Lemma keeps_save buf B i nv ls : keeps (save_to_buffered_h5 zl f32V f32T buf B i nv ls).
Proof.
  apply keeps_bind; [apply keeps_lift|]. intros b. cbv zeta. destruct (S i =? B); [|apply keeps_ret].
  apply keeps_bind; [apply keeps_append|]. intros _.
  apply keeps_bind; [destruct ls; [apply keeps_ret|apply keeps_update]|]. intros _. apply keeps_ret.
Qed.

(** datasets outside [K] may be changed *)
Lemma same_set f k d : ~ K k -> same (Some f) (Some (fset f k d)).
Proof.
  intros N. split; [reflexivity|]. intros k' Hk. rewrite fset_get. destruct (String.eqb_spec k' k) as [->|_]; [contradiction|reflexivity].
Qed.
Notation keeps_same := (KeepFacts.keeps zl same).
Lemma keeps_delete name : ~ K name -> keeps_same (iop zl (DeleteDs name)).
Proof.
  intros N. apply (KeepFacts.keeps_op zl same). intros [f|] fs' E; [|exact I]. cbn in E. destruct (dhas _ _); [|discriminate]. injection E as <-.
  split; [reflexivity|]. intros k Hk. cbn [dsets]. rewrite dget_ddel_other; [reflexivity|]. intros ->. contradiction.
Qed.
Lemma keeps_create name d : ~ K name -> keeps_same (iop zl (CreateDs name d)).
Proof.
  intros N. apply (KeepFacts.keeps_op zl same). intros [f|] fs' E; [|exact I]. cbn in E. destruct (dhas _ _); [discriminate|]. injection E as <-.
  now apply (same_set f name d).
Qed.
Lemma keeps_at_ name i b rows : ~ K name -> keeps_same (iop zl (WriteAt name i b rows)).
Proof.
  intros N. apply (KeepFacts.keeps_op zl same). intros [f|] fs' E; [|exact I]. cbn in E. unfold on_ds in E.
  destruct (dlook _ _) as [d|]; cbn [bind] in E; [|discriminate].
  match type of E with (bind ?m _ = _) => destruct m as [d'|]; cbn [bind] in E; [|discriminate] end. injection E as <-.
  now apply (same_set f name d').
Qed.
Lemma same_modifiable name : ~ K name -> modifiable zl same name.
Proof. intros N. split; [now apply keeps_delete|split; intros; [now apply keeps_create|now apply keeps_at_]]. Qed.
Lemma same_open : keeps_same (iop zl OpenRP).
Proof. apply (KeepFacts.keeps_op zl same). intros [f|] fs' E; cbn in E; [|discriminate]. injection E as <-. apply same_refl. Qed.
Lemma same_calculate table b ps fr : (forall p, In p ps -> ~ K p) -> keeps_same (calculate_properties zl f32V f32T table b ps fr).
Proof.
  intros N. apply (keeps_calculate zl same); [apply same_open|]. intros p Hp. now apply same_modifiable, N.
Qed.
Lemma grown_calculate table b ps fr : (forall p, In p ps -> ~ K p) -> keeps (calculate_properties zl f32V f32T table b ps fr).
Proof. intros N. exact (keeps_weaken zl same _ grown (same_calculate table b ps fr N) (same_grown K)). Qed.
End Keep.

(** ** The drivers *)
Section KeepRun.
Context {V T : Type} {TN : TimeNum T}.
Variable s : sim V T.
Variable c : cfg V T.
Notation zl := (zero_like s).
Notation K := (fun k => ~ In k (c_props c)).
Notation keeps := (keeps zl (grown K)).
Notation keeps_bind := (KeepFacts.keeps_bind zl (grown K)).
Notation keeps_ret := (KeepFacts.keeps_ret zl (grown K)).
Notation keeps_lift := (KeepFacts.keeps_lift zl (grown K)).
Notation keeps_fail := (KeepFacts.keeps_fail zl (grown K)).
Notation keeps_get := (KeepFacts.keeps_get zl (grown K)).
Notation keeps_iseq := (KeepFacts.keeps_iseq zl (grown K)).
Notation keeps_op := (KeepFacts.keeps_op zl (grown K)).

Lemma keeps_frame nv pl bi : keeps (save_frame s c nv pl bi).
Proof. apply keeps_bind; [apply keeps_lift|]. intros x. apply keeps_save. Qed.
Lemma keeps_loop phys k : forall it pl bi, keeps (run_loop s c phys k it pl bi).
Proof.
  induction k as [|k IH]; intros it pl bi; cbn [run_loop]; [apply keeps_ret|].
  apply keeps_bind; [apply keeps_lift|]. intros pl'. apply keeps_bind.
  - destruct (_ && _); [apply keeps_frame|apply keeps_ret].
  - intros bi'. destruct (s_nan _ _); [apply keeps_ret|apply IH].
Qed.
Lemma keeps_simulate st : keeps (run_simulate s c st).
Proof.
  apply keeps_bind; [apply keeps_lift|]. intros phi. apply keeps_bind; [apply keeps_lift|]. intros n.
  destruct (_ =? _)%Z; [apply keeps_fail|]. apply keeps_bind; [apply keeps_loop|]. intros bi.
  destruct (0 <? _); [apply keeps_append|apply keeps_ret].
Qed.
Lemma keeps_props : keeps (run_properties_ s c).
Proof.
  unfold run_properties_. destruct (c_props c) as [|p l] eqn:E; [apply KeepFacts.keeps_ret; typeclasses eauto|].
  apply grown_calculate. intros q Hq H. exact (H Hq).
Qed.
Lemma keeps_continue buf : keeps (run_continue s c buf).
Proof.
  unfold run_continue. destruct (c_continue c); [|apply keeps_ret]. apply keeps_bind; [apply keeps_get|]. intros fs.
  apply keeps_bind; [apply keeps_lift|]. intros [ld phys]. cbv zeta. apply keeps_bind; [apply keeps_lift|]. intros _. apply keeps_ret.
Qed.

(** a bind whose first part does nothing on an existing file *)
Lemma run_keeps pl0 : c_force c = false -> forall fs, keeps_at zl (grown K) (run s c pl0) fs.
Proof.
  intros Hf [f|]; [|intros j; exact I]. unfold run. destruct (negb (c_output c)); [apply keeps_fail|].
  intros j. unfold crash_after, trace_of.
  assert (E : run_files s c pl0 (Some f) = run_continue s c (buffer0 s c) (Some f)).
  { unfold run_files. rewrite bind_get, Hf. reflexivity. }
  rewrite (bind_cong _ _ _ (Some f) E).
  refine (keeps_at_bind zl (grown K) _ _ (Some f) _ _ _ _ j); [apply keeps_continue| |apply keeps_continue|].
  - intros [st|]; [|apply faithful_ret]. apply faithful_bind; [apply keeps_simulate|]. intros _. apply keeps_props.
  - intros [st|] _; [|apply keeps_ret]. apply keeps_bind; [apply keeps_simulate|]. intros _. apply keeps_props.
Qed.

Lemma keeps_loop2 phys : forall fuel t0 it used cur pl bi, keeps (run2_loop s c phys fuel t0 it used cur pl bi).
Proof.
  induction fuel as [|fuel IH]; intros t0 it used cur pl bi; cbn [run2_loop]; destruct (nltb _ _); try apply keeps_ret; try apply keeps_fail.
  apply keeps_bind; [apply keeps_lift|]. intros pl'. cbv zeta. destruct (_ && _); [|apply IH].
  apply keeps_bind; [apply keeps_lift|]. intros nv. apply keeps_bind.
  - destruct (c_output c); [apply keeps_frame|apply keeps_ret].
  - intros bi'. destruct (s_nan _ _); [apply keeps_ret|apply IH].
Qed.
Lemma keeps_simulate2 fuel st : keeps (run2_simulate s c fuel st).
Proof.
  apply keeps_bind; [apply keeps_lift|]. intros phi. apply keeps_bind; [apply keeps_loop2|]. intros [cur bi].
  destruct (_ && _); [apply keeps_append|apply keeps_ret].
Qed.
Lemma run2_keeps fuel pl0 : c_force c = false -> forall fs, keeps_at zl (grown K) (run2 s c fuel pl0) fs.
Proof.
  intros Hf [f|]; [|intros j; exact I]. unfold run2. apply (keeps_at_bind zl (grown K)); [apply faithful_lift| |apply keeps_lift|].
  { intros q. destruct (_ =? _)%Z; [apply faithful_lift|]. destruct (negb _); [apply faithful_lift|].
    apply faithful_bind.
    - apply faithful_bind; [apply faithful_get|]. intros fs.
      assert (F1 : forall pl, faithful zl (run2_create s c pl)).
      { intros pl. apply faithful_bind; [apply faithful_create|]. intros _. cbv zeta. destruct (truthy _); [apply faithful_ret|].
        apply faithful_bind; [apply keeps_frame|]. intros bi. apply faithful_ret. }
      destruct fs as [f'|]; [destruct (c_force c)|]; try apply keeps_continue; (apply faithful_bind; [apply F1|intros st; apply faithful_ret]).
    - intros [st|]; [|apply faithful_ret]. apply faithful_bind; [apply keeps_simulate2|]. intros _. apply keeps_props. }
  intros q _. destruct (_ =? _)%Z; [apply keeps_fail|]. destruct (negb _); [apply keeps_fail|].
  intros j. unfold crash_after, trace_of, disk_of, ilift. cbn [fst snd].
  assert (E : run2_files s c pl0 (Some f) = run_continue s c (buffer0_2 s c) (Some f)).
  { unfold run2_files. rewrite bind_get, Hf. reflexivity. }
  rewrite (bind_cong _ _ _ (Some f) E).
  refine (keeps_at_bind zl (grown K) _ _ (Some f) _ _ _ _ j); [apply keeps_continue| |apply keeps_continue|].
  - intros [st|]; [|apply faithful_ret]. apply faithful_bind; [apply keeps_simulate2|]. intros _. apply keeps_props.
  - intros [st|] _; [|apply keeps_ret]. apply keeps_bind; [apply keeps_simulate2|]. intros _. apply keeps_props.
Qed.

(** the traces of the drivers determine the file *)
Lemma faithful_run pl0 : faithful zl (run s c pl0).
Proof.
  unfold run. destruct (negb _); [apply faithful_lift|]. apply faithful_bind.
  - apply faithful_bind; [apply faithful_get|]. intros fs.
    assert (F1 : faithful zl (run_create s c pl0)).
    { apply faithful_bind; [apply faithful_create|]. intros _. cbv zeta. destruct (truthy _); [apply faithful_ret|].
      apply faithful_bind; [apply keeps_frame|]. intros bi. apply faithful_ret. }
    destruct fs as [f'|]; [destruct (c_force c)|]; try apply keeps_continue; (apply faithful_bind; [apply F1|intros st; apply faithful_ret]).
  - intros [st|]; [|apply faithful_ret]. apply faithful_bind; [apply keeps_simulate|]. intros _. apply keeps_props.
Qed.
Lemma faithful_run2 fuel pl0 : faithful zl (run2 s c fuel pl0).
Proof.
  unfold run2. apply faithful_bind; [apply faithful_lift|]. intros q. destruct (_ =? _)%Z; [apply faithful_lift|].
  destruct (negb _); [apply faithful_lift|]. apply faithful_bind.
  - apply faithful_bind; [apply faithful_get|]. intros fs.
    assert (F1 : faithful zl (run2_create s c pl0)).
    { apply faithful_bind; [apply faithful_create|]. intros _. cbv zeta. destruct (truthy _); [apply faithful_ret|].
      apply faithful_bind; [apply keeps_frame|]. intros bi. apply faithful_ret. }
    destruct fs as [f'|]; [destruct (c_force c)|]; try apply keeps_continue; (apply faithful_bind; [apply F1|intros st; apply faithful_ret]).
  - intros [st|]; [|apply faithful_ret]. apply faithful_bind; [apply keeps_simulate2|]. intros _. apply keeps_props.
Qed.
Lemma same_props : KeepFacts.keeps zl (same K) (run_properties_ s c).
Proof.
  unfold run_properties_. destruct (c_props c) as [|p l] eqn:E.
  - apply KeepFacts.keeps_ret; typeclasses eauto.
  - apply same_calculate. intros q Hq H. exact (H Hq).
Qed.
End KeepRun.
