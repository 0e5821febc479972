(** Lemmas about files, traces and the buffered writer. *)
From Coq Require Import Arith ZArith Bool String List Lia.
From Verif Require Import Num NdArray ModelIO.
Import ListNotations.

(** ** Dictionaries *)
Section DictFacts.
Context {X : Type}.
Implicit Types (d : list (string * X)).

Lemma dget_dset_same d k v : dget (dset_ d k v) k = Some v.
Proof.
  induction d as [|[k' v'] d IH]; cbn [dset_].
  - cbn [dget]. now rewrite String.eqb_refl.
  - destruct (String.eqb k k') eqn:E; cbn [dget].
    + now rewrite String.eqb_refl.
    + now rewrite E.
Qed.
Lemma dget_dset_other d k k' v : k' <> k -> dget (dset_ d k v) k' = dget d k'.
Proof.
  intros H. induction d as [|[k0 v0] d IH]; cbn [dset_].
  - cbn [dget]. apply String.eqb_neq in H. now rewrite H.
  - destruct (String.eqb k k0) eqn:E; cbn [dget].
    + apply String.eqb_eq in E. subst k0. apply String.eqb_neq in H. now rewrite H.
    + destruct (String.eqb k' k0); [reflexivity|exact IH].
Qed.
Lemma dget_dset d k k' v : dget (dset_ d k v) k' = if String.eqb k' k then Some v else dget d k'.
Proof.
  destruct (String.eqb k' k) eqn:E.
  - apply String.eqb_eq in E. subst. apply dget_dset_same.
  - apply dget_dset_other. now apply String.eqb_neq.
Qed.
Lemma dget_In d k v : dget d k = Some v -> In (k, v) d.
Proof.
  induction d as [|[k' v'] d IH]; cbn [dget]; intros H; [discriminate|].
  destruct (String.eqb k k') eqn:E.
  - apply String.eqb_eq in E. injection H as ->. subst. now left.
  - right. now apply IH.
Qed.
Lemma In_dget d k v : NoDup (keys d) -> In (k, v) d -> dget d k = Some v.
Proof.
  induction d as [|[k' v'] d IH]; cbn [dget keys map fst]; intros N H; [destruct H|].
  apply NoDup_cons_iff in N. destruct N as [N1 N2].
  destruct H as [H|H].
  - injection H as -> ->. now rewrite String.eqb_refl.
  - destruct (String.eqb k k') eqn:E; [|now apply IH].
    apply String.eqb_eq in E. subst k'. exfalso. apply N1. now apply (in_map fst) in H.
Qed.
Lemma dget_None d k : dget d k = None <-> ~ In k (keys d).
Proof.
  induction d as [|[k' v'] d IH]; cbn [dget keys map fst].
  - split; auto.
  - destruct (String.eqb k k') eqn:E.
    + apply String.eqb_eq in E. subst. split; [discriminate|]. intros H. exfalso. apply H. now left.
    + apply String.eqb_neq in E. rewrite IH. split.
      * intros H [H'|H']; [now apply E|now apply H].
      * intros H H'. apply H. now right.
Qed.
Lemma dget_some_keys d k : In k (keys d) -> exists v, dget d k = Some v.
Proof.
  intros H. destruct (dget d k) eqn:E; [eauto|]. apply dget_None in E. contradiction.
Qed.
Lemma dget_ddel_other d k k' : k' <> k -> dget (ddel d k) k' = dget d k'.
Proof.
  intros H. induction d as [|[k0 v0] d IH]; cbn [ddel filter fst dget]; [reflexivity|].
  destruct (String.eqb k0 k) eqn:E; cbn [negb].
  - apply String.eqb_eq in E. subst k0. apply String.eqb_neq in H. rewrite H. exact IH.
  - cbn [dget]. destruct (String.eqb k' k0); [reflexivity|exact IH].
Qed.
Lemma dget_ddel_same d k : dget (ddel d k) k = None.
Proof.
  induction d as [|[k0 v0] d IH]; cbn [ddel filter fst dget]; [reflexivity|].
  destruct (String.eqb k0 k) eqn:E; cbn [negb]; [exact IH|].
  cbn [dget]. rewrite String.eqb_sym, E. exact IH.
Qed.
Lemma dhas_spec d k : dhas d k = true <-> exists v, dget d k = Some v.
Proof. unfold dhas. destruct (dget d k); split; try discriminate; eauto. now intros [v H]. Qed.
End DictFacts.

Section IOFacts.
Context {V T : Type}.
Variable zero_like : string -> row V T.
Variables (f32V : V -> V) (f32T : T -> T).
Notation row := (row V T). Notation h5 := (h5 V T). Notation disk := (disk V T).
Notation fop := (fop V T). Notation IO := (IO V T). Notation buffer := (buffer V T).
Notation f32 := (f32 f32V f32T).

(** ** Programs *)
Definition runs {X} (m : IO X) (fs : disk) (tr : list fop) (fs' : disk) (r : res X) : Prop :=
  m fs = ((tr, fs'), r).

Lemma runs_bind {X Y} (m : IO X) (k : X -> IO Y) fs tr fs1 x tr' fs2 r :
  runs m fs tr fs1 (Ok x) -> runs (k x) fs1 tr' fs2 r -> runs (ibind m k) fs (tr ++ tr') fs2 r.
Proof. unfold runs, ibind. intros -> ->. reflexivity. Qed.
Lemma runs_bind_exn {X Y} (m : IO X) (k : X -> IO Y) fs tr fs1 e :
  runs m fs tr fs1 (Exn e) -> runs (ibind m k) fs tr fs1 (Exn e).
Proof. unfold runs, ibind. intros ->. reflexivity. Qed.
Lemma runs_ret {X} (x : X) fs : runs (iret x) fs [] fs (Ok x).
Proof. reflexivity. Qed.
Lemma runs_lift {X} (x : res X) fs : runs (ilift x) fs [] fs x.
Proof. reflexivity. Qed.
Lemma runs_get fs : runs iget fs [] fs (Ok fs).
Proof. reflexivity. Qed.
Lemma runs_op o fs fs' : exec1 zero_like o fs = Ok fs' -> runs (iop zero_like o) fs [o] fs' (Ok tt).
Proof. unfold runs, iop. now intros ->. Qed.
Lemma runs_op_exn o fs e : exec1 zero_like o fs = Exn e -> runs (iop zero_like o) fs [] fs (Exn e).
Proof. unfold runs, iop. now intros ->. Qed.

(** a bind whose first part does nothing to the file *)
Lemma bind_ret_l {X Y} (x : X) (k : X -> IO Y) fs : ibind (iret x) k fs = k x fs.
Proof. unfold ibind, iret. destruct (k x fs) as [[tr fs'] r]. reflexivity. Qed.
Lemma bind_lift_ok {X Y} (x : X) (k : X -> IO Y) fs : ibind (ilift (Ok x)) k fs = k x fs.
Proof. exact (bind_ret_l x k fs). Qed.
Lemma bind_lift_exn {X Y} e (k : X -> IO Y) fs : ibind (ilift (Exn e)) k fs = (([], fs), Exn e).
Proof. reflexivity. Qed.
Lemma bind_get {Y} (k : disk -> IO Y) fs : ibind iget k fs = k fs fs.
Proof. unfold ibind, iget. destruct (k fs fs) as [[tr fs'] r]. reflexivity. Qed.
Lemma bind_assoc {X Y Z} (m : IO X) (k : X -> IO Y) (k' : Y -> IO Z) fs :
  ibind (ibind m k) k' fs = ibind m (fun x => ibind (k x) k') fs.
Proof.
  unfold ibind. destruct (m fs) as [[tr fs1] [x|e]]; [|reflexivity].
  destruct (k x fs1) as [[tr2 fs2] [y|e]]; [|reflexivity].
  destruct (k' y fs2) as [[tr3 fs3] r]. now rewrite app_assoc.
Qed.
Lemma bind_ext {X Y} (m : IO X) (k k' : X -> IO Y) fs :
  (forall x fs, k x fs = k' x fs) -> ibind m k fs = ibind m k' fs.
Proof.
  intros H. unfold ibind. destruct (m fs) as [[tr fs1] [x|e]]; [|reflexivity]. now rewrite H.
Qed.
Lemma bind_cong {X Y} (m m' : IO X) (k : X -> IO Y) fs : m fs = m' fs -> ibind m k fs = ibind m' k fs.
Proof. unfold ibind. now intros ->. Qed.

(** the trace determines the disk *)
Fixpoint allok (tr : list fop) (fs : disk) : Prop :=
  match tr with
  | [] => True
  | o :: tr' => exists fs', exec1 zero_like o fs = Ok fs' /\ allok tr' fs'
  end.
Lemma replay_app_ok tr tr' fs :
  allok tr fs -> replay zero_like (tr ++ tr') fs = replay zero_like tr' (replay zero_like tr fs).
Proof.
  revert fs. induction tr as [|o tr IH]; intros fs H; [reflexivity|].
  destruct H as [fs' [E H]]. cbn [app replay]. rewrite E. now apply IH.
Qed.
Lemma allok_app tr tr' fs :
  allok tr fs -> allok tr' (replay zero_like tr fs) -> allok (tr ++ tr') fs.
Proof.
  revert fs. induction tr as [|o tr IH]; intros fs H H'; [exact H'|].
  destruct H as [fs' [E H]]. cbn [app replay allok] in *. rewrite E in H'. exists fs'. split; [exact E|]. now apply IH.
Qed.
(** every program built from the operations: its trace replays to its disk *)
Definition faithful {X} (m : IO X) : Prop :=
  forall fs, allok (trace_of m fs) fs /\ replay zero_like (trace_of m fs) fs = disk_of m fs.
Lemma faithful_ret {X} (x : X) : faithful (iret x).
Proof. split; [exact I|reflexivity]. Qed.
Lemma faithful_lift {X} (x : res X) : faithful (ilift x).
Proof. split; [exact I|reflexivity]. Qed.
Lemma faithful_get : faithful iget.
Proof. split; [exact I|reflexivity]. Qed.
Lemma faithful_op o : faithful (iop zero_like o).
Proof.
  intros fs. unfold trace_of, disk_of, iop. destruct (exec1 zero_like o fs) as [fs'|e] eqn:E; cbn [fst snd allok replay].
  - rewrite E. split; [exists fs'; auto|reflexivity].
  - auto.
Qed.
Lemma faithful_bind {X Y} (m : IO X) (k : X -> IO Y) :
  faithful m -> (forall x, faithful (k x)) -> faithful (ibind m k).
Proof.
  intros Hm Hk fs. specialize (Hm fs). unfold trace_of, disk_of, ibind in *.
  destruct (m fs) as [[tr fs1] [x|e]]; cbn [fst snd] in *; [|exact Hm].
  specialize (Hk x fs1). destruct (k x fs1) as [[tr' fs2] r] eqn:E. unfold trace_of, disk_of in Hk. rewrite E in Hk.
  cbn [fst snd] in *. destruct Hm as [A1 R1], Hk as [A2 R2]. split.
  - apply allok_app; [exact A1|now rewrite R1].
  - rewrite replay_app_ok by exact A1. now rewrite R1.
Qed.
Lemma faithful_iseq l : (forall m, In m l -> faithful m) -> faithful (iseq l).
Proof.
  induction l as [|m l IH]; intros H; [apply faithful_ret|].
  cbn [iseq]. apply faithful_bind; [apply H; now left|]. intros _. apply IH. intros m' Hm'. apply H. now right.
Qed.

(** crash points of a bind *)
Lemma crash_bind_first {X Y} (m : IO X) (k : X -> IO Y) fs tr fs1 x tr' fs2 r j :
  runs m fs tr fs1 (Ok x) -> runs (k x) fs1 tr' fs2 r -> j <= length tr ->
  crash_after zero_like j (ibind m k) fs = crash_after zero_like j m fs.
Proof.
  intros H1 H2 Hj. unfold crash_after, trace_of. rewrite (runs_bind _ _ _ _ _ _ _ _ _ H1 H2), H1. cbn [fst].
  rewrite firstn_app. replace (j - length tr) with 0 by lia. cbn [firstn]. now rewrite app_nil_r.
Qed.
Lemma crash_split tr tr' fs fs1 j :
  allok tr fs -> replay zero_like tr fs = fs1 ->
  replay zero_like (firstn j (tr ++ tr')) fs =
    if j <=? length tr then replay zero_like (firstn j tr) fs else replay zero_like (firstn (j - length tr) tr') fs1.
Proof.
  intros A R. rewrite firstn_app. destruct (j <=? length tr) eqn:E.
  - apply Nat.leb_le in E. replace (j - length tr) with 0 by lia. cbn [firstn]. now rewrite app_nil_r.
  - apply Nat.leb_gt in E. rewrite firstn_all2 by lia. rewrite replay_app_ok by exact A. now rewrite R.
Qed.

(** ** Lists *)
Lemma overwrite_tail (l rows rows' : list row) : length rows = length rows' ->
  overwrite (l ++ rows') (length l) rows = l ++ rows.
Proof.
  intros H. unfold overwrite. rewrite firstn_app, Nat.sub_diag, firstn_all. cbn [firstn].
  rewrite app_nil_r, skipn_app. rewrite (skipn_all2 l) by lia.
  rewrite (skipn_all2 rows') by lia. now rewrite !app_nil_r.
Qed.
Lemma overwrite_length (l new : list row) i : i + length new <= length l -> length (overwrite l i new) = length l.
Proof. intros H. unfold overwrite. rewrite !app_length, firstn_length, skipn_length. lia. Qed.
Lemma overwrite1_firstn (l : list row) i r : i < length l -> firstn (S i) (overwrite l i [r]) = firstn i l ++ [r].
Proof.
  intros H. unfold overwrite. rewrite firstn_app.
  rewrite firstn_firstn. replace (Nat.min (S i) i) with i by lia.
  rewrite firstn_length. replace (S i - Nat.min i (length l)) with 1 by lia. reflexivity.
Qed.

(** ** append_h5 *)
Definition fset (f : h5) (k : string) (d : dataset V T) : h5 := mkH5 (dset_ (dsets f) k d) (attrs f).

Lemma exec_resize f k n l : dget (dsets f) k = Some (Rows l) ->
  exec1 zero_like (Resize k n) (Some f) = Ok (Some (fset f k (Rows (l ++ repeat (zero_like k) n)))).
Proof. intros H. cbn [exec1]. unfold on_ds, dlook. now rewrite H. Qed.
Lemma exec_tail f k n l rows : dget (dsets f) k = Some (Rows (l ++ repeat (zero_like k) n)) ->
  0 < n -> length rows = n ->
  exec1 zero_like (WriteTail k n rows) (Some f) = Ok (Some (fset f k (Rows (l ++ rows)))).
Proof.
  intros H Hn Hr. cbn [exec1]. unfold on_ds, dlook. rewrite H. cbn [bind].
  destruct (Nat.eqb_spec n 0) as [|_]; [lia|].
  rewrite app_length, repeat_length.
  replace (length l + n - n) with (length l) by lia.
  replace (length l + n - length l) with n by lia.
  rewrite Hr, Nat.eqb_refl. cbn [bind].
  rewrite overwrite_tail by (now rewrite repeat_length). reflexivity.
Qed.

Definition flush_ops (buf : buffer) (n : nat) : list fop :=
  flat_map (fun kv => [Resize (fst kv) n; WriteTail (fst kv) n (firstn n (snd kv))]) buf.
Definition grows (f f' : h5) (buf : buffer) (n : nat) : Prop :=
  attrs f' = attrs f /\
  (forall k rows l, In (k, rows) buf -> dget (dsets f) k = Some (Rows l) ->
     dget (dsets f') k = Some (Rows (l ++ firstn n rows))) /\
  (forall k, ~ In k (keys buf) -> dget (dsets f') k = dget (dsets f) k).
Definition flushable (f : h5) (buf : buffer) (n : nat) : Prop :=
  NoDup (keys buf) /\ 0 < n /\
  (forall k rows, In (k, rows) buf -> n <= length rows /\ exists l, dget (dsets f) k = Some (Rows l)).
(** a file in the middle of a flush *)
Definition torn_ds (f f' : h5) (n : nat) (k : string) (rows : list row) : Prop :=
  forall l, dget (dsets f) k = Some (Rows l) ->
    dget (dsets f') k = Some (Rows l)
    \/ dget (dsets f') k = Some (Rows (l ++ repeat (zero_like k) n))
    \/ dget (dsets f') k = Some (Rows (l ++ firstn n rows)).
Definition torn (f f' : h5) (buf : buffer) (n : nat) : Prop :=
  attrs f' = attrs f /\
  (forall k rows, In (k, rows) buf -> torn_ds f f' n k rows) /\
  (forall k, ~ In k (keys buf) -> dget (dsets f') k = dget (dsets f) k).

Lemma fset_get f k d k' : dget (dsets (fset f k d)) k' = if String.eqb k' k then Some d else dget (dsets f) k'.
Proof. apply dget_dset. Qed.

Lemma flush_entries buf n f : flushable f buf n ->
  exists f', runs (iseq (map (fun kv => ibind (iop zero_like (Resize (fst kv) n)) (fun _ =>
                       iop zero_like (WriteTail (fst kv) n (firstn n (snd kv))))) buf)) (Some f)
                  (flush_ops buf n) (Some f') (Ok tt)
  /\ grows f f' buf n
  /\ (forall j, exists g, replay zero_like (firstn j (flush_ops buf n)) (Some f) = Some g /\ torn f g buf n).
Proof.
  revert f. induction buf as [|[k rows] buf IH]; intros f [N [Hn H]].
  - exists f. split; [reflexivity|]. split.
    + split; [reflexivity|]. split; [intros k rows l []|reflexivity].
    + intros j. exists f. rewrite firstn_nil. split; [reflexivity|]. split; [reflexivity|].
      split; [intros k rows []|reflexivity].
  - apply NoDup_cons_iff in N. cbn [fst] in N. destruct N as [N1 N2].
    destruct (H k rows (or_introl eq_refl)) as [Hlen [l Hl]].
    set (f1 := fset f k (Rows (l ++ repeat (zero_like k) n))).
    set (f2 := fset f1 k (Rows (l ++ firstn n rows))).
    assert (E1 : exec1 zero_like (Resize k n) (Some f) = Ok (Some f1)) by (now apply exec_resize).
    assert (E2 : exec1 zero_like (WriteTail k n (firstn n rows)) (Some f1) = Ok (Some f2)).
    { apply exec_tail; [|exact Hn|rewrite firstn_length; lia].
      unfold f1. rewrite fset_get, String.eqb_refl. reflexivity. }
    assert (G2 : forall k', k' <> k -> dget (dsets f2) k' = dget (dsets f) k').
    { intros k' Hk. unfold f2, f1. rewrite !fset_get. apply String.eqb_neq in Hk. now rewrite Hk. }
    assert (G1 : forall k', k' <> k -> dget (dsets f1) k' = dget (dsets f) k').
    { intros k' Hk. unfold f1. rewrite !fset_get. apply String.eqb_neq in Hk. now rewrite Hk. }
    assert (NK : forall k' rows', In (k', rows') buf -> k' <> k).
    { intros k' rows' Hin ->. apply N1. now apply (in_map fst) in Hin. }
    destruct (IH f2) as [f' [R [[GA [GI GO]] C]]].
    { split; [exact N2|]. split; [exact Hn|]. intros k' rows' Hin.
      rewrite (G2 k' (NK _ _ Hin)). apply H. now right. }
    exists f'. split; [|split].
    + change (flush_ops ((k, rows) :: buf) n) with (([Resize k n] ++ [WriteTail k n (firstn n rows)]) ++ flush_ops buf n)%list.
      cbn [map iseq]. eapply runs_bind; [|exact R].
      eapply runs_bind; [apply runs_op; exact E1|apply runs_op; exact E2].
    + split; [exact GA|]. split.
      * intros k' rows' l' [Hin|Hin] Hl'.
        -- injection Hin as -> ->. rewrite GO by exact N1. unfold f2. rewrite fset_get, String.eqb_refl.
           rewrite Hl in Hl'. injection Hl' as ->. reflexivity.
        -- apply GI; [exact Hin|]. now rewrite (G2 k' (NK _ _ Hin)).
      * intros k' Hk'. cbn [keys map fst] in Hk'. rewrite GO, G2; [reflexivity| |]; intros Hc; apply Hk';
          [left; congruence|now right].
    + assert (K : forall g, (exists lr, dget (dsets g) k = Some (Rows lr) /\ (lr = l \/ lr = l ++ repeat (zero_like k) n \/ lr = l ++ firstn n rows)%list) ->
                  attrs g = attrs f ->
                  (forall k' rows', In (k', rows') buf -> torn_ds f g n k' rows') ->
                  (forall k', ~ In k' (keys buf) -> k' <> k -> dget (dsets g) k' = dget (dsets f) k') ->
                  torn f g ((k, rows) :: buf) n).
      { intros g [lr [Hg Hor]] A P Q. split; [exact A|]. split.
        - intros k' rows' [Hin|Hin]; [|now apply P].
          injection Hin as <- <-. intros l' Hl'. rewrite Hl in Hl'. injection Hl' as <-. rewrite Hg.
          destruct Hor as [ -> | [ -> | -> ] ]; auto.
        - intros k' Hk'. cbn [keys map fst] in Hk'. apply Q; intros Hc; apply Hk'; [now right|left; congruence]. }
      intros j. destruct j as [|[|j]].
      * exists f. cbn [firstn replay]. split; [reflexivity|]. apply K; [exists l; auto|reflexivity| |reflexivity].
        intros k' rows' _ l' Hl'. now left.
      * exists f1. change (firstn 1 (flush_ops ((k, rows) :: buf) n)) with [Resize k n : fop].
        cbn [replay]. rewrite E1. split; [reflexivity|]. apply K; [|reflexivity| |].
        -- unfold f1. rewrite fset_get, String.eqb_refl. eauto.
        -- intros k' rows' Hin l' Hl'. left. now rewrite (G1 k' (NK _ _ Hin)).
        -- intros k' _ Hk'. now apply G1.
      * destruct (C j) as [g [Rg [TA [TI TO]]]]. exists g.
        change (firstn (S (S j)) (flush_ops ((k, rows) :: buf) n)) with (Resize k n :: WriteTail k n (firstn n rows) :: firstn j (flush_ops buf n)).
        cbn [replay]. rewrite E1, E2. split; [exact Rg|]. apply K; [|exact TA| |].
        -- rewrite TO by exact N1. unfold f2. rewrite fset_get, String.eqb_refl. eauto.
        -- intros k' rows' Hin l' Hl'. apply (TI k' rows' Hin). now rewrite (G2 k' (NK _ _ Hin)).
        -- intros k' H1 H2. rewrite TO by exact H1. now apply G2.
Qed.

Lemma append_ok buf n f : flushable f buf n ->
  exists f', runs (append_h5 zero_like buf n) (Some f) (OpenA :: flush_ops buf n) (Some f') (Ok tt)
  /\ grows f f' buf n
  /\ (forall j, exists g, replay zero_like (firstn j (OpenA :: flush_ops buf n)) (Some f) = Some g /\ torn f g buf n).
Proof.
  intros H. destruct (flush_entries buf n f H) as [f' [R [G C]]]. exists f'. split; [|split; [exact G|]].
  - unfold append_h5. change (OpenA :: flush_ops buf n) with ([OpenA] ++ flush_ops buf n)%list.
    eapply runs_bind; [apply runs_op; reflexivity|exact R].
  - intros [|j].
    + exists f. split; [reflexivity|]. destruct (C 0) as [g [Rg Tg]]. cbn [firstn replay] in Rg. injection Rg as <-. exact Tg.
    + cbn [firstn replay exec1]. exact (C j).
Qed.

(** ** update_last_state *)
Lemma state_entries (ls : list (string * V)) f :
  NoDup (keys ls) -> (forall k, In k (keys ls) -> exists v, dget (dsets f) k = Some (Whole v)) ->
  exists f', runs (iseq (map (fun kv => iop zero_like (WriteWhole (fst kv) (snd kv))) ls)) (Some f)
                  (map (fun kv => WriteWhole (fst kv) (snd kv)) ls) (Some f') (Ok tt)
  /\ attrs f' = attrs f
  /\ (forall k v, dget ls k = Some v -> dget (dsets f') k = Some (Whole v))
  /\ (forall k, ~ In k (keys ls) -> dget (dsets f') k = dget (dsets f) k)
  /\ (forall j, exists g, replay zero_like (firstn j (map (fun kv => WriteWhole (fst kv) (snd kv)) ls)) (Some f) = Some g
        /\ attrs g = attrs f
        /\ (forall k v, dget ls k = Some v -> dget (dsets g) k = Some (Whole v) \/ dget (dsets g) k = dget (dsets f) k)
        /\ (forall k, ~ In k (keys ls) -> dget (dsets g) k = dget (dsets f) k)).
Proof.
  revert f. induction ls as [|[k v] ls IH]; intros f N H.
  - exists f. repeat split; auto.
    + intros k v H0. discriminate H0.
    + intros j. exists f. rewrite firstn_nil. repeat split; auto.
  - apply NoDup_cons_iff in N. cbn [fst] in N. destruct N as [N1 N2].
    destruct (H k (or_introl eq_refl)) as [v0 Hv0].
    set (f1 := fset f k (Whole v)).
    assert (E1 : exec1 zero_like (WriteWhole k v) (Some f) = Ok (Some f1)).
    { cbn [exec1]. unfold on_ds, dlook. now rewrite Hv0. }
    assert (G1 : forall k', k' <> k -> dget (dsets f1) k' = dget (dsets f) k').
    { intros k' Hk. unfold f1. rewrite !fset_get. apply String.eqb_neq in Hk. now rewrite Hk. }
    assert (NK : forall k', In k' (keys ls) -> k' <> k) by (intros k' Hin ->; now apply N1).
    destruct (IH f1 N2) as [f' [R [A [I1 [O C]]]]].
    { intros k' Hin. rewrite (G1 k' (NK _ Hin)). apply H. now right. }
    exists f'. split; [|split; [exact A|split; [|split]]].
    + cbn [map iseq fst snd]. change (?a :: ?b) with ([a] ++ b)%list. eapply runs_bind; [apply runs_op; exact E1|exact R].
    + intros k' v' Hd. cbn [dget] in Hd. destruct (String.eqb k' k) eqn:E.
      * apply String.eqb_eq in E. injection Hd as ->. subst k'. rewrite O by exact N1.
        unfold f1. now rewrite fset_get, String.eqb_refl.
      * now apply I1.
    + intros k' Hk'. cbn [keys map fst] in Hk'. rewrite O, G1; [reflexivity| |]; intros Hc; apply Hk'; [left; congruence|now right].
    + intros [|j].
      * exists f. cbn [firstn replay]. repeat split; auto.
      * destruct (C j) as [g [Rg [Ag [Ig Og]]]]. exists g. cbn [map firstn replay fst snd]. rewrite E1.
        split; [exact Rg|]. split; [exact Ag|]. split.
        -- intros k' v' Hd. cbn [dget] in Hd. destruct (String.eqb k' k) eqn:E.
           ++ apply String.eqb_eq in E. injection Hd as ->. subst k'. left. rewrite Og by exact N1.
              unfold f1. now rewrite fset_get, String.eqb_refl.
           ++ apply String.eqb_neq in E. destruct (Ig k' v' Hd) as [L|L]; [now left|right]. rewrite L. now apply G1.
        -- intros k' Hk'. cbn [keys map fst] in Hk'. rewrite Og, G1; [reflexivity| |]; intros Hc; apply Hk'; [left; congruence|now right].
Qed.

End IOFacts.
