(** Lemmas behind the statements of PropIO. *)
From Coq Require Import Arith ZArith Bool String List Lia QArith.
Import List.
From Verif Require Import Num NdArray ModelIO ModelRun SpecIO SpecRun IOFacts BufFacts PropsFacts RunWit.
Import ListNotations.
Local Close Scope Q_scope.
Local Open Scope nat_scope.
Local Open Scope string_scope.

Section W.
Context (V T : Type) (zl : string -> row V T) (f32V : V -> V) (f32T : T -> T).
Notation column := (column zl f32V f32T).

Lemma column_length k items : length (column k items) = length items.
Proof. apply map_length. Qed.

Lemma c35_nothing_lost B ks sks old f buf (items : list (item V T)) :
  ready B ks sks old f buf -> complete ks sks items ->
  exists f', result_of (save_and_flush zl f32V f32T B items (buf, 0)) (Some f) = Ok tt
    /\ disk_of (save_and_flush zl f32V f32T B items (buf, 0)) (Some f) = Some f'
    /\ attrs f' = attrs f
    /\ (forall k, In k ks -> dget (dsets f') k = Some (Rows (old k ++ column k items)))
    /\ (forall k, ~ In k ks -> ~ In k sks -> dget (dsets f') k = dget (dsets f) k).
Proof.
  intros R C. destruct (save_and_flush_spec zl f32V f32T B ks sks old f buf items R C) as [f' [R1 [D1 [[A [H1 [H2 H3]]] _]]]].
  exists f'. split; [exact R1|]. split; [exact D1|]. split; [exact A|]. split; [|exact H3].
  intros k Hk. rewrite (H1 k Hk). rewrite firstn_all2; [reflexivity|]. rewrite column_length. lia.
Qed.
Lemma c35_index B ks sks old f buf (items : list (item V T)) :
  ready B ks sks old f buf -> complete ks sks items ->
  exists buf' idx, result_of (save_all zl f32V f32T B items (buf, 0)) (Some f) = Ok (buf', idx)
    /\ idx < B /\ idx = length items mod B.
Proof.
  intros R C. destruct (save_all_spec zl f32V f32T B ks sks old f buf items R C) as [f' [buf' [idx [R1 [D1 [E [L H]]]]]]].
  exists buf', idx. auto.
Qed.
Lemma complete_firstn ks sks (items : list (item V T)) k : complete ks sks items -> complete ks sks (firstn k items).
Proof.
  intros C. unfold complete in *. rewrite Forall_forall in *. intros x Hx. apply C. rewrite <- (firstn_skipn k items). apply in_app_iff. now left.
Qed.
Lemma c36_between B ks sks old f buf (items : list (item V T)) k :
  ready B ks sks old f buf -> complete ks sks items -> k <= length items ->
  exists f', disk_of (save_all zl f32V f32T B (firstn k items) (buf, 0)) (Some f) = Some f'
    /\ (forall d, In d ks -> dget (dsets f') d = Some (Rows (old d ++ firstn (B * (k / B)) (column d items))))
    /\ k - B * (k / B) < B.
Proof.
  intros R C Hk. destruct (save_all_spec zl f32V f32T B ks sks old f buf (firstn k items) R (complete_firstn _ _ _ k C)) as [f' [buf' [idx [R1 [D1 [E [L [A [H1 H2]]]]]]]]].
  assert (Lk : length (firstn k items) = k) by (rewrite firstn_length; lia). rewrite Lk in *.
  assert (HB : 1 <= B) by (destruct R; assumption).
  assert (Q : B * (k / B) <= k) by (apply Nat.mul_div_le; lia).
  exists f'. split; [exact D1|]. split.
  - intros d Hd. rewrite (H1 d Hd). f_equal. f_equal. f_equal. unfold SpecIO.column. rewrite <- firstn_map, firstn_firstn. f_equal. lia.
  - pose proof (Nat.div_mod k B ltac:(lia)). pose proof (Nat.mod_upper_bound k B ltac:(lia)). lia.
Qed.
Lemma c36_anywhere B ks sks old f buf (items : list (item V T)) j :
  ready B ks sks old f buf -> complete ks sks items ->
  exists g a b,
    crash_after zl j (save_and_flush zl f32V f32T B items (buf, 0)) (Some f) = Some g
    /\ (exists q, a = B * q) /\ a <= b /\ b <= a + B /\ b <= length items
    /\ between zl f32V f32T ks sks old f g items a b.
Proof.
  intros R C. destruct (save_and_flush_spec zl f32V f32T B ks sks old f buf items R C) as [f' [_ [_ [_ H]]]]. apply H.
Qed.
Lemma c37_stored B ks sks old f buf (items : list (item V T)) :
  ready B ks sks old f buf -> complete ks sks items -> forall k, In k sks ->
  let m := B * (length items / B) in
  get (disk_of (save_and_flush zl f32V f32T B items (buf, 0)) (Some f)) k =
    if Nat.eqb m 0 then dget (dsets f) k
    else match nth_error items (m - 1) with
         | Some it => match dget (snd it) k with Some v => Some (Whole v) | None => None end
         | None => None
         end.
Proof.
  intros R C k Hk m. destruct (save_and_flush_spec zl f32V f32T B ks sks old f buf items R C) as [f' [_ [D1 [[_ [_ [H2 _]]] _]]]].
  rewrite D1. cbn [get]. rewrite (H2 k Hk). fold m. destruct m as [|m']; [reflexivity|]. cbn [state_after Nat.eqb]. now rewrite Nat.sub_succ, Nat.sub_0_r.
Qed.
Lemma c37_current B ks sks old f buf (items : list (item V T)) it :
  ready B ks sks old f buf -> complete ks sks (items ++ [it]) -> length (items ++ [it]) mod B = 0 ->
  forall k, In k sks -> exists v, dget (snd it) k = Some v /\
  get (disk_of (save_and_flush zl f32V f32T B (items ++ [it]) (buf, 0)) (Some f)) k = Some (Whole v).
Proof.
  intros R C M k Hk. assert (HB : 1 <= B) by (destruct R; assumption).
  assert (Hv : exists v, dget (snd it) k = Some v).
  { unfold complete in C. rewrite Forall_forall in C. destruct (C it) as [_ K]; [apply in_app_iff; right; now left|]. rewrite <- K in Hk. now apply dget_some_keys. }
  destruct Hv as [v Hv]. exists v. split; [exact Hv|]. rewrite (c37_stored B ks sks old f buf _ R C k Hk).
  pose proof (Nat.div_mod (length (items ++ [it])) B ltac:(lia)) as D. rewrite M, Nat.add_0_r in D. rewrite <- D.
  rewrite app_length. cbn [length]. replace (length items + 1 - 1) with (length items) by lia.
  destruct (Nat.eqb_spec (length items + 1) 0) as [|_]; [lia|]. rewrite nth_error_app2, Nat.sub_diag by lia. cbn [nth_error]. now rewrite Hv.
Qed.

Lemma c43_values (P : row V T -> Prop) (table : list (string * attr T) -> prop_table V T) tbl b plist force f n p o aa :
  1 <= b -> NoDup plist -> (forall k, In k plist -> ~ In k ["density"; "phi"; "omega"]) ->
  pick (attrs f) ["k0"; "x_save"; "c1"; "frame_dt"] = Ok aa ->
  dget (dsets f) "density" = Some (Rows n) -> dget (dsets f) "phi" = Some (Rows p) -> dget (dsets f) "omega" = Some (Rows o) ->
  length n = length p -> length p = length o -> Forall P n -> Forall P p -> Forall P o ->
  computes P plist (table (attrs f)) tbl -> NoDup (keys tbl) ->
  exists g, result_of (calculate_properties zl f32V f32T table b plist force) (Some f) = Ok tt
    /\ disk_of (calculate_properties zl f32V f32T table b plist force) (Some f) = Some g
    /\ attrs g = attrs f
    /\ forall k, dget (dsets g) k = if existsb (String.eqb k) plist && (force || negb (dhas (dsets f) k))
                 then Some (Rows (prop_rows zl f32V f32T tbl n p o k)) else dget (dsets f) k.
Proof.
  intros. edestruct (calculate_ok zl f32V f32T P table tbl b plist force f n p o aa) as [tr [g [R [A G]]]]; eauto.
  exists g. unfold result_of, disk_of. rewrite R. cbn [fst snd]. auto.
Qed.
Lemma c43_batch (P : row V T -> Prop) (table : list (string * attr T) -> prop_table V T) tbl b b' plist force f n p o aa :
  1 <= b -> 1 <= b' -> NoDup plist -> (forall k, In k plist -> ~ In k ["density"; "phi"; "omega"]) ->
  pick (attrs f) ["k0"; "x_save"; "c1"; "frame_dt"] = Ok aa ->
  dget (dsets f) "density" = Some (Rows n) -> dget (dsets f) "phi" = Some (Rows p) -> dget (dsets f) "omega" = Some (Rows o) ->
  length n = length p -> length p = length o -> Forall P n -> Forall P p -> Forall P o ->
  computes P plist (table (attrs f)) tbl -> NoDup (keys tbl) -> forall k,
  get (disk_of (calculate_properties zl f32V f32T table b plist force) (Some f)) k =
  get (disk_of (calculate_properties zl f32V f32T table b' plist force) (Some f)) k.
Proof.
  intros. edestruct (c43_values P table tbl b plist force f n p o aa) as [g [_ [-> [_ G]]]]; eauto.
  edestruct (c43_values P table tbl b' plist force f n p o aa) as [g' [_ [-> [_ G']]]]; eauto. cbn [get]. now rewrite G, G'.
Qed.
End W.

Lemma ready_two (B : nat) old (f : h5 Z Q) buf sks : 1 <= B -> keys buf = ["density"; "time"] -> (forall k rows, In (k, rows) buf -> length rows = B) ->
  (forall k, In k ["density"; "time"] -> dget (dsets f) k = Some (Rows (old k))) -> NoDup sks ->
  (forall k, In k sks -> exists v, dget (dsets f) k = Some (Whole v)) -> ready B ["density"; "time"] sks old f buf.
Proof.
  intros. constructor; auto. repeat constructor; cbn; intuition discriminate.
Qed.

Lemma c36_unequal : exists (f : h5 Z Q) buf items j g,
  ready 2 ["density"; "time"] [] (fun _ => []) f buf /\ complete ["density"; "time"] [] items /\
  crash_after (fun _ => RNum 0%Q) j (save_and_flush (fun _ => RNum 0%Q) (fun v => v) (fun t => t) 2 items (buf, 0)) (Some f) = Some g /\
  len (dget (dsets g) "density") = Some 2 /\ len (dget (dsets g) "time") = Some 0.
Proof.
  exists (mkH5 [("density", Rows []); ("time", Rows [])] []),
    [("density", [RFrame 0%Z; RFrame 0%Z]); ("time", [RNum 0%Q; RNum 0%Q])],
    [([("density", RFrame 1%Z); ("time", RNum 1%Q)], []); ([("density", RFrame 2%Z); ("time", RNum 2%Q)], [])], 3.
  eexists. split; [|split; [|split; [vm_compute; reflexivity|split; reflexivity]]].
  - apply ready_two; [lia|reflexivity| | |constructor|intros k []].
    + cbn. intros k rows [E|[E|[]]]; injection E as _ <-; reflexivity.
    + cbn. intros k [<-|[<-|[]]]; reflexivity.
  - repeat constructor; cbn; intros k [<-|[<-|[]]]; eexists; reflexivity.
Qed.

Lemma c35_example :
  let f := mkH5 [("density", Rows [RFrame 4%Z]); ("time", Rows [RNum 0%Q]); ("state_density", Whole 4%Z)] [("dt", AT 1%Q)] in
  let buf := [("density", [RFrame 0%Z; RFrame 0%Z]); ("time", [RNum 0%Q; RNum 0%Q])] in
  let items := map (fun i => ([("density", RFrame i); ("time", RNum (inject_Z i))], [("state_density", (10 * i)%Z)])) [5; 6; 7]%Z in
  ready 2 ["density"; "time"] ["state_density"] (fun k => if String.eqb k "density" then [RFrame 4%Z] else [RNum 0%Q]) f buf
  /\ complete ["density"; "time"] ["state_density"] items
  /\ disk_of (save_and_flush (fun _ => RNum 0%Q) (fun v => v) (fun t => t) 2 items (buf, 0)) (Some f)
     = Some (mkH5 [("density", Rows [RFrame 4; RFrame 5; RFrame 6; RFrame 7]%Z); ("time", Rows [RNum 0; RNum 5; RNum 6; RNum 7]%Q); ("state_density", Whole 60%Z)] [("dt", AT 1%Q)]).
Proof.
  intros f buf items. split; [|split].
  - apply ready_two; [lia|reflexivity| | |repeat constructor; cbn; tauto|].
    + cbn. intros k rows [E|[E|[]]]; injection E as _ <-; reflexivity.
    + cbn. intros k [<-|[<-|[]]]; reflexivity.
    + cbn. intros k [<-|[]]. eexists; reflexivity.
  - repeat constructor; cbn; intros k [<-|[<-|[]]]; eexists; reflexivity.
  - vm_compute. reflexivity.
Qed.

Lemma c43_example : forall b, 1 <= b ->
  let f := mkH5 [("density", Rows [RFrame 4; RFrame 5; RFrame 6]%Z); ("phi", Rows [RFrame 1; RFrame 2; RFrame 3]%Z);
                 ("omega", Rows [RFrame 1; RFrame 2; RFrame 3]%Z)]
                [("k0", AT 1%Q); ("x_save", AZ 4); ("c1", AT 1%Q); ("frame_dt", AT 1%Q)] in
  get (disk_of (calculate_properties (fun _ => RNum 0%Q) (fun v => v) (fun t => t)
         (fun _ => [("gamma_n", fun n p o => Ok (zip3 (toy_value TimeQ) n p o))]) b ["gamma_n"] true) (Some f)) "gamma_n"
  = times [4; 10; 18]%Q.
Proof.
  intros b Hb f.
  destruct (c43_values Z Q (fun _ => RNum 0%Q) (fun v => v) (fun t => t) (fun _ => True)
    (fun _ => [("gamma_n", fun n p o => Ok (zip3 (toy_value TimeQ) n p o))]) [("gamma_n", toy_value TimeQ)] b ["gamma_n"] true f
    [RFrame 4; RFrame 5; RFrame 6]%Z [RFrame 1; RFrame 2; RFrame 3]%Z [RFrame 1; RFrame 2; RFrame 3]%Z
    [("k0", AT 1%Q); ("x_save", AZ 4); ("c1", AT 1%Q); ("frame_dt", AT 1%Q)]) as [g [_ [D [_ G]]]]; try reflexivity.
  - exact Hb.
  - repeat constructor; cbn; tauto.
  - cbn. intros k [<-|[]]. intuition discriminate.
  - repeat constructor.
  - repeat constructor.
  - repeat constructor.
  - constructor; [|constructor]. split; [reflexivity|]. intros _ n p o _ _ _ _ _. reflexivity.
  - repeat constructor; cbn; tauto.
  - rewrite D. cbn [get]. rewrite G. reflexivity.
Qed.
