(** Properties of the buffered writer and of calculate_properties. *)
From Coq Require Import Arith ZArith Bool String List Lia QArith.
Import List.
From Verif Require Import Num NdArray ModelIO ModelRun SpecIO SpecRun IOFacts BufFacts PropsFacts IOProps RunWit.
Import ListNotations.
Local Close Scope Q_scope.
Local Open Scope nat_scope.
Local Open Scope string_scope.

(** C35: whatever is saved, in whatever buffer length, ends up in the file in
    order, after what was there; nothing else in the file changes (except the
    state datasets, see C37) *)
Theorem C35_nothing_lost : forall (V T : Type) (zl : string -> row V T) (f32V : V -> V) (f32T : T -> T)
  B ks sks old f buf (items : list (item V T)),
  ready B ks sks old f buf -> complete ks sks items ->
  exists f', result_of (save_and_flush zl f32V f32T B items (buf, 0)) (Some f) = Ok tt
    /\ disk_of (save_and_flush zl f32V f32T B items (buf, 0)) (Some f) = Some f'
    /\ attrs f' = attrs f
    /\ (forall k, In k ks -> dget (dsets f') k = Some (Rows (old k ++ column zl f32V f32T k items)))
    /\ (forall k, ~ In k ks -> ~ In k sks -> dget (dsets f') k = dget (dsets f) k).
Proof. exact @c35_nothing_lost. Qed.
Print Assumptions C35_nothing_lost.

Theorem C35_index_in_range : forall (V T : Type) (zl : string -> row V T) (f32V : V -> V) (f32T : T -> T)
  B ks sks old f buf (items : list (item V T)),
  ready B ks sks old f buf -> complete ks sks items ->
  exists buf' idx, result_of (save_all zl f32V f32T B items (buf, 0)) (Some f) = Ok (buf', idx)
    /\ idx < B /\ idx = length items mod B.
Proof. exact @c35_index. Qed.
Print Assumptions C35_index_in_range.

(** C36: stopped after the k-th save (before the final flush), the file holds
    the first B * floor(k / B) items in every dataset; fewer than B are lost *)
Theorem C36_stop_between_saves : forall (V T : Type) (zl : string -> row V T) (f32V : V -> V) (f32T : T -> T)
  B ks sks old f buf (items : list (item V T)) k,
  ready B ks sks old f buf -> complete ks sks items -> k <= length items ->
  exists f', disk_of (save_all zl f32V f32T B (firstn k items) (buf, 0)) (Some f) = Some f'
    /\ (forall d, In d ks -> dget (dsets f') d = Some (Rows (old d ++ firstn (B * (k / B)) (column zl f32V f32T d items))))
    /\ k - B * (k / B) < B.
Proof. exact @c36_between. Qed.
Print Assumptions C36_stop_between_saves.

(** stopped after any single file operation: every dataset holds a whole
    number of buffers, apart from the one flush in progress, whose rows are
    missing, zero or written, dataset by dataset *)
Theorem C36_stop_anywhere : forall (V T : Type) (zl : string -> row V T) (f32V : V -> V) (f32T : T -> T)
  B ks sks old f buf (items : list (item V T)) j,
  ready B ks sks old f buf -> complete ks sks items ->
  exists g a b,
    crash_after zl j (save_and_flush zl f32V f32T B items (buf, 0)) (Some f) = Some g
    /\ (exists q, a = B * q) /\ a <= b /\ b <= a + B /\ b <= length items
    /\ between zl f32V f32T ks sks old f g items a b.
Proof. exact @c36_anywhere. Qed.
Print Assumptions C36_stop_anywhere.

(** so the datasets need not have equal lengths after a crash *)
Theorem C36_unequal_lengths_refuted : exists (f : h5 Z Q) buf items j g,
  ready 2 ["density"; "time"] [] (fun _ => []) f buf /\ complete ["density"; "time"] [] items /\
  crash_after (fun _ => RNum 0%Q) j (save_and_flush (fun _ => RNum 0%Q) (fun v => v) (fun t => t) 2 items (buf, 0)) (Some f) = Some g /\
  len (dget (dsets g) "density") = Some 2 /\ len (dget (dsets g) "time") = Some 0.
Proof. exact c36_unequal. Qed.
Print Assumptions C36_unequal_lengths_refuted.

(** C37: the stored state is that of the last item that filled the buffer ... *)
Theorem C37_stored_state : forall (V T : Type) (zl : string -> row V T) (f32V : V -> V) (f32T : T -> T)
  B ks sks old f buf (items : list (item V T)),
  ready B ks sks old f buf -> complete ks sks items -> forall k, In k sks ->
  let m := B * (length items / B) in
  get (disk_of (save_and_flush zl f32V f32T B items (buf, 0)) (Some f)) k =
    if Nat.eqb m 0 then dget (dsets f) k
    else match nth_error items (m - 1) with
         | Some it => match dget (snd it) k with Some v => Some (Whole v) | None => None end
         | None => None
         end.
Proof. exact @c37_stored. Qed.
Print Assumptions C37_stored_state.

(** ... so it is the state of the last item when B divides their number *)
Theorem C37_current_when_divisible : forall (V T : Type) (zl : string -> row V T) (f32V : V -> V) (f32T : T -> T)
  B ks sks old f buf (items : list (item V T)) it,
  ready B ks sks old f buf -> complete ks sks (items ++ [it]) -> length (items ++ [it]) mod B = 0 ->
  forall k, In k sks -> exists v, dget (snd it) k = Some v /\
  get (disk_of (save_and_flush zl f32V f32T B (items ++ [it]) (buf, 0)) (Some f)) k = Some (Whole v).
Proof. exact @c37_current. Qed.
Print Assumptions C37_current_when_divisible.

(** non-vacuity of the hypotheses: a file, a buffer of two rows, three items *)
Example C35_example :
  let f := mkH5 [("density", Rows [RFrame 4%Z]); ("time", Rows [RNum 0%Q]); ("state_density", Whole 4%Z)] [("dt", AT 1%Q)] in
  let buf := [("density", [RFrame 0%Z; RFrame 0%Z]); ("time", [RNum 0%Q; RNum 0%Q])] in
  let items := map (fun i => ([("density", RFrame i); ("time", RNum (inject_Z i))], [("state_density", (10 * i)%Z)])) [5; 6; 7]%Z in
  ready 2 ["density"; "time"] ["state_density"] (fun k => if String.eqb k "density" then [RFrame 4%Z] else [RNum 0%Q]) f buf
  /\ complete ["density"; "time"] ["state_density"] items
  /\ disk_of (save_and_flush (fun _ => RNum 0%Q) (fun v => v) (fun t => t) 2 items (buf, 0)) (Some f)
     = Some (mkH5 [("density", Rows [RFrame 4; RFrame 5; RFrame 6; RFrame 7]%Z); ("time", Rows [RNum 0; RNum 5; RNum 6; RNum 7]%Q); ("state_density", Whole 60%Z)] [("dt", AT 1%Q)]).
Proof. exact c35_example. Qed.

(** C43: calculate_properties stores the values on the single frames for every
    selected property, for every batch size; without force_recompute existing
    datasets stay *)
Theorem C43_values : forall (V T : Type) (zl : string -> row V T) (f32V : V -> V) (f32T : T -> T) (P : row V T -> Prop)
  (table : list (string * attr T) -> prop_table V T) tbl b plist force f n p o aa,
  1 <= b -> NoDup plist -> (forall k, In k plist -> ~ In k ["density"; "phi"; "omega"]) ->
  pick (attrs f) ["k0"; "x_save"; "c1"; "frame_dt"] = Ok aa ->
  dget (dsets f) "density" = Some (Rows n) -> dget (dsets f) "phi" = Some (Rows p) -> dget (dsets f) "omega" = Some (Rows o) ->
  length n = length p -> length p = length o -> Forall P n -> Forall P p -> Forall P o ->
  computes P plist (table (attrs f)) tbl -> NoDup (keys tbl) ->
  exists g, result_of (calculate_properties zl f32V f32T table b plist force) (Some f) = Ok tt
    /\ disk_of (calculate_properties zl f32V f32T table b plist force) (Some f) = Some g
    /\ attrs g = attrs f
    /\ forall k, dget (dsets g) k = if existsb (String.eqb k) plist && (force || negb (dhas (dsets f) k))
                 then Some (Rows (prop_rows zl f32V f32T tbl n p o k)) else dget (dsets f) k.
Proof. exact @c43_values. Qed.
Print Assumptions C43_values.

Theorem C43_batch_size_irrelevant : forall (V T : Type) (zl : string -> row V T) (f32V : V -> V) (f32T : T -> T) (P : row V T -> Prop)
  (table : list (string * attr T) -> prop_table V T) tbl b b' plist force f n p o aa,
  1 <= b -> 1 <= b' -> NoDup plist -> (forall k, In k plist -> ~ In k ["density"; "phi"; "omega"]) ->
  pick (attrs f) ["k0"; "x_save"; "c1"; "frame_dt"] = Ok aa ->
  dget (dsets f) "density" = Some (Rows n) -> dget (dsets f) "phi" = Some (Rows p) -> dget (dsets f) "omega" = Some (Rows o) ->
  length n = length p -> length p = length o -> Forall P n -> Forall P p -> Forall P o ->
  computes P plist (table (attrs f)) tbl -> NoDup (keys tbl) -> forall k,
  get (disk_of (calculate_properties zl f32V f32T table b plist force) (Some f)) k =
  get (disk_of (calculate_properties zl f32V f32T table b' plist force) (Some f)) k.
Proof. exact @c43_batch. Qed.
Print Assumptions C43_batch_size_irrelevant.

Example C43_example : forall b, 1 <= b ->
  let f := mkH5 [("density", Rows [RFrame 4; RFrame 5; RFrame 6]%Z); ("phi", Rows [RFrame 1; RFrame 2; RFrame 3]%Z);
                 ("omega", Rows [RFrame 1; RFrame 2; RFrame 3]%Z)]
                [("k0", AT 1%Q); ("x_save", AZ 4); ("c1", AT 1%Q); ("frame_dt", AT 1%Q)] in
  get (disk_of (calculate_properties (fun _ => RNum 0%Q) (fun v => v) (fun t => t)
         (fun _ => [("gamma_n", fun n p o => Ok (zip3 (toy_value TimeQ) n p o))]) b ["gamma_n"] true) (Some f)) "gamma_n"
  = times [4; 10; 18]%Q.
Proof. exact c43_example. Qed.
