(** C106: files made and read by the helper functions of io.py. *)
From Coq Require Import Arith ZArith QArith Bool Reals String List Lia.
From Verif Require Import Num NdArray ModelIO ModelRun ModelRunHW SpecRunHW IoExtra.
Import ListNotations.
Local Close Scope Q_scope.
Local Open Scope string_scope.

(** everything asked for is there: the datasets under their names, and all
    attributes, nothing else *)
Theorem C106_load : forall (V T : Type) (f : h5 V T) l, (forall k, In k l -> exists v, dget (dsets f) k = Some v) ->
  exists d, load_h5_data (Some f) l = Ok (d, attrs f) /\
    (forall k, In k l -> dget d k = dget (dsets f) k) /\ (forall k, ~ In k l -> dget d k = None).
Proof. exact @load_ok. Qed.
(** one of them is missing; there is no file *)
Theorem C106_load_missing : forall (V T : Type) (f : h5 V T) l k, In k l -> dget (dsets f) k = None -> load_h5_data (Some f) l = Exn KeyError.
Proof. exact @load_bad. Qed.
Theorem C106_load_no_file : forall (V T : Type) l, @load_h5_data V T None l = Exn FileNotFoundError.
Proof. exact @load_none. Qed.
(** whatever was on the disk, the file has the fields, all zero, and no attribute *)
Theorem C106_create : forall (V T : Type) (zl : string -> row V T) (zeroV : V) time l fs, NoDup l ->
  exists g, disk_of (create_fixed_h5 zl zeroV time l) fs = Some g /\ result_of (create_fixed_h5 zl zeroV time l) fs = Ok tt /\ attrs g = [] /\
  forall k, dget (dsets g) k = if in_dec string_dec k l then Some (Rows (repeat (RFrame zeroV) time)) else None.
Proof. exact @fixed_ok. Qed.
(** a field named twice: ValueError, and what the file held before is gone *)
Theorem C106_create_twice : forall (V T : Type) (zl : string -> row V T) (zeroV : V) time l fs, ~ NoDup l ->
  result_of (create_fixed_h5 zl zeroV time l) fs = Exn ValueError /\
  exists g, disk_of (create_fixed_h5 zl zeroV time l) fs = Some g /\ attrs g = [] /\
  forall k d, dget (dsets g) k = Some d -> d = Rows (repeat (RFrame zeroV) time) /\ In k l.
Proof. exact @fixed_bad. Qed.
Theorem C106_create_load : forall (V T : Type) (zl : string -> row V T) (zeroV : V) time l fs, NoDup l ->
  exists d, load_h5_data (disk_of (create_fixed_h5 zl zeroV time l) fs) l = Ok (d, []) /\
  forall k, In k l -> dget d k = Some (Rows (repeat (RFrame zeroV) time)).
Proof. exact @fixed_load. Qed.
(** reading the file of a run back with the default fields gives its frames *)
Theorem C106_load_frames : forall rnd dsf ys xs frames (g : h5 (arr R) R), file_frames rnd dsf ys xs frames g ->
  let col (fld : frame -> nat -> nat -> R) := Rows (map (fun x => RFrame (grid ys xs (fun i j => rnd (dsf (fld x) i j)))) frames) in
  exists d, load_h5_data (Some g) ["density"; "omega"; "phi"] = Ok (d, attrs g) /\
    dget d "density" = Some (col f_n) /\ dget d "omega" = Some (col f_o) /\ dget d "phi" = Some (col f_p).
Proof. exact load_frames. Qed.
Print Assumptions C106_load.
Print Assumptions C106_load_missing.
Print Assumptions C106_load_no_file.
Print Assumptions C106_create.
Print Assumptions C106_create_twice.
Print Assumptions C106_create_load.
Print Assumptions C106_load_frames.

Example C106_example :
  let f : h5 Z Q := mkH5 [("density", Rows [RFrame 1%Z; RFrame 2%Z]); ("phi", Rows [RFrame 3%Z])] [("dt", AT 1%Q)] in
  load_h5_data (Some f) ["phi"; "density"; "phi"] = Ok ([("phi", Rows [RFrame 3%Z]); ("density", Rows [RFrame 1%Z; RFrame 2%Z])], [("dt", AT 1%Q)]) /\
  load_h5_data (Some f) ["phi"; "omega"] = Exn KeyError /\
  disk_of (create_fixed_h5 (fun _ => RNum 0%Q) 0%Z 2 ["phi"; "omega"; "phi"]) (Some f) =
    Some (mkH5 [("phi", Rows [RFrame 0%Z; RFrame 0%Z]); ("omega", Rows [RFrame 0%Z; RFrame 0%Z])] []).
Proof. repeat split. Qed.
