(** HDF5 output files and the buffered writer.
    Source: /repo/src/hw2d/utils/io.py, /repo/src/hw2d/utils/run_properties.py.

    A file is a dictionary of datasets plus a dictionary of attributes.  A
    dataset is either a list of rows along axis 0 (resizable; every row is one
    saved frame or one number) or one whole 2-D array (the state_* datasets).
    [V] is the type of a frame, [T] the type of a number; [f32V]/[f32T] are the
    conversions done by storing into a float32 array, and are arbitrary
    functions.  Left out: chunking, compression, dtypes other than the float32
    conversion, shapes of rows (see Downsample for those), printing.

    Every operation on the file is one step of a trace, so a run stopped by a
    crash leaves the file that results from some prefix of its trace.  That
    each single operation is atomic on disk is an assumption of the model. *)
From Coq Require Import List Arith ZArith Bool String.
From Verif Require Import Num NdArray.
Import ListNotations.
Local Open Scope string_scope.

(** ** Dictionaries *)
Section Dict.
Context {X : Type}.
Fixpoint dget (d : list (string * X)) (k : string) : option X :=
  match d with
  | [] => None
  | (k', v) :: d' => if String.eqb k k' then Some v else dget d' k
  end.
Definition dhas (d : list (string * X)) (k : string) : bool :=
  match dget d k with Some _ => true | None => false end.
Fixpoint dset_ (d : list (string * X)) (k : string) (v : X) : list (string * X) :=
  match d with
  | [] => [(k, v)]
  | (k', v') :: d' => if String.eqb k k' then (k, v) :: d' else (k', v') :: dset_ d' k v
  end.
Definition ddel (d : list (string * X)) (k : string) : list (string * X) :=
  filter (fun kv => negb (String.eqb (fst kv) k)) d.
Definition dlook (d : list (string * X)) (k : string) : res X :=
  match dget d k with Some v => Ok v | None => Exn KeyError end.
Definition keys (d : list (string * X)) : list string := map fst d.
End Dict.

Section IO.
Context {V T : Type}.

Inductive row := RFrame (v : V) | RNum (t : T).
Inductive dataset := Rows (l : list row) | Whole (v : V).
(** attribute values: a number, an integer, a flag *)
Inductive attr := AT (t : T) | AZ (z : Z) | AB (b : bool).
Record h5 := mkH5 { dsets : list (string * dataset); attrs : list (string * attr) }.
(** the path of the output file: no file, or a file *)
Definition disk := option h5.

(** ** File operations *)
Inductive fop :=
| OpenW                                   (* h5py.File(path, "w") *)
| OpenA                                   (* h5py.File(path, "a") *)
| OpenRP                                  (* h5py.File(path, "r+") *)
| CreateDs (name : string) (d : dataset)  (* hf.create_dataset *)
| DeleteDs (name : string)                (* del hf[name] *)
| SetAttr (name : string) (a : attr)      (* hf.attrs[name] = a *)
| Resize (name : string) (k : nat)        (* hf[name].resize(hf[name].shape[0] + k, axis=0) *)
| WriteTail (name : string) (k : nat) (rows : list row)  (* hf[name][-k:] = rows *)
| WriteWhole (name : string) (v : V)      (* hf[name][:] = v *)
| WriteAt (name : string) (i : nat) (b : nat) (rows : list row). (* hf[name][i:i+b] = rows *)

(** replace the entries from position i on by [new] (as many as there are) *)
Definition overwrite (l : list row) (i : nat) (new : list row) : list row :=
  (firstn i l ++ new ++ skipn (i + List.length new) l)%list.

(** numpy/h5py rows that a fresh or grown dataset holds *)
Variable zero_like : string -> row.

Definition on_ds (f : h5) (name : string) (g : dataset -> res dataset) : res disk :=
  let* d := dlook (dsets f) name in
  let* d' := g d in
  Ok (Some (mkH5 (dset_ (dsets f) name d') (attrs f))).

(** one file operation.  Assigning m rows to a selection of a different number
    of rows is a TypeError (h5py broadcasting); [-0:] selects every row. *)
Definition exec1 (o : fop) (fs : disk) : res disk :=
  match o, fs with
  | OpenW, _ => Ok (Some (mkH5 [] []))
  | OpenA, None => Ok (Some (mkH5 [] []))
  | OpenA, Some f => Ok (Some f)
  | OpenRP, None => Exn FileNotFoundError
  | OpenRP, Some f => Ok (Some f)
  | _, None => Exn FileNotFoundError
  | CreateDs name d, Some f =>
      if dhas (dsets f) name then Exn ValueError
      else Ok (Some (mkH5 (dset_ (dsets f) name d) (attrs f)))
  | DeleteDs name, Some f =>
      if dhas (dsets f) name then Ok (Some (mkH5 (ddel (dsets f) name) (attrs f)))
      else Exn KeyError
  | SetAttr name a, Some f => Ok (Some (mkH5 (dsets f) (dset_ (attrs f) name a)))
  | Resize name k, Some f => on_ds f name (fun d =>
      match d with Rows l => Ok (Rows (l ++ repeat (zero_like name) k)%list) | Whole _ => Exn TypeError end)
  | WriteTail name k rows, Some f => on_ds f name (fun d =>
      match d with
      | Rows l => let start := if (k =? 0)%nat then 0 else (List.length l - k)%nat in
                  if (List.length rows =? List.length l - start)%nat
                  then Ok (Rows (overwrite l start rows)) else Exn TypeError
      | Whole _ => Exn Unmodelled
      end)
  | WriteWhole name v, Some f => on_ds f name (fun d =>
      match d with Whole _ => Ok (Whole v) | Rows _ => Exn Unmodelled end)
  | WriteAt name i b rows, Some f => on_ds f name (fun d =>
      match d with
      | Rows l => if (List.length rows =? Nat.min (i + b) (List.length l) - i)%nat
                  then Ok (Rows (overwrite l i rows)) else Exn TypeError
      | Whole _ => Exn Unmodelled
      end)
  end.

(** ** Programs over the file: trace of operations done, resulting disk, result *)
Definition IO (X : Type) : Type := disk -> (list fop * disk) * res X.
Definition iret {X} (x : X) : IO X := fun fs => (([], fs), Ok x).
Definition ifail {X} (e : exn) : IO X := fun fs => (([], fs), Exn e).
Definition ilift {X} (r : res X) : IO X := fun fs => (([], fs), r).
Definition iget : IO disk := fun fs => (([], fs), Ok fs).
Definition iop (o : fop) : IO unit := fun fs =>
  match exec1 o fs with
  | Ok fs' => (([o], fs'), Ok tt)
  | Exn e => (([], fs), Exn e)
  end.
Definition ibind {X Y} (m : IO X) (k : X -> IO Y) : IO Y := fun fs =>
  match m fs with
  | ((tr, fs1), Ok x) => let '((tr', fs2), r) := k x fs1 in (((tr ++ tr')%list, fs2), r)
  | ((tr, fs1), Exn e) => ((tr, fs1), Exn e)
  end.
Fixpoint iseq (l : list (IO unit)) : IO unit :=
  match l with
  | [] => iret tt
  | m :: l' => ibind m (fun _ => iseq l')
  end.
Definition trace_of {X} (m : IO X) (fs : disk) : list fop := fst (fst (m fs)).
Definition disk_of {X} (m : IO X) (fs : disk) : disk := snd (fst (m fs)).
Definition result_of {X} (m : IO X) (fs : disk) : res X := snd (m fs).
(** replay a list of operations; an operation that fails leaves the disk as it is *)
Fixpoint replay (tr : list fop) (fs : disk) : disk :=
  match tr with
  | [] => fs
  | o :: tr' => match exec1 o fs with Ok fs' => replay tr' fs' | Exn _ => fs end
  end.
(** the disk found after the process died just after its j-th file operation *)
Definition crash_after {X} (j : nat) (m : IO X) (fs : disk) : disk := replay (firstn j (trace_of m fs)) fs.

Variables (f32V : V -> V) (f32T : T -> T).
Definition f32 (r : row) : row :=
  match r with RFrame v => RFrame (f32V v) | RNum t => RNum (f32T t) end.

(** ** io.py *)

(** io.py:8-29 [get_save_params]; [frame_dt] is dt * snaps, computed by the
    caller of the model *)
Definition get_save_params (params : list (string * attr)) (dt frame_dt : T) (x y x_save y_save : Z)
    (recording_start_time : T) (adaptive : bool) : list (string * attr) :=
  let p := dset_ params "dt" (AT dt) in
  let p := dset_ p "frame_dt" (AT frame_dt) in
  let p := dset_ p "x" (AZ x) in
  let p := dset_ p "y" (AZ y) in
  let p := dset_ p "x_save" (AZ x_save) in
  let p := dset_ p "y_save" (AZ y_save) in
  let p := dset_ p "grid_pts" (AZ x) in
  let p := dset_ p "initial_time" (AT recording_start_time) in
  dset_ p "adaptive_step_size" (AB adaptive).

(** io.py:32-73 [create_appendable_h5] with the default field_list; [zeroV] is
    the zero frame of a fresh state_* dataset *)
Definition create_appendable_h5 (zeroV : V) (params : list (string * attr)) (properties : list string)
    (add_last_state : bool) : IO unit :=
  ibind (iop OpenW) (fun _ =>
  ibind (iseq (map (fun n => iop (CreateDs n (Rows []))) ["density"; "omega"; "phi"])) (fun _ =>
  ibind (iseq (map (fun n => iop (CreateDs n (Rows []))) properties)) (fun _ =>
  ibind (if add_last_state
         then iseq (map (fun n => iop (CreateDs ("state_" ++ n) (Whole zeroV))) ["density"; "phi"; "omega"])
         else iret tt) (fun _ =>
  iseq (map (fun kv => iop (SetAttr (fst kv) (snd kv))) params))))).

(** the buffer: name -> the rows of a numpy array of buffer_length rows *)
Definition buffer := list (string * list row).

(** io.py:76-81 [append_h5] *)
Definition append_h5 (buf : buffer) (buffer_index : nat) : IO unit :=
  ibind (iop OpenA) (fun _ =>
  iseq (map (fun kv => ibind (iop (Resize (fst kv) buffer_index)) (fun _ =>
                       iop (WriteTail (fst kv) buffer_index (firstn buffer_index (snd kv))))) buf)).

(** io.py:84-87 [update_last_state] *)
Definition update_last_state (last_state : list (string * V)) : IO unit :=
  ibind (iop OpenRP) (fun _ => iseq (map (fun kv => iop (WriteWhole (fst kv) (snd kv))) last_state)).

(** buffer[field][i] = r: IndexError beyond the end *)
Definition buf_put (rows : list row) (i : nat) (r : row) : res (list row) :=
  if (i <? List.length rows)%nat then Ok (overwrite rows i [f32 r]) else Exn IndexError.

(** io.py:113-119: fields missing from new_val keep the old row *)
Fixpoint buf_fill (buf : buffer) (i : nat) (new_val : list (string * row)) : res buffer :=
  match buf with
  | [] => Ok []
  | (k, rows) :: b' =>
      let* rows' := (match dget new_val k with Some r => buf_put rows i r | None => Ok rows end) in
      let* b'' := buf_fill b' i new_val in
      Ok ((k, rows') :: b'')
  end.

(** io.py:90-127 [save_to_buffered_h5]; the buffer is updated in place, so the
    new buffer is returned next to the new index *)
Definition save_to_buffered_h5 (buf : buffer) (buffer_length buffer_index : nat)
    (new_val : list (string * row)) (last_state : list (string * V)) : IO (buffer * nat) :=
  ibind (ilift (buf_fill buf buffer_index new_val)) (fun buf =>
  let buffer_index := S buffer_index in
  if (buffer_index =? buffer_length)%nat then
    ibind (append_h5 buf buffer_index) (fun _ =>
    ibind (match last_state with [] => iret tt | _ => update_last_state last_state end) (fun _ =>
    iret (buf, 0)))
  else iret (buf, buffer_index)).

(** io.py:173-209 [continue_h5_file].  [zero-length] datasets raise IndexError
    on [-1]; a number where a frame is expected is outside the model. *)
Record loaded := mkLoaded { l_density : V; l_omega : V; l_phi : V; l_age : T }.

Definition last_row (d : dataset) : res row :=
  match d with
  | Rows l => match rev l with r :: _ => Ok r | [] => Exn IndexError end
  | Whole _ => Exn Unmodelled
  end.
Definition as_frame (r : row) : res V := match r with RFrame v => Ok v | RNum _ => Exn Unmodelled end.
Definition as_num (r : row) : res T := match r with RNum t => Ok t | RFrame _ => Exn Unmodelled end.

(** io.py:191-198, one field *)
Definition load_field (f : h5) (field : string) : res V :=
  let* v := (match dget (dsets f) ("state_" ++ field) with
             | Some (Whole v) => Ok v
             | Some (Rows _) => Exn Unmodelled
             | None => let* d := dlook (dsets f) field in let* r := last_row d in as_frame r
             end) in
  let* _ := dlook (dsets f) field in      (* 198: len(h5_file[field]) *)
  Ok v.

Definition physics_keys : list string := ["dx"; "N"; "c1"; "nu"; "k0"; "poisson_bracket_coeff"; "kappa_coeff"].
Fixpoint pick (d : list (string * attr)) (ks : list string) : res (list (string * attr)) :=
  match ks with
  | [] => Ok []
  | k :: ks' => let* a := dlook d k in let* r := pick d ks' in Ok ((k, a) :: r)
  end.

Definition continue_h5_file (fs : disk) : res (loaded * list (string * attr)) :=
  match fs with
  | None => Exn FileNotFoundError
  | Some f =>
      let* n := load_field f "density" in
      let* o := load_field f "omega" in
      let* p := load_field f "phi" in
      let* td := dlook (dsets f) "time" in
      let* r := last_row td in
      let* age := as_num r in
      let* phys := pick (attrs f) physics_keys in
      Ok (mkLoaded n o p age, phys)
  end.

(** io.py:152-170 [load_h5_data]; 166-167: data[field] = h5_file[field][:] *)
Fixpoint load_rows (f : h5) (field_list : list string) (data : list (string * dataset)) : res (list (string * dataset)) :=
  match field_list with
  | [] => Ok data
  | k :: ks => let* d := dlook (dsets f) k in load_rows f ks (dset_ data k d)
  end.
Definition load_h5_data (fs : disk) (field_list : list string) : res (list (string * dataset) * list (string * attr)) :=
  match fs with
  | None => Exn FileNotFoundError
  | Some f => let* d := load_rows f field_list [] in Ok (d, attrs f)
  end.

(** io.py:130-149 [create_fixed_h5]; [zeroV] is the zero frame of shape (y, x) *)
Definition create_fixed_h5 (zeroV : V) (time : nat) (field_list : list string) : IO unit :=
  ibind (iop OpenW) (fun _ =>
  iseq (map (fun n => iop (CreateDs n (Rows (repeat (RFrame zeroV) time)))) field_list)).

(** ** run_properties.py *)

(** the table run_properties.py:92-101: each entry maps the three slices to one
    number per frame *)
Definition prop_table := list (string * (list row -> list row -> list row -> res (list row))).

Definition rows_of (f : h5) (name : string) : res (list row) :=
  let* d := dlook (dsets f) name in
  match d with Rows l => Ok l | Whole _ => Exn Unmodelled end.
Definition slice_rows (l : list row) (i b : nat) : list row := firstn b (skipn i l).

(** the current file, read inside a program *)
Definition with_file {X} (k : h5 -> IO X) : IO X :=
  ibind iget (fun fs => match fs with Some f => k f | None => ifail FileNotFoundError end).

(** run_properties.py:56-64; returns the selection *)
Fixpoint prepare (property_list : list string) (steps : nat) (force_recompute : bool) : IO (list string) :=
  match property_list with
  | [] => iret []
  | name :: l =>
      ibind (with_file (fun f => if dhas (dsets f) name && force_recompute then iop (DeleteDs name) else iret tt)) (fun _ =>
      ibind (with_file (fun f => if dhas (dsets f) name then iret []
             else ibind (iop (CreateDs name (Rows (repeat (zero_like name) steps)))) (fun _ => iret [name]))) (fun sel =>
      ibind (prepare l steps force_recompute) (fun sel' => iret (sel ++ sel')%list)))
  end.

(** run_properties.py:20-25 [add_data] (storing into the float32 dataset) *)
Definition add_data (i b : nat) (selection : list string) (name : string) (data : res (list row)) : IO unit :=
  if existsb (String.eqb name) selection
  then ibind (ilift data) (fun d => iop (WriteAt name i b (map f32 d)))
  else iret tt.

(** run_properties.py:72-103: one batch *)
Definition do_batch (table : prop_table) (selection : list string) (b i : nat) : IO unit :=
  with_file (fun f =>
  ibind (ilift (rows_of f "density")) (fun n =>
  ibind (ilift (rows_of f "phi")) (fun p =>
  ibind (ilift (rows_of f "omega")) (fun o =>
  let n := slice_rows n i b in let p := slice_rows p i b in let o := slice_rows o i b in
  iseq (map (fun e => add_data i b selection (fst e) (snd e n p o)) table))))).

(** range(0, steps, batch_size); batch_size = 0 is a ValueError *)
Definition batch_starts (steps b : nat) : list nat := map (fun j => j * b)%nat (seq 0 ((steps + b - 1) / b)).

(** run_properties.py:28-105 [calculate_properties]; the attributes k0, x_save,
    c1, frame_dt it reads must exist, and determine [table] *)
Definition calculate_properties (table : list (string * attr) -> prop_table)
    (b : nat) (property_list : list string) (force_recompute : bool) : IO unit :=
  ibind (iop OpenRP) (fun _ =>
  with_file (fun f =>
  ibind (ilift (pick (attrs f) ["k0"; "x_save"; "c1"; "frame_dt"])) (fun _ =>
  ibind (ilift (rows_of f "density")) (fun n =>
  let steps := List.length n in
  ibind (prepare property_list steps force_recompute) (fun selection =>
  if (b =? 0)%nat then ifail ValueError
  else iseq (map (do_batch (table (attrs f)) selection b) (batch_starts steps b))))))).

End IO.
Arguments row V T : clear implicits.
Arguments dataset V T : clear implicits.
Arguments attr T : clear implicits.
Arguments h5 V T : clear implicits.
Arguments disk V T : clear implicits.
Arguments fop V T : clear implicits.
Arguments IO V T : clear implicits.
Arguments buffer V T : clear implicits.
Arguments loaded V T : clear implicits.
Arguments prop_table V T : clear implicits.
