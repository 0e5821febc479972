(** What a recording is: words for the properties of files and of the writer. *)
From Coq Require Import Arith ZArith Bool String List Lia.
From Verif Require Import Num NdArray ModelIO.
Import ListNotations.

Section SpecIO.
Context {V T : Type}.
Variable zero_like : string -> row V T.
Variables (f32V : V -> V) (f32T : T -> T).

(** one saved item: the values of the frame, and the full state (or nothing) *)
Definition item := (list (string * row V T) * list (string * V))%type.

(** the float32 column of dataset [k] over the saved items *)
Definition stored (it : item) (k : string) : row V T :=
  match dget (fst it) k with
  | Some (RFrame v) => RFrame (f32V v)
  | Some (RNum t) => RNum (f32T t)
  | None => zero_like k
  end.
Definition column (k : string) (items : list item) : list (row V T) := map (fun it => stored it k) items.

(** the way the drivers use the writer: save the items one after another, then
    flush what is left (run.py:265-291) *)
Fixpoint save_all (B : nat) (items : list item) (bi : buffer V T * nat) : IO V T (buffer V T * nat) :=
  match items with
  | [] => iret bi
  | it :: l => ibind (save_to_buffered_h5 zero_like f32V f32T (fst bi) B (snd bi) (fst it) (snd it)) (save_all B l)
  end.
Definition save_and_flush (B : nat) (items : list item) (bi : buffer V T * nat) : IO V T unit :=
  ibind (save_all B items bi) (fun bi =>
  if 0 <? snd bi then append_h5 zero_like (fst bi) (snd bi) else iret tt).

(** a file and an empty buffer of [B] rows that fit together: the buffer's
    datasets [ks] are in the file with rows [old], the state datasets [sks] too *)
Record ready (B : nat) (ks sks : list string) (old : string -> list (row V T)) (f : h5 V T) (buf : buffer V T) : Prop := {
  rd_B : 1 <= B;
  rd_keys : keys buf = ks;
  rd_nodup : NoDup ks;
  rd_len : forall k rows, In (k, rows) buf -> length rows = B;
  rd_rows : forall k, In k ks -> dget (dsets f) k = Some (Rows (old k));
  rd_snodup : NoDup sks;
  rd_state : forall k, In k sks -> exists v, dget (dsets f) k = Some (Whole v) }.
(** the items carry a value for every dataset and for every state dataset *)
Definition complete (ks sks : list string) (items : list item) : Prop :=
  Forall (fun it => (forall k, In k ks -> exists r, dget (fst it) k = Some r) /\ keys (snd it) = sks) items.

(** the state stored after [m] frames were flushed: the one of frame m-1, or
    what was there before *)
Definition state_after (f0 : h5 V T) (items : list item) (m : nat) (k : string) : option (dataset V T) :=
  match m with
  | 0 => dget (dsets f0) k
  | S m' => match nth_error items m' with
            | Some it => match dget (snd it) k with Some v => Some (Whole v) | None => None end
            | None => None
            end
  end.

(** the file [g] holds exactly the first [a] items (after what was there), and
    the state of item [a-1] *)
Definition holds (ks sks : list string) (old : string -> list (row V T)) (f0 g : h5 V T) (items : list item) (a st : nat) : Prop :=
  attrs g = attrs f0 /\
  (forall k, In k ks -> dget (dsets g) k = Some (Rows (old k ++ firstn a (column k items)))) /\
  (forall k, In k sks -> dget (dsets g) k = state_after f0 items st k) /\
  (forall k, ~ In k ks -> ~ In k sks -> dget (dsets g) k = dget (dsets f0) k).

(** the file in the middle of writing items a..b-1: each dataset on its own
    holds the first [a], the first [a] and b-a empty rows, or the first [b] *)
Definition between (ks sks : list string) (old : string -> list (row V T)) (f0 g : h5 V T) (items : list item) (a b : nat) : Prop :=
  attrs g = attrs f0 /\
  (forall k, In k ks ->
     dget (dsets g) k = Some (Rows (old k ++ firstn a (column k items)))
     \/ dget (dsets g) k = Some (Rows (old k ++ firstn a (column k items) ++ repeat (zero_like k) (b - a)))
     \/ dget (dsets g) k = Some (Rows (old k ++ firstn b (column k items)))) /\
  (forall k, In k sks -> dget (dsets g) k = state_after f0 items a k \/ dget (dsets g) k = state_after f0 items b k) /\
  (forall k, ~ In k ks -> ~ In k sks -> dget (dsets g) k = dget (dsets f0) k).
End SpecIO.
Arguments item V T : clear implicits.

(** ** Properties of every frame *)
Fixpoint zip3 {X Y : Type} (h : X -> X -> X -> Y) (n p o : list X) : list Y :=
  match n, p, o with
  | a :: n', b :: p', c :: o' => h a b c :: zip3 h n' p' o'
  | _, _, _ => []
  end.
(** the property is computed frame by frame: on any stack of frames with
    property [P] it gives the list of the values on the single frames *)
Definition framewise {V T} (P : row V T -> Prop) (F : list (row V T) -> list (row V T) -> list (row V T) -> res (list (row V T)))
    (h : row V T -> row V T -> row V T -> row V T) : Prop :=
  forall n p o, length n = length p -> length p = length o -> Forall P n -> Forall P p -> Forall P o ->
  F n p o = Ok (zip3 h n p o).
(** [tbl] lists what the entries of [table] compute on single frames, at least
    for the names in [sel] *)
Definition computes {V T} (P : row V T -> Prop) (sel : list string) (table : prop_table V T)
    (tbl : list (string * (row V T -> row V T -> row V T -> row V T))) : Prop :=
  Forall2 (fun e e' => fst e = fst e' /\ (In (fst e) sel -> framewise P (snd e) (snd e'))) table tbl.

(** what a property dataset holds: the values on the frames, as float32; a name
    that is not in the table keeps the zeros it was created with *)
Definition prop_rows {V T} (zl : string -> row V T) (f32V : V -> V) (f32T : T -> T)
    (tbl : list (string * (row V T -> row V T -> row V T -> row V T))) (n p o : list (row V T)) (k : string) : list (row V T) :=
  match dget tbl k with
  | Some h => map (f32 f32V f32T) (zip3 h n p o)
  | None => repeat (zl k) (length n)
  end.

(** the file [fs'] still has everything recorded in [fs]: every dataset of rows
    named in [K] is the old one with possibly more rows, the attributes are the
    same (nothing is asked if there was no file) *)
Definition grown {V T} (K : string -> Prop) (fs fs' : disk V T) : Prop :=
  match fs, fs' with
  | None, _ => True
  | Some _, None => False
  | Some f, Some f' => attrs f' = attrs f /\
      forall k l, K k -> dget (dsets f) k = Some (Rows l) -> exists l', dget (dsets f') k = Some (Rows (l ++ l'))
  end.
