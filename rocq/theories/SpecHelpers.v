(** What a printed table of numbers looks like. *)
From Coq Require Import Arith ZArith String List.
Import List.
From Verif Require Import ModelHelpers.
Import ListNotations.
Local Open Scope string_scope.

Section SpecTable.
Context {A : Type}.
(** the numbers of a dictionary, in order *)
Definition numbers (d : list (string * value A)) : list (string * A) :=
  flat_map (fun kv => match snd kv with VNum x => [(fst kv, x)] | _ => [] end) d.
(** no value is a text *)
Definition no_text (d : list (string * value A)) : Prop := forall k s, ~ In (k, VStr s) d.
(** name of the q-th number *)
Definition key (l : list (string * A)) (q : nat) : string := nth q (map fst l) "".
(** width of the longest name in column j of a table of i columns, filled line by line *)
Definition column_width (l : list (string * A)) (i j : nat) : nat :=
  list_max (map (fun q => if Nat.eqb (q mod i) j then String.length (key l q) else 0%nat) (seq 0 (List.length l))).
(** width of a table of i columns: name, colon, blank part and value in each column, separators between *)
Definition table_width (sp ks value_length : nat) (l : list (string * A)) (i : nat) : nat :=
  list_sum (map (fun j => column_width l i j + 1 + sp + value_length) (seq 0 i)) + (i - 1) * ks.
(** the entry of the table for one number *)
Definition entry (fmt : A -> string) (spacing : string) (value_length w : nat) (kx : string * A) : string :=
  pad_right w (fst kx ++ ":") ++ spacing ++ pad_left value_length (fmt (snd kx)).
End SpecTable.
(** the width available *)
Definition width_limit (columns : option Z) (maxl : Z) : Z := match columns with Some c => Z.min maxl c | None => maxl end.
