(** Vocabulary: two files that differ by a symmetry of the domain. *)
From Coq Require Import Arith ZArith Bool Reals String List.
From Verif Require Import Num NdArray Spec SpecHW ModelIO SpecDiag.
Import ListNotations.
Local Open Scope R_scope.

(** reflection of the x axis together with a change of sign *)
Definition fmirror (nx : nat) (f : field) : field := fun i j => - f i (pidx nx (- Z.of_nat j)).
(** the rows [l'] are the rows [l], each field moved by [T] *)
Definition rows_moved (ys xs : nat) (T : field -> field) (l l' : list (row (arr R) R)) : Prop :=
  Forall2 (fun a b => exists f : field, a = RFrame (grid ys xs f) /\ b = RFrame (grid ys xs (T f))) l l'.
(** the file [h] is the file [g] with every recorded field moved by [T]: same
    number of frames, same times, same properties [props] *)
Definition file_moved (ys xs : nat) (T : field -> field) (props : list string) (g h : h5 (arr R) R) : Prop :=
  (forall name, In name ["density"; "omega"; "phi"]%string ->
     exists l l', dget (dsets g) name = Some (Rows l) /\ dget (dsets h) name = Some (Rows l') /\ rows_moved ys xs T l l') /\
  (exists l, dget (dsets g) "time"%string = Some (Rows l) /\ dget (dsets h) "time"%string = Some (Rows l)) /\
  forall k, In k props -> exists l, dget (dsets g) k = Some (Rows l) /\ dget (dsets h) k = Some (Rows l).
(** and the stored full-resolution state *)
Definition state_moved (ny nx : nat) (T : field -> field) (g h : h5 (arr R) R) : Prop :=
  forall name, In name ["state_density"; "state_omega"; "state_phi"]%string ->
    exists f : field, dget (dsets g) name = Some (Whole (grid ny nx f)) /\ dget (dsets h) name = Some (Whole (grid ny nx (T f))).
