(** Files that cannot be continued. *)
From Coq Require Import Arith ZArith Bool String List.
From Verif Require Import Num NdArray ModelIO ModelRun.
Import ListNotations.
Local Open Scope string_scope.

Section SpecCheck.
Context {V T : Type} {TN : TimeNum T}.
Variable s : sim V T.
(** the value with which a field is continued: its state dataset, or its last
    row when there is none *)
Definition continued (f : h5 V T) (k : string) (v : V) : Prop :=
  dget (dsets f) ("state_" ++ k) = Some (Whole v) \/
  (dget (dsets f) ("state_" ++ k) = None /\ exists l, dget (dsets f) k = Some (Rows (l ++ [RFrame v]))).
(** NaN in a field or in the time, or density or vorticity zero everywhere *)
Definition broken (f : h5 V T) : Prop :=
  (exists k v, In k ["density"; "omega"; "phi"] /\ continued f k v /\ s_nan s v = true) \/
  (exists k v, In k ["density"; "omega"] /\ continued f k v /\ s_zero s v = true) \/
  (exists l t, dget (dsets f) "time" = Some (Rows (l ++ [RNum t])) /\ s_nanT s t = true).
End SpecCheck.
