(** The datasets of a recorded file. *)
From Coq Require Import Arith ZArith Bool String List.
From Verif Require Import Num NdArray ModelIO ModelRun SpecRun.
Import ListNotations.
Local Open Scope string_scope.

(** the state at full resolution is kept when asked for or when the frames are
    down-sampled *)
Definition keeps_state {V T : Type} (c : cfg V T) : Prop := c_down c <> None \/ c_last c = true.
(** the names a run may use: the fields and their times, the requested
    properties, for run2.py their values at full resolution, and the state *)
Definition documented {V T : Type} (c : cfg V T) (full : bool) (k : string) : Prop :=
  In k ["density"; "omega"; "phi"; "time"] \/ In k (c_props c) \/
  (full = true /\ exists p, In p (c_props c) /\ k = "fullres_" ++ p) \/
  (keeps_state c /\ In k ["state_density"; "state_omega"; "state_phi"]).
