(** Files without the attributes that later versions record. *)
From Coq Require Import List String Reals.
From Verif Require Import ModelIO.
Local Open Scope R_scope.
(** the same datasets and attributes, except for the two that only g has *)
Definition older {V} (f g : h5 V R) : Prop :=
  dsets f = dsets g /\ dget (attrs f) "adaptive_step_size"%string = None /\ dget (attrs g) "adaptive_step_size"%string = Some (AB false) /\
  dget (attrs f) "initial_time"%string = None /\ dget (attrs g) "initial_time"%string = Some (AT 0) /\
  forall k, k <> "adaptive_step_size"%string -> k <> "initial_time"%string -> dget (attrs f) k = dget (attrs g) k.
