(** Which cells a value can depend on. *)
From Coq Require Import ZArith.
From Verif Require Import Spec.
Local Open Scope Z_scope.
(** (i', j') is at most r cells away from (i, j), counted along the axes and
    across the edges of the periodic domain *)
Definition near (ny nx : nat) (r : Z) (i j i' j' : nat) : Prop :=
  exists a b, Z.abs a + Z.abs b <= r /\ i' = sh ny i a /\ j' = sh nx j b.
(** one of the eight cells around (i, j) *)
Definition around (ny nx : nat) (i j i' j' : nat) : Prop :=
  exists a b, -1 <= a <= 1 /\ -1 <= b <= 1 /\ (a <> 0 \/ b <> 0) /\ i' = sh ny i a /\ j' = sh nx j b.
(** the two values in i-direction (axis 0) or j-direction (axis 1) *)
Definition beside (ny nx : nat) (axis : Z) (i j i' j' : nat) : Prop :=
  exists a, (a = 1 \/ a = -1) /\ (axis = 0 /\ i' = sh ny i a /\ j' = j \/ axis = 1 /\ i' = i /\ j' = sh nx j a).
