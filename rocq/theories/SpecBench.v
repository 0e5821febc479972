(** Vocabulary for C113. *)
From Coq Require Import Arith Reals String List.
From Verif Require Import Num NdArray.
Local Open Scope R_scope.

(** what the set-up functions of the benchmark produce for size n: two square
    arrays with entries in [0, 1/1000) (performance_comparison.py:8-12; the
    default scale is always used) *)
Definition small_field (f : nat -> nat -> R) : Prop := forall i j, 0 <= f i j < 1 / 1000.
Definition set_up (n : nat) (x : arr R * arr R) : Prop :=
  exists f g, x = (grid n n f, grid n n g) /\ small_field f /\ small_field g.
(** agreement up to 1e-8 + 1e-5 |reference| *)
Definition agree_within (n : nat) (f g : nat -> nat -> R) : Prop :=
  forall i j, (i < n)%nat -> (j < n)%nat -> Rabs (f i j - g i j) <= / 10 ^ 8 + / 10 ^ 5 * Rabs (g i j).
