(** Vocabulary of the exact-cancellation theorems: binary64 numbers that agree
    up to the sign of zero, and binary64 fields that do not depend on the row.
    Independent of the model. *)
From Coq Require Import ZArith Reals SpecFloat.
From Verif Require Import SpecRound.

(** plus or minus zero *)
Definition is_zero (x : spec_float) : Prop := exists s, x = S754_zero s.

(** the same number, the same infinity or both NaN: at most the sign of a zero
    differs *)
Definition same64 (x y : spec_float) : Prop := x = y \/ (is_zero x /\ is_zero y).

(** every row of the field is the same *)
Definition rows_same (ny nx : nat) (f : nat -> nat -> spec_float) : Prop :=
  forall i i' j, (i < ny)%nat -> (i' < ny)%nat -> (j < nx)%nat -> same64 (f i j) (f i' j).

(** every column of the field is the same *)
Definition columns_same (ny nx : nat) (f : nat -> nat -> spec_float) : Prop :=
  forall i j j', (i < ny)%nat -> (j < nx)%nat -> (j' < nx)%nat -> same64 (f i j) (f i j').
