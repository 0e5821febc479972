(** Vocabulary of the rounding-error theorems: the real number a binary64 value
    stands for, finiteness, and the two constants of the format.  Independent
    of the model. *)
From Coq Require Import ZArith Reals SpecFloat Bool.
From Verif Require Import SpecHW.
Local Open Scope R_scope.

(** 2 to an integer power, as a real *)
Definition two (e : Z) : R := powerRZ 2 e.

(** the real value of a binary64 number: (-1)^s m 2^e *)
Definition fval (x : spec_float) : R :=
  match x with
  | S754_finite s m e => (if s then - IZR (Zpos m) else IZR (Zpos m)) * two e
  | _ => 0
  end.

(** a number of the format (53-bit significand, exponents of binary64) that is
    neither infinite nor a NaN *)
Definition finite64 (x : spec_float) : Prop :=
  valid_binary 53 1024 x = true /\
  match x with S754_zero _ | S754_finite _ _ _ => True | _ => False end.

(** half a unit in the last place of 1, and half the smallest subnormal *)
Definition uro : R := / 2 ^ 53.
Definition eta : R := / 2 ^ 1075.

(** [x] is finite and within [e] of the real number [r] *)
Definition near (x : spec_float) (r e : R) : Prop := finite64 x /\ Rabs (fval x - r) <= e.

(** all values of a field are finite and bounded by [B] *)
Definition bounded64 (ny nx : nat) (B : R) (f : nat -> nat -> spec_float) : Prop :=
  forall i j, (i < ny)%nat -> (j < nx)%nat -> finite64 (f i j) /\ Rabs (fval (f i j)) <= B.

(** far from overflow and underflow *)
Definition scale64 (B : R) : Prop := / 2 ^ 200 <= B <= 2 ^ 200.

(** the real field a binary64 field stands for *)
Definition values (f : nat -> nat -> spec_float) : nat -> nat -> R := fun i j => fval (f i j).

(** sizes of the terms of the two time derivatives when |phi| <= P, |n| <= B,
    |omega| <= O *)
Definition size_c (p : par) (P B : R) : R := Rabs (pc1 p) * ((if pzon p then 2 else 1) * (P + B)).
Definition size_n (p : par) (h P B : R) : R :=
  size_c p P B + Rabs (ppb p) * (2 * (P * B) / h ^ 2) + Rabs (pkap p) * (P / h) + Rabs (pnu p) * ((8.01 / h ^ 2) ^ pN p * B).
Definition size_o (p : par) (h P B O : R) : R :=
  size_c p P B + Rabs (ppb p) * (2 * (P * O) / h ^ 2) + Rabs (pnu p) * ((8.01 / h ^ 2) ^ pN p * O).
(** number of rounding errors charged to the sum of the sizes *)
Definition roundings (p : par) (ny : nat) : R := 6 * INR (pN p) + 16 + (if pzon p then INR ny else 0).
