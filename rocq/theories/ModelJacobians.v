(** The three Jacobians of phiml_arakawa.py, which nothing in the package calls.
    Source: /repo/src/hw2d/poisson_bracket/phiml_arakawa.py *)
From Coq Require Import List Arith ZArith Bool.
From Verif Require Import Num NdArray ModelArakawa.
Import ListNotations.

Section Jac.
Context {A : Type} {N : Num A}.
Local Notation "x +. y" := (nadd x y) (at level 50, left associativity).
Local Notation "x -. y" := (nsub x y) (at level 50, left associativity).
Local Notation "x *. y" := (nmul x y) (at level 40, left associativity).
Local Notation "x /. y" := (ndiv x y) (at level 40, left associativity).

(** phiml_arakawa.py:21-37 [jpp]; z and p read zeta and psi at [i, j], taken as
    the positions along the two dimensions in order (y first) *)
Definition pm_jpp (z p : nat -> nat -> A) (dx : A) (i j : nat) : A :=
  ((z (i + 1) j -. z (i - 1) j) *. (p i (j + 1) -. p i (j - 1))
   -. (z i (j + 1) -. z i (j - 1)) *. (p (i + 1) j -. p (i - 1) j)) /. four_dx2 dx.
(** phiml_arakawa.py:40-59 [jpx] *)
Definition pm_jpx (z p : nat -> nat -> A) (dx : A) (i j : nat) : A :=
  (z (i + 1) j *. (p (i + 1) (j + 1) -. p (i + 1) (j - 1))
   -. z (i - 1) j *. (p (i - 1) (j + 1) -. p (i - 1) (j - 1))
   -. z i (j + 1) *. (p (i + 1) (j + 1) -. p (i - 1) (j + 1))
   +. z i (j - 1) *. (p (i + 1) (j - 1) -. p (i - 1) (j - 1))) /. four_dx2 dx.
(** phiml_arakawa.py:62-81 [jxp] *)
Definition pm_jxp (z p : nat -> nat -> A) (dx : A) (i j : nat) : A :=
  (z (i + 1) (j + 1) *. (p i (j + 1) -. p (i + 1) j)
   -. z (i - 1) (j - 1) *. (p (i - 1) j -. p i (j - 1))
   -. z (i - 1) (j + 1) *. (p i (j + 1) -. p (i - 1) j)
   +. z (i + 1) (j - 1) *. (p (i + 1) j -. p i (j - 1))) /. four_dx2 dx.
End Jac.
