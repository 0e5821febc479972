(** Vocabulary for down-sampling: sums over multi-indices, trigonometric
    polynomials. *)
From Coq Require Import List Arith ZArith Reals.
From Verif Require Import Num NdArray Spec.
Import ListNotations.
Local Open Scope R_scope.

(** sum and mean of [f] over all index lists below the sizes [s] *)
Fixpoint isum (s : list nat) (f : list nat -> R) : R :=
  match s with [] => f [] | d :: s' => rsum d (fun i => isum s' (fun ix => f (i :: ix))) end.
Definition imean (s : list nat) (f : list nat -> R) : R := isum s f / INR (fold_right Nat.mul 1%nat s).

(** number of multiples of s below n *)
Definition ceil_div (n s : nat) : nat := ((n + (s - 1)) / s)%nat.

(** trigonometric polynomial of degree at most K and period 1 *)
Definition trig (K : nat) (a b : nat -> R) (x : R) : R :=
  rsum (K + 1) (fun k => a k * cos (2 * PI * INR k * x) + b k * sin (2 * PI * INR k * x)).
(** sums of products of such polynomials in y and x *)
Definition trig2 (M Ky Kx : nat) (a b c d : nat -> nat -> R) (y x : R) : R :=
  rsum M (fun m => trig Ky (a m) (b m) y * trig Kx (c m) (d m) x).

(** nearest integer, ties to the even one *)
Definition nearest_even (z : Z) (x : R) : Prop :=
  Rabs (x - IZR z) < 1 / 2 \/ (Rabs (x - IZR z) = 1 / 2 /\ Z.even z = true).

(** a frame that samples a trigonometric polynomial *)
Definition samples (M Ky Kx : nat) (a b c d : nat -> nat -> R) (ny nx : nat) (i j : nat) : R :=
  trig2 M Ky Kx a b c d (INR i / INR ny) (INR j / INR nx).
(** a square frame that samples such a polynomial *)
Definition band (K : nat) (n : nat) (f : nat -> nat -> R) : Prop :=
  exists M a b c d, forall i j, (i < n)%nat -> (j < n)%nat -> f i j = samples M K K a b c d n n i j.
