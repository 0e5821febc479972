(** Decay of the deviations: words for C149. *)
From Coq Require Import List Arith ZArith Reals.
From Verif Require Import Num NdArray Spec SpecFourier SpecHW SpecAccount.
Local Open Scope R_scope.

(** the smallest non-zero value of minus the five-point Laplacian on the grid is
    at least this *)
Definition slowest (ny nx : nat) (dx : R) : R := 4 * sin (PI / INR (Nat.max ny nx)) ^ 2 / dx ^ 2.
(** energy without the part of the mean density *)
Definition dev_energy (ny nx : nat) (dx : R) (y : state) : R :=
  spec_energy ny nx dx (fun i j => fst y i j - gmean ny nx (fst y)) (snd y).
