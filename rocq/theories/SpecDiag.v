(** Vocabulary for the diagnostics: nothing here mentions the code. *)
From Coq Require Import List Arith ZArith Reals.
From Verif Require Import Num NdArray Spec Cplx SpecFourier.
Local Open Scope R_scope.

(** spectral y-derivative of a real field: multiply mode (k, l) by i ky,
    ky = 2 pi sfreq(k) / (ny dx), and take the real part *)
Definition specdy (ny nx : nat) (dx : R) (f : nat -> nat -> R) (i j : nat) : R :=
  re (idft2 ny nx (fun k l =>
    Cmul (mkC 0 (2 * PI * IZR (sfreq ny k) / (INR ny * dx)))
         (dft2 ny nx (fun i j => RtoC (f i j)) (Z.of_nat k) (Z.of_nat l))) i j).

(** the field at every point of the grid is zero *)
Definition vanishes (ny nx : nat) (f : nat -> nat -> R) : Prop :=
  forall i j, (i < ny)%nat -> (j < nx)%nat -> f i j = 0.

(** stacks of frames, pointwise *)
Definition frames := list nat -> nat -> nat -> R.
