(** Fourier vocabulary of the property statements (independent of the code). *)
From Coq Require Import List Arith ZArith Reals.
From Verif Require Import Num NdArray Spec Cplx.
Local Open Scope R_scope.

(** the signed integer frequency of bin i on an axis with n cells: the
    representative of i modulo n in [-n/2, n/2) *)
Definition sfreq (n i : nat) : Z :=
  if (2 * i <? n)%nat then Z.of_nat i else (Z.of_nat i - Z.of_nat n)%Z.

(** symbol of the continuous Laplacian at bin (k, l): -|2 pi k / (n dx)|^2 *)
Definition lap_symbol (ny nx : nat) (dx : R) (k l : nat) : R :=
  - ((2 * PI * IZR (sfreq ny k) / (INR ny * dx)) ^ 2
     + (2 * PI * IZR (sfreq nx l) / (INR nx * dx)) ^ 2).

(** the spectral Laplacian of a real field *)
Definition speclap (ny nx : nat) (dx : R) (f : nat -> nat -> R) (i j : nat) : C :=
  idft2 ny nx (fun k l =>
    Cscal (lap_symbol ny nx dx k l)
          (dft2 ny nx (fun i j => RtoC (f i j)) (Z.of_nat k) (Z.of_nat l))) i j.

(** N-fold spectral Laplacian *)
Fixpoint speclap_iter (N ny nx : nat) (dx : R) (f : nat -> nat -> R) : nat -> nat -> R :=
  match N with
  | O => f
  | S N' => fun i j => re (speclap ny nx dx (speclap_iter N' ny nx dx f) i j)
  end.
