(** Superposition and Fourier coefficients. *)
From Coq Require Import Arith ZArith Reals.
From Verif Require Import Num NdArray Spec Cplx SpecHW.
Local Open Scope R_scope.

Definition combined (a b : R) (f g : field) : field := fun i j => a * f i j + b * g i j.
(** the coefficient of the mode (k, l), as np.fft.fft2 returns it *)
Definition coefficient (ny nx k l : nat) (f : field) : C := dft2 ny nx (fun i j => RtoC (f i j)) (Z.of_nat k) (Z.of_nat l).
