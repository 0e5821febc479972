(** Vocabulary of the theorems about the Poisson solvers in binary64. *)
From Coq Require Import Arith ZArith Reals Bool SpecFloat.
From Verif Require Import Num NdArray Spec Cplx SpecFourier SpecHW SpecRound.
Local Open Scope R_scope.

(** the complex numbers a table of pairs of binary64 numbers stands for *)
Definition cval (z : f64 * f64) : C := mkC (fval (fst z)) (fval (snd z)).
Definition cvals (g : nat -> nat -> f64 * f64) : nat -> nat -> C := fun i j => cval (g i j).
Definition cfinite (z : f64 * f64) : Prop := finite64 (fst z) /\ finite64 (snd z).
(** both parts within [e] *)
Definition cnear (z : f64 * f64) (c : C) (e : R) : Prop := near (fst z) (re c) e /\ near (snd z) (im c) e.

(** sum of the sizes of all parts *)
Definition size1 (ny nx : nat) (g : nat -> nat -> C) : R := gsum ny nx (fun i j => Rabs (re (g i j)) + Rabs (im (g i j))).

(** accuracy [eps] of a discrete Fourier transform and of an inverse one on a
    grid: each output is within [eps] times the sum of the sizes of the
    inputs, for inputs of moderate size.  For the usual algorithms [eps] is a
    small multiple of log(ny nx) 2^-53. *)
Definition fft_accurate (ny nx : nat) (eps : R) (fft : nat -> nat -> (nat -> nat -> f64 * f64) -> nat -> nat -> f64 * f64) : Prop :=
  forall g S, (forall i j, (i < ny)%nat -> (j < nx)%nat -> cfinite (g i j)) -> size1 ny nx (cvals g) <= S -> / 2 ^ 800 <= S <= 2 ^ 800 ->
  forall k l, (k < ny)%nat -> (l < nx)%nat ->
    cnear (fft ny nx g k l) (dft2 ny nx (cvals g) (Z.of_nat k) (Z.of_nat l)) (eps * S).
Definition ifft_accurate (ny nx : nat) (eps : R) (ifft : nat -> nat -> (nat -> nat -> f64 * f64) -> nat -> nat -> f64 * f64) : Prop :=
  forall g S, (forall k l, (k < ny)%nat -> (l < nx)%nat -> cfinite (g k l)) -> size1 ny nx (cvals g) <= S -> / 2 ^ 800 <= S <= 2 ^ 800 ->
  forall i j, (i < ny)%nat -> (j < nx)%nat ->
    cnear (ifft ny nx g i j) (idft2 ny nx (cvals g) i j) (eps * (S / (INR ny * INR nx))).

(** sum of the reciprocals of the Laplacian's symbol over all waves but the
    constant one: a bound of the inverse Laplacian *)
Definition inv_sum (ny nx : nat) (dx : R) : R :=
  gsum ny nx (fun k l => if ((k =? 0)%nat && (l =? 0)%nat)%bool then 0 else / Rabs (lap_symbol ny nx dx k l)).

(** error of the potential computed by the model from vorticities of size [B]
    with transforms of accuracy [eps]; [nb]: with numba, whose zero mode is
    divided by 1e14 instead of being removed *)
Definition phi_fft_err (nb : bool) (eps : R) (ny nx : nat) (dx B : R) : R :=
  (11 * eps + 90 * uro) * (inv_sum ny nx dx * B) + (if nb then 5 / 100000000000000 * (dx ^ 2 * B) else 0).
(** grids small enough for numba's 16-bit frequencies, or a million cells per
    axis without numba *)
Definition fft_size (nb : bool) (n : nat) : Prop := (Z.of_nat n <= if nb then 65536 else 1000000)%Z.
