(** What inverting the five-point Laplacian with the Fourier symbol does to a
    field, written down independently of the code. *)
From Coq Require Import List Arith ZArith Reals.
From Verif Require Import Num NdArray Spec Cplx SpecFourier SpecHW.
Local Open Scope R_scope.

(** ratio of the five-point symbol and the exact one for k waves along y and l
    along x: (sin^2 a + sin^2 b) / (a^2 + b^2), a = pi k / ny, b = pi l / nx
    (tests/test_poisson.py:39-83: periodic_laplace followed by a Fourier solver) *)
Definition shrink (ny nx : nat) (k l : Z) : R :=
  (sin (PI * IZR k / INR ny) ^ 2 + sin (PI * IZR l / INR nx) ^ 2)
  / ((PI * IZR k / INR ny) ^ 2 + (PI * IZR l / INR nx) ^ 2).
(** root mean square over the cells *)
Definition rms (ny nx : nat) (f : field) : R := sqrt (gmean ny nx (fun i j => f i j ^ 2)).
(** the field without its mean *)
Definition demean (ny nx : nat) (f : field) : field := fun i j => f i j - gmean ny nx f.
(** the exact Laplacian of the trigonometric interpolant (a real field) *)
Definition rlap (ny nx : nat) (dx : R) (f : field) : field := fun i j => re (speclap ny nx dx f i j).
(** sin(x+1) sin(y+1) on n x n cells of [0, 2 pi)^2 (tests/test_poisson.py:40-52) *)
Definition test_sine (n : nat) : field := fun i j =>
  sin (2 * PI * INR j / INR n + 1) * sin (2 * PI * INR i / INR n + 1).
