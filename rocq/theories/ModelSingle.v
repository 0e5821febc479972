(** [fourier_poisson_single] (numpy_fourier_poisson.py:38-54).
    The input is stored as complex64, np.fft.fft2 / ifft2 (numpy 1.x) and the
    division run in double precision, which here is exact arithmetic as in
    ModelPoisson.v, and the result is stored as float32.  Not modelled: numpy
    2.x, whose transforms stay in single precision; values above 2^127, which
    may become infinite. *)
From Coq Require Import List Arith ZArith Reals.
From Flocq Require Import Core.
From Verif Require Import Num NdArray Cplx ModelPoisson.
Import ListNotations.
Local Open Scope R_scope.

(** storing a number as float32: nearest value, ties to even
    (numpy_fourier_poisson.py:40,54) *)
Definition round32 (x : R) : R := round radix2 (FLT_exp (-149) 24) ZnearestE x.
Definition fits32 (x : R) : bool := if Rle_dec (Rabs x) (2 ^ 127) then true else false.
(** astype(np.float32) / the real part of astype(np.complex64)
    (numpy_fourier_poisson.py:40,54) *)
Definition astype32 (x : nd R) : nd R :=
  let* a := x in
  if forallb fits32 (data a) then cast round32 (Ok a) else Exn Unmodelled.
(** numpy_fourier_poisson.py:38-54 [fourier_poisson_single] *)
Definition np_fourier_poisson_single (tensor : nd R) (dx : R) (times : nat) : nd R :=
  let* t := astype32 tensor in
  astype32 (mul_ (np_real (np_poisson_complex (Ok t) times)) (sc (dx ^ 2))).
