(** The Fourier Poisson solvers in binary64.
    Source: /repo/src/hw2d/poisson_solvers/numpy_fourier_poisson.py:19-35,
            /repo/src/hw2d/poisson_solvers/numba_fourier_poisson.py:8-56.

    np.fft.fft2 and np.fft.ifft2 are parameters (tables of complex numbers for
    a table of complex numbers on a given grid); everything around them is the
    program in binary64, operation by operation.  Two-dimensional tensors,
    times = 1.  x**2 is x*x. *)
From Coq Require Import Arith ZArith Bool List SpecFloat.
From Verif Require Import Num NdArray ModelPoisson.
Import ListNotations.
Local Existing Instance NumF64.

(** complex128: real and imaginary part *)
Definition c64 : Type := (f64 * f64)%type.
Definition fft_fun : Type := nat -> nat -> (nat -> nat -> c64) -> nat -> nat -> c64.

(** np.pi *)
Definition pi64 : f64 := S754_finite false 7074237752028440 (-51).
Definition inf64 : f64 := S754_infinity false.
(** x ** 2 *)
Definition sq64 (x : f64) : f64 := nmul x x.
Definition zero64 : f64 := f64_ofZ 0.

(** division of complex numbers, numpy (loops.c.src, Smith's algorithm) and
    Numba (npyfuncs.py); used at numpy_fourier_poisson.py:31 and
    numba_fourier_poisson.py:29, where the real divisor is first converted *)
Definition cdiv64 (a b : c64) : c64 :=
  let '(ar, ai) := a in
  let '(br, bi) := b in
  if nleb (SFabs bi) (SFabs br) then
    if neqb br zero64 && neqb bi zero64 then (ndiv ar (SFabs br), ndiv ai (SFabs br))
    else
      let rat := ndiv bi br in
      let scl := ndiv (f64_ofZ 1) (nadd br (nmul bi rat)) in
      (nmul (nadd ar (nmul ai rat)) scl, nmul (nsub ai (nmul ar rat)) scl)
  else
    let rat := ndiv br bi in
    let scl := ndiv (f64_ofZ 1) (nadd bi (nmul br rat)) in
    (nmul (nadd (nmul ar rat) ai) scl, nmul (nsub (nmul ai rat) ar) scl).
(** multiplication of complex numbers; numba_fourier_poisson.py:31 *)
Definition cmul64 (a b : c64) : c64 :=
  let '(ar, ai) := a in
  let '(br, bi) := b in
  (nsub (nmul ar br) (nmul ai bi), nadd (nmul ar bi) (nmul ai br)).
Definition real64 (x : f64) : c64 := (x, zero64).

(** the integers of fftfreq; numba_fourier_poisson.py:52-55 *)
Definition fft_ints (n : nat) : list Z :=
  (arange 0 ((Z.of_nat n - 1) / 2 + 1) ++ arange (- (Z.of_nat n / 2)) 0)%list.
(** numpy.fft.fftfreq(n): integers times 1.0/(n*1.0); numpy_fourier_poisson.py:24 *)
Definition np_fftfreq64 (n : nat) : list f64 :=
  map (fun z => nmul (f64_ofZ z) (ndiv (f64_ofZ 1) (nmul (f64_ofZ (Z.of_nat n)) (f64_ofZ 1)))) (fft_ints n).
(** numba_fourier_poisson.py:49-56 *)
Definition custom_fftfreq64 (n : nat) : list f64 :=
  map (fun z => ndiv (f64_ofZ (wrap16 z)) (f64_ofZ (Z.of_nat n))) (fft_ints n).

(** numpy_fourier_poisson.py:24-27, numba_fourier_poisson.py:20-24: the symbol of
    the Laplacian from the frequencies *)
Definition fft_laplace64 (fy fx : list f64) (i j : nat) : f64 :=
  nmul (nopp (sq64 (nmul (f64_ofZ 2) pi64))) (nadd (sq64 (nth i fy zero64)) (sq64 (nth j fx zero64))).

(** numpy_fourier_poisson.py:19-35 *)
Definition np_poisson64 (fft ifft : fft_fun) (tensor : nd f64) (dx : f64) : nd f64 :=
  let* a := tensor in
  match shape a with
  | [nx; ny] =>
      if (ny =? 0)%nat || (nx =? 0)%nat then Exn ValueError else
      let frequencies := fft ny nx (fun i j => real64 (get a [j; i])) in
      let fft_laplace i j := if (i =? 0)%nat && (j =? 0)%nat then inf64
                             else fft_laplace64 (np_fftfreq64 ny) (np_fftfreq64 nx) i j in
      let result i j := if neqb (fft_laplace i j) zero64 then real64 zero64
                        else cdiv64 (frequencies i j) (real64 (fft_laplace i j)) in
      Ok (grid ny nx (fun i j => nmul (fst (ifft ny nx result i j)) (sq64 dx)))
  | _ => Exn Unmodelled
  end.

(** 1e14 *)
Definition e14 : f64 := f64_ofZ 100000000000000.
(** numba_fourier_poisson.py:8-17 with core_computation (20-31) and fftfreq_sq
    (34-46) *)
Definition nb_poisson64 (fft ifft : fft_fun) (tensor : nd f64) (dx : f64) : nd f64 :=
  let* a := tensor in
  match shape a with
  | [nx; ny] =>
      if (ny =? 0)%nat || (nx =? 0)%nat then Exn ValueError else
      let frequencies := fft ny nx (fun i j => real64 (get a [j; i])) in
      let fft_laplace i j := if (i =? 0)%nat && (j =? 0)%nat then e14
                             else fft_laplace64 (custom_fftfreq64 ny) (custom_fftfreq64 nx) i j in
      let result i j :=
        let fr := if neqb (fft_laplace i j) zero64 then real64 zero64 else frequencies i j in
        cmul64 (cdiv64 fr (real64 (fft_laplace i j))) (real64 (sq64 dx)) in
      Ok (grid ny nx (fun i j => fst (ifft ny nx result i j)))
  | _ => Exn Unmodelled
  end.
