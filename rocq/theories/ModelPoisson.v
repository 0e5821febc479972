(** Fourier Poisson solvers and Fourier Laplacians.
    Source: /repo/src/hw2d/poisson_solvers/*.py,
            /repo/src/hw2d/gradients/{numpy,phiml}_gradients.py (fourier_laplace),
            /repo/src/hw2d/model.py (get_phi).
    np.fft is the exact DFT (no rounding); dtype casts are the identity. *)
From Coq Require Import List Arith ZArith Bool Reals.
From Verif Require Import Num NdArray Cplx.
Import ListNotations.
Local Open Scope R_scope.

(** elementwise change of type: np.array(x, dtype=complex128), np.real, astype *)
Definition cast {A B} (f : A -> B) (x : res (arr A)) : res (arr B) :=
  let* a := x in Ok (mkArr (shape a) (map f (data a))).
Definition to_complex : nd R -> nd C := cast RtoC.
Definition np_real : nd C -> nd R := cast re.

(** np.fft.fft2 / np.fft.ifft2: transform of the last two axes.  Fewer than
    two axes: IndexError; an empty axis: ValueError. *)
Definition fft2 (x : nd C) : nd C :=
  let* a := x in
  match shape a with
  | nx :: ny :: rest =>
      if (ny =? 0)%nat || (nx =? 0)%nat then Exn ValueError
      else Ok (stack rest ny nx (fun r k l =>
             dft2 ny nx (fun i j => get a (j :: i :: r)) (Z.of_nat k) (Z.of_nat l)))
  | _ => Exn IndexError
  end.
Definition ifft2 (x : nd C) : nd C :=
  let* a := x in
  match shape a with
  | nx :: ny :: rest =>
      if (ny =? 0)%nat || (nx =? 0)%nat then Exn ValueError
      else Ok (stack rest ny nx (fun r i j => idft2 ny nx (fun k l => get a (l :: k :: r)) i j))
  | _ => Exn IndexError
  end.

(** np.arange(a, b) on integers *)
Definition arange (a b : Z) : list Z :=
  map (fun i => (a + Z.of_nat i)%Z) (seq 0 (Z.to_nat (b - a))).

(** numpy.fft.fftfreq(n), n >= 1 (library function used at
    numpy_fourier_poisson.py:24,43,77 and numpy_gradients.py:91) *)
Definition np_fftfreq (n : nat) : list R :=
  let N := ((Z.of_nat n - 1) / 2 + 1)%Z in
  map (fun z => IZR z * (1 / INR n)) (arange 0 N ++ arange (- (Z.of_nat n / 2)) 0).

(** storing an integer into an int16 array wraps modulo 2^16 *)
Definition wrap16 (z : Z) : Z := ((z + 32768) mod 65536 - 32768)%Z.

(** numba_fourier_poisson.py:49-56 [custom_fftfreq] *)
Definition custom_fftfreq (n : nat) : list R :=
  let N := ((Z.of_nat n - 1) / 2 + 1)%Z in
  map (fun z => IZR (wrap16 z) / INR n) (arange 0 N ++ arange (- (Z.of_nat n / 2)) 0).

(** np.meshgrid(f0, f1, indexing="ij"), squared and summed; k[i, j] *)
Definition ksq_ij (f0 f1 : list R) (i j : nat) : R := (nth i f0 0) ^ 2 + (nth j f1 0) ^ 2.

(** numpy values that may be np.inf *)
Inductive xr := Fin (r : R) | PInf.
Definition xpow (x : xr) (t : nat) : xr :=
  match x, t with
  | Fin r, _ => Fin (r ^ t)
  | PInf, O => Fin 1          (* inf ** 0 = 1.0 *)
  | PInf, S _ => PInf
  end.
(** finite complex / xr; a zero divisor gives nan, which the callers mask *)
Definition cdivx (c : C) (x : xr) : C :=
  match x with Fin r => Cdivr c r | PInf => C0 end.
Definition x_is0 (x : xr) : bool :=
  match x with Fin r => if Req_EM_T r 0 then true else false | PInf => false end.

(** numpy_fourier_poisson.py:21-34: the part of [fourier_poisson_double] before
    np.real, i.e. np.fft.ifft2(result).  Only 2-D tensors are modelled (for more
    axes the meshgrid runs over all of them); times is a natural number. *)
Definition np_poisson_complex (tensor : nd R) (times : nat) : nd C :=
  let* frequencies := fft2 (to_complex tensor) in
  match shape frequencies with
  | [nx; ny] =>
      let k := ksq_ij (np_fftfreq ny) (np_fftfreq nx) in
      let fft_laplace i j :=
        if (i =? 0)%nat && (j =? 0)%nat then PInf else Fin (- ((2 * PI) ^ 2) * k i j) in
      ifft2 (Ok (grid ny nx (fun i j =>
        if x_is0 (fft_laplace i j) then C0
        else cdivx (at2 frequencies i j) (xpow (fft_laplace i j) times))))
  | _ => Exn Unmodelled
  end.

(** numpy_fourier_poisson.py:19-35 [fourier_poisson_double]; :38-54
    [fourier_poisson_single] is the same text with complex64/float32. *)
Definition np_fourier_poisson_double (tensor : nd R) (dx : R) (times : nat) : nd R :=
  mul_ (np_real (np_poisson_complex tensor times)) (sc (dx ^ 2)).

(** numba_fourier_poisson.py:34-46 [fftfreq_sq] *)
Definition fftfreq_sq (dim_x dim_y : nat) (i j : nat) : R :=
  (nth i (custom_fftfreq dim_x) 0) ^ 2 + (nth j (custom_fftfreq dim_y) 0) ^ 2.

(** numba_fourier_poisson.py:20-31 [core_computation] *)
Definition core_computation (frequencies : nat -> nat -> C) (k : nat -> nat -> R)
    (dx : R) (times : nat) (i j : nat) : C :=
  let fft_laplace i j :=
    if (i =? 0)%nat && (j =? 0)%nat then 100000000000000 else - ((2 * PI) ^ 2) * k i j in
  let fr := if Req_EM_T (fft_laplace i j) 0 then C0 else frequencies i j in
  Cscal (dx ^ 2) (Cdivr fr (fft_laplace i j ^ times)).

(** numba_fourier_poisson.py:8-17 [fourier_poisson_double] *)
Definition nb_fourier_poisson_double (tensor : nd R) (dx : R) (times : nat) : nd R :=
  let* frequencies := fft2 (to_complex tensor) in
  match shape frequencies with
  | [nx; ny] =>
      let k := fftfreq_sq ny nx in
      np_real (ifft2 (Ok (grid ny nx (core_computation (at2 frequencies) k dx times))))
  | _ => Exn Unmodelled
  end.

(** numpy_fourier_poisson.py:57-93 [fourier_poisson_numpy], 2-D grid and
    scalar dx.  np.meshgrid without indexing="ij": for a grid of shape
    (ny, nx) the arrays have shape (nx, ny) with
    k_squared[i, j] = fy[j]^2 + fx[i]^2, and the division broadcasts.
    On two axes fftn/ifftn are fft2/ifft2. *)
Definition np_fourier_poisson_numpy (g : nd R) (dx : R) (times : nat) : nd R :=
  let* frequencies := fft2 (to_complex g) in
  match shape frequencies with
  | [nx; ny] =>
      let fy := np_fftfreq ny in
      let fx := np_fftfreq nx in
      let k_squared := grid nx ny (fun i j => (nth j fy 0) ^ 2 + (nth i fx 0) ^ 2) in
      let divisor := cast (fun k => RtoC ((- ((2 * PI) ^ 2) * k) ^ times)) (Ok k_squared) in
      (* np.where(divisor != 0, frequencies / divisor, 0) *)
      let safe_division := lift2 (fun c d => if neqb d C0 then C0 else Cdivr c (re d))
                                 (Ok frequencies) divisor in
      mul_ (np_real (ifft2 safe_division)) (sc (dx ^ 2))
  | _ => Exn Unmodelled
  end.

(** phiml_fourier_poisson.py:19-29 [fourier_poisson_single]; pm.safe_div
    returns 0 where the divisor is 0 *)
Definition pm_fourier_poisson (tensor : nd R) (dx : R) (times : nat) : nd R :=
  let* frequencies := fft2 (to_complex tensor) in
  match shape frequencies with
  | [nx; ny] =>
      let k := ksq_ij (np_fftfreq ny) (np_fftfreq nx) in
      let safe_division := grid ny nx (fun i j =>
        let d := (- ((2 * PI) ^ 2) * k i j) ^ times in
        if Req_EM_T d 0 then C0 else Cdivr (at2 frequencies i j) d) in
      mul_ (np_real (ifft2 (Ok safe_division))) (sc (dx ^ 2))
  | _ => Exn Unmodelled
  end.

(** numpy_gradients.py:78-97 [fourier_laplace]: the parameter is called N,
    the body reads the undefined global [times] at line 96, after fft2 and
    the frequency grid have been computed. *)
Definition np_fourier_laplace (g : nd R) (dx : R) (N : nat) : nd R :=
  let* frequencies := fft2 (to_complex g) in
  Exn NameError.

(** phiml_gradients.py:77-94 [fourier_laplace] *)
Definition pm_fourier_laplace (g : nd R) (dx : R) (N : nat) : nd R :=
  let* frequencies := fft2 (to_complex g) in
  match shape frequencies with
  | [nx; ny] =>
      let k := ksq_ij (np_fftfreq ny) (np_fftfreq nx) in
      let prod := grid ny nx (fun i j => Cscal ((- ((2 * PI) ^ 2) * k i j) ^ N) (at2 frequencies i j)) in
      div_ (np_real (ifft2 (Ok prod))) (sc (dx ^ 2))
  | _ => Exn Unmodelled
  end.

(** model.py:305-311 [HW.get_phi] (the log entry is modelled in ModelHW.v) *)
Definition get_phi (solver : nd R -> R -> nd R) (omega : nd R) (dx : R) : nd R :=
  let o_mean := mean_all omega in
  let centered_omega := sub_ omega o_mean in
  solver centered_omega dx.
