(** Initial conditions.
    Source: /repo/src/hw2d/initializations/fourier_noise.py:13-84,
            /repo/src/hw2d/initializations/sine.py:5-32,
            /repo/src/hw2d/run.py:115-163, /repo/src/hw2d/run2.py:160-210.

    The arrays of get_fft_noise have shape (1, ny, nx, 1); they are modelled by
    their (ny, nx) part.  Reals stand for floating-point numbers: size and scale
    are not zero (numpy would go on with inf and NaN), and an array of standard
    deviation zero, which numpy turns into NaN, is [Exn Unmodelled]. *)
From Coq Require Import Arith ZArith Bool Reals String List.
From Verif Require Import Num NdArray Cplx ModelPoisson ModelIO ModelRun ModelRunHW.
Import ListNotations.
Local Open Scope string_scope.
Local Open Scope R_scope.

(** fourier_noise.py:49-52: k[i, j] = sum over both axes of
    |fftfreq(n) * n / size * scale| ** factor *)
Definition noise_k (ny nx : nat) (size scale : R) (factor : nat) (i j : nat) : R :=
  Rabs (nth i (np_fftfreq ny) 0 * INR ny / size * scale) ^ factor
  + Rabs (nth j (np_fftfreq nx) 0 * INR nx / size * scale) ^ factor.

(** Python's truth value of a number *)
Definition nonzero (x : R) : bool := if Req_EM_T x 0 then false else true.
(** fourier_noise.py:55-58: wavelengths replace frequencies when given *)
Definition low_freq (min_frequency max_wavelength : R) : R := if nonzero max_wavelength then 1 / max_wavelength else min_frequency.
Definition high_freq (max_frequency min_wavelength : R) : R := if nonzero min_wavelength then 1 / min_wavelength else max_frequency.
(** fourier_noise.py:61-66 *)
Definition weight (lo hi k : R) : R :=
  let w := 1 in
  let w := if nonzero lo then w + (1 / (1 + exp ((lo - k) * 1000)) - 1) else w in
  if nonzero hi then w - 1 / (1 + exp ((hi - k) * 1000)) else w.
(** fourier_noise.py:68-70 *)
Definition in_bounds (w : R) : bool := (if Rle_dec w 1 then true else false) && (if Rle_dec 0 w then true else false).
Definition mask_ok (ny nx : nat) (w : nat -> nat -> R) : bool :=
  forallb (fun i => forallb (fun j => in_bounds (w i j)) (seq 0 nx)) (seq 0 ny).
(** fourier_noise.py:73-75: the mean mode gets no weight *)
Definition inv_k (k : nat -> nat -> R) (i j : nat) : R := if (i =? 0)%nat && (j =? 0)%nat then 0 else 1 / k i j.

(** mean and standard deviation over all cells, as np.mean and np.std *)
Definition np_mean (ny nx : nat) (f : nat -> nat -> R) : R :=
  nsum ny (fun i => nsum nx (fun j => f i j)) / INR (ny * nx).
Definition np_std (ny nx : nat) (f : nat -> nat -> R) : R :=
  let m := np_mean ny nx f in sqrt (np_mean ny nx (fun i j => (f i j - m) ^ 2)).

(** fourier_noise.py:43-46, 78-80: the draws are [re_ + i im_]; real part of the
    inverse transform *)
Definition noise_array (ny nx : nat) (re_ im_ : nat -> nat -> R) (k w : nat -> nat -> R) (i j : nat) : R :=
  re (idft2 ny nx (fun a b => Cscal (inv_k k a b * w a b) (mkC (re_ a b) (im_ a b))) i j).
(** fourier_noise.py:81-82: divide by the standard deviation, subtract the mean *)
Definition normalise (ny nx : nat) (f : nat -> nat -> R) : nd R :=
  let s := np_std ny nx f in
  if Req_EM_T s 0 then Exn Unmodelled
  else
    let g := fun i j => f i j / s in
    let m := np_mean ny nx g in
    Ok (grid ny nx (fun i j => g i j - m)).
(** fourier_noise.py:13-84 *)
Definition get_fft_noise (ny nx : nat) (re_ im_ : nat -> nat -> R) (size scale min_frequency max_frequency min_wavelength max_wavelength : R)
    (factor : nat) : nd R :=
  let k := noise_k ny nx size scale factor in
  let lo := low_freq min_frequency max_wavelength in
  let hi := high_freq max_frequency min_wavelength in
  let w := fun i j => weight lo hi (k i j) in
  if negb (mask_ok ny nx w) then Exn AssertionError
  else normalise ny nx (noise_array ny nx re_ im_ k w).

(** sine.py:28-32, grid_size = (a, b).  np.meshgrid(range(a), range(b)) has the
    default indexing 'xy': both arrays have shape (b, a), the first one varies
    along the last axis.  Transposing twice changes nothing. *)
Definition get_2d_sine (a b : nat) (L : R) : nd R :=
  let x := fun (i j : nat) => INR j * L / INR a in
  let y := fun (i j : nat) => INR i * L / INR a in
  Ok (grid b a (fun i j => sin (2 * PI * x i j + 1) * sin (2 * PI * y i j + 1))).

(** run.py:131-143 (run2.py:176-188): the table of initialisations, called with
    (y, x) = (grid_pts, grid_pts).  The draws of 'random' (uniform) and 'normal'
    are [re_]. *)
Definition init_noise (init_type : string) (grid_pts : nat) (k0 : R) (re_ im_ : nat -> nat -> R) : nd R :=
  let L := 2 * PI / k0 in
  let dx := domain_dx k0 grid_pts in
  if String.eqb init_type "fourier" then
    get_fft_noise grid_pts grid_pts re_ im_ L 1 0 0 (dx * 12) (dx * INR grid_pts * 100) 2
  else if String.eqb init_type "sine" then get_2d_sine grid_pts grid_pts L
  else if String.eqb init_type "random" then Ok (grid grid_pts grid_pts re_)
  else if String.eqb init_type "normal" then Ok (grid grid_pts grid_pts re_)
  else Exn KeyError.
(** run.py:157-162 (run2.py:204-209): one draw per field, in this order, each
    multiplied by init_scale *)
Definition init_state (init_type : string) (grid_pts : nat) (k0 init_scale : R)
    (draws : nat -> (nat -> nat -> R) * (nat -> nat -> R)) : res (arr R * arr R * arr R) :=
  let* d := mul_ (init_noise init_type grid_pts k0 (fst (draws 0%nat)) (snd (draws 0%nat))) (sc init_scale) in
  let* o := mul_ (init_noise init_type grid_pts k0 (fst (draws 1%nat)) (snd (draws 1%nat))) (sc init_scale) in
  let* p := mul_ (init_noise init_type grid_pts k0 (fst (draws 2%nat)) (snd (draws 2%nat))) (sc init_scale) in
  Ok (d, o, p).
