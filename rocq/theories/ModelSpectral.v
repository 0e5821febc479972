(** Spectral diagnostics.
    Source: /repo/src/hw2d/physical_properties/numpy_properties.py:76-98, 248-310.
    np.fft is the exact DFT; arithmetic is exact; an empty mean (numpy: nan) is
    0/0 here, so the theorems ask for at least one retained mode. *)
From Coq Require Import List Arith ZArith Bool Reals.
From Verif Require Import Num NdArray Cplx ModelPoisson.
Import ListNotations.
Local Open Scope R_scope.

(** np.fft.fft2(x, norm="ortho") on the last two axes (numpy_properties.py:81,
    82, 254, 282, 304, 305): the transform divided by sqrt(ny*nx) *)
Definition fft2_ortho (x : nd R) : nd C :=
  let* a := fft2 (to_complex x) in
  match shape a with
  | nx :: ny :: _ => Ok (mkArr (shape a) (map (fun c => Cdivr c (sqrt (INR ny * INR nx))) (data a)))
  | _ => Exn IndexError
  end.

(** np.fft.fftfreq(n, d=dx) * 2 * np.pi (numpy_properties.py:84, 280) *)
Definition wavenumbers (n : nat) (dx : R) : list R :=
  let N := ((Z.of_nat n - 1) / 2 + 1)%Z in
  map (fun z => IZR z * (1 / (INR n * dx)) * 2 * PI) (arange 0 N ++ arange (- (Z.of_nat n / 2)) 0).

(** np.meshgrid(f0, f1) with the default indexing="xy": both outputs have
    shape (len f1, len f0), the first varies along the columns with f0, the
    second along the rows with f1 (numpy_properties.py:83-85, 279-281) *)
Definition meshgrid_0 (f0 f1 : list R) : arr R := grid (length f1) (length f0) (fun i j => nth j f0 0).
Definition meshgrid_1 (f0 f1 : list R) : arr R := grid (length f1) (length f0) (fun i j => nth i f1 0).

(** np.conjugate, np.real, np.abs, and real arrays used in complex products *)
Definition np_conj : nd C -> nd C := map1 Cconj.
Definition Cabs (c : C) : R := sqrt (Cnorm2 c).
Definition np_abs : nd C -> nd R := cast Cabs.

(** a[..., :m] *)
Definition take_last (m : nat) (x : nd R) : nd R :=
  let* a := x in
  match shape a with
  | [] => Exn IndexError
  | _ => Ok (slice_pos 0 (PS None (Some (Z.of_nat m)) 1) a)
  end.

(** numpy_properties.py:76-91 [get_gamma_n_ky]; n.shape[-2] of an array with
    fewer than two axes is an IndexError *)
Definition get_gamma_n_ky (n p : nd R) (dx : R) : res (list R * arr R) :=
  let* a := n in
  match shape a with
  | nx :: ny :: _ =>
      let ky_max := (ny / 2)%nat in
      let n_dft := fft2_ortho (Ok a) in
      let p_dft := fft2_ortho p in
      let f0 := wavenumbers ny dx in
      let f1 := wavenumbers nx dx in
      let k_ky := meshgrid_1 f0 f1 in
      let gamma_n_k :=
        mul_ (mul_ (mul_ n_dft (sc (mkC 0 1))) (cast RtoC (Ok k_ky))) (np_conj p_dft) in
      let* integrated := take_last ky_max (mean_last (np_real gamma_n_k)) in
      (* k_ky[:ky_max, 0] *)
      let ky := map (fun i => at2 k_ky i 0) (seq 0 (Nat.min ky_max (length f1))) in
      Ok (ky, integrated)
  | _ => Exn IndexError
  end.

(** numpy_properties.py:94-98 [get_gamma_n_spectrally] *)
Definition get_gamma_n_spectrally (n p : nd R) (dx : R) : nd R :=
  let* r := get_gamma_n_ky n p dx in
  mean_last (Ok (snd r)).

(** numpy_properties.py:248-258 [get_energy_N_ky] *)
Definition get_energy_N_ky (n : nd R) : nd R :=
  let n_dft := fft2_ortho n in
  let E_N_ky := div_ (powk (np_abs n_dft) 2) (sc 2) in
  mean_last E_N_ky.

(** numpy_properties.py:261-269 [get_energy_N_spectrally] *)
Definition get_energy_N_spectrally (n : nd R) : nd R := mean_last (get_energy_N_ky n).

(** numpy_properties.py:272-285 [get_energy_V_ky] *)
Definition get_energy_V_ky (p : nd R) (dx : R) : nd R :=
  let* a := p in
  match shape a with
  | nx :: ny :: _ =>
      let f0 := wavenumbers ny dx in
      let f1 := wavenumbers nx dx in
      let k_kx := meshgrid_0 f0 f1 in
      let k_ky := meshgrid_1 f0 f1 in
      let p_dft := fft2_ortho (Ok a) in
      let squared_norm_k := add_ (powk (Ok k_ky) 2) (powk (Ok k_kx) 2) in
      let E_V_ky := div_ (np_abs (mul_ (mul_ (cast RtoC squared_norm_k) p_dft) (np_conj p_dft))) (sc 2) in
      mean_last E_V_ky
  | _ => Exn IndexError
  end.

(** numpy_properties.py:288-297 [get_energy_V_spectrally] *)
Definition get_energy_V_spectrally (p : nd R) (dx : R) : nd R := mean_last (get_energy_V_ky p dx).

(** np.imag(np.log(c)): the argument in (-pi, pi]; log(0) = -inf + 0j.  Signed
    zeros are not distinguished. *)
Definition Carg (c : C) : R :=
  if Req_EM_T (Cnorm2 c) 0 then 0
  else if Rle_dec 0 (im c) then acos (re c / Cabs c) else - acos (re c / Cabs c).

(** numpy_properties.py:303-310 [get_delta_ky]: the last line slices with
    n.shape[1], the SECOND Python axis ([real] is unused) *)
Definition get_delta_ky (n p : nd R) : nd R :=
  let* a := n in
  let n_dft := fft2_ortho (Ok a) in
  let p_dft := fft2_ortho p in
  let delta_k := cast Carg (mul_ (np_conj n_dft) p_dft) in
  take_last (nth (length (shape a) - 2) (shape a) 0%nat / 2)%nat (mean_last delta_k).
