(** Physical-space diagnostics and the zonal transform.
    Source: /repo/src/hw2d/physical_properties/numpy_properties.py,
            /repo/src/hw2d/zonal_transform/numpy_zonal_transform.py.
    (physical_properties/numba_properties.py is not imported anywhere.) *)
From Coq Require Import List Arith ZArith Bool.
From Verif Require Import Num NdArray ModelGradients.
Import ListNotations.
Local Open Scope nd_scope.

Section Properties.
Context {A : Type} {Nm : Num A}.

(** a Python value that should be an array but may be None; using None in
    arithmetic is a TypeError *)
Definition force (x : res (option (arr A))) : nd A :=
  let* o := x in match o with Some a => Ok a | None => Exn TypeError end.

(** numpy_properties.py:30-50 [get_gamma_n] *)
Definition get_gamma_n (n p : nd A) (dx : A) (dy_p : option (nd A)) : nd A :=
  let dy_p := match dy_p with
              | Some d => d
              | None => force (np_periodic_gradient p dx (-2)) (* 47-48 *)
              end in
  neg_ (mean_last2 (n * dy_p)).

(** numpy_properties.py:53-70 [get_gamma_c] *)
Definition get_gamma_c (n p : nd A) (c1 dx : A) : nd A :=
  sc c1 * mean_last2 (powk (n - p) 2).

(** numpy_properties.py:104-119 [get_energy] *)
Definition get_energy (n phi : nd A) (dx : A) : nd A :=
  let squared_norm_grad_phi :=
    powk (force (np_periodic_gradient phi dx (-1))) 2
    + powk (force (np_periodic_gradient phi dx (-2))) 2 in
  let integral := mean_last2 (powk n 2 + squared_norm_grad_phi) in
  integral / sc (nofZ 2).

(** numpy_properties.py:125-134 [get_enstrophy] (dx is unused) *)
Definition get_enstrophy (n omega : nd A) (dx : A) : nd A :=
  mean_last2 (powk (n - omega) 2) / sc (nofZ 2).

(** in-place [a -= b]: the result must keep the shape of [a] *)
Definition isub (x y : nd A) : nd A :=
  let* a := x in let* b := y in
  let* c := bc2 nsub a b in
  if list_eq_dec Nat.eq_dec (shape c) (shape a) then Ok c else Exn ValueError.

(** numpy_properties.py:137-147 [get_enstrophy_phi] *)
Definition get_enstrophy_phi (n phi : nd A) (dx : A) : nd A :=
  let omega := np_periodic_laplace_N phi dx 1 in
  let omega := isub omega (mean_last2_keep omega) in
  mean_last2 (powk (n - omega) 2) / sc (nofZ 2).

(** numpy_properties.py:150-165 [get_D] *)
Definition get_D (a : nd A) (nu : A) (N : Z) (dx : A) : nd A :=
  sc nu * np_periodic_laplace_N a dx N.

(** numpy_properties.py:171-187 [get_DE] *)
Definition get_DE (n p Dn Dp : nd A) : nd A := mean_last2 (n * Dn - p * Dp).

(** numpy_properties.py:190-206 [get_DU] *)
Definition get_DU (n o Dn Dp : nd A) : nd A := neg_ (mean_last2 ((n - o) * (Dn - Dp))).

(** numpy_properties.py:212-226 [get_dE_dt] *)
Definition get_dE_dt (gamma_n gamma_c DE : nd A) : nd A := gamma_n - gamma_c - DE.

(** numpy_properties.py:229-242 [get_dU_dt] *)
Definition get_dU_dt (gamma_n DU : nd A) : nd A := gamma_n - DU.

(** numpy_zonal_transform.py:16-21 [zonal_transform] *)
Definition zonal_transform (field : nd A) : nd A :=
  let avg_ky_field := mean_y_keep field in
  field - avg_ky_field.

End Properties.

(** numpy_zonal_transform.py:4-13 [zonal_transform_fourier]: np.fft.fft has no
    parameter [axes], so every call raises TypeError at line 6. *)
Definition zonal_transform_fourier {A} (field : nd A) : nd A :=
  let* f := field in Exn TypeError.
