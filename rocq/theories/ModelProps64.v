(** The physical-space diagnostics with the mean left open, and the mean in
    binary64 arithmetic.
    Source: /repo/src/hw2d/physical_properties/numpy_properties.py.

    ModelProperties.v adds the cells row by row; numpy adds them in an order
    that depends on the memory layout, on the processor and on the numpy
    version (pairwise with eight accumulators, usually).  Here the order is any
    tree of additions ([order] in ModelRun64.v). *)
From Coq Require Import List Arith ZArith Bool SpecFloat.
From Verif Require Import Num NdArray ModelGradients ModelProperties ModelRun64.
Import ListNotations.
Local Open Scope nd_scope.

Section By.
Context {A : Type} {Nm : Num A}.
(** np.mean(x, axis=(-1, -2)), without and with keepdims=True;
    numpy_properties.py:49, 69, 118, 133, 144, 145, 186, 205 *)
Context (mean mean_keep : nd A -> nd A).

(** numpy_properties.py:30-50 *)
Definition gamma_n_by (n p : nd A) (dx : A) : nd A := neg_ (mean (n * force (np_periodic_gradient p dx (-2)))).
(** numpy_properties.py:53-70 *)
Definition gamma_c_by (n p : nd A) (c1 dx : A) : nd A := sc c1 * mean (powk (n - p) 2).
(** numpy_properties.py:104-119 *)
Definition energy_by (n phi : nd A) (dx : A) : nd A :=
  mean (powk n 2 + (powk (force (np_periodic_gradient phi dx (-1))) 2 + powk (force (np_periodic_gradient phi dx (-2))) 2)) / sc (nofZ 2).
(** numpy_properties.py:125-134 *)
Definition enstrophy_by (n omega : nd A) (dx : A) : nd A := mean (powk (n - omega) 2) / sc (nofZ 2).
(** numpy_properties.py:137-147 *)
Definition enstrophy_phi_by (n phi : nd A) (dx : A) : nd A :=
  let omega := np_periodic_laplace_N phi dx 1 in
  let omega := isub omega (mean_keep omega) in
  mean (powk (n - omega) 2) / sc (nofZ 2).
(** numpy_properties.py:171-187 *)
Definition DE_by (n p Dn Dp : nd A) : nd A := mean (n * Dn - p * Dp).
(** numpy_properties.py:190-206 *)
Definition DU_by (n o Dn Dp : nd A) : nd A := neg_ (mean ((n - o) * (Dn - Dp))).
End By.

Local Existing Instance NumF64.

(** np.mean over the last two axes of a two-dimensional float64 array (the
    fields a run keeps in memory): the sum in some order, divided by the number
    of cells; numpy_properties.py:49, 69, 118, 133, 144, 145, 186, 205 *)
Definition mean64 (t : order) (x : nd f64) : nd f64 :=
  let* a := x in
  match shape a with
  | [nx; ny] => Ok (scal (ndiv (total t (data a)) (nofZ (Z.of_nat (ny * nx)))))
  | _ => Exn Unmodelled
  end.
(** the same with keepdims=True; numpy_properties.py:144 *)
Definition mean64_keep (t : order) (x : nd f64) : nd f64 :=
  let* a := x in
  match shape a with
  | [nx; ny] => Ok (build [1; 1] (fun _ => ndiv (total t (data a)) (nofZ (Z.of_nat (ny * nx)))))
  | _ => Exn Unmodelled
  end.
