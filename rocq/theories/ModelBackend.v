(** The two sets of numerical schemes HW can run with.
    Source: /repo/src/hw2d/model.py:34-52, 200-203. *)
From Coq Require Import List Arith ZArith Reals.
From Verif Require Import Num NdArray ModelGradients ModelArakawa ModelPoisson ModelHW.

(** model.py:34-41: without numba *)
Definition np_backend : backend R := {|
  poisson_solver := fun t dx => np_fourier_poisson_double t dx 1;
  diffuse_N := np_periodic_laplace_N;
  poisson_bracket := np_periodic_arakawa_vec;
  gradient_func := np_periodic_gradient |}.

(** model.py:43-50: numba importable *)
Definition nb_backend : backend R := {|
  poisson_solver := fun t dx => nb_fourier_poisson_double t dx 1;
  diffuse_N := nb_periodic_laplace_N;
  poisson_bracket := nb_periodic_arakawa_stencil;
  gradient_func := nb_periodic_gradient |}.
