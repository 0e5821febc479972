(** The two sets of numerical schemes of model.py:34-50 for any number type
    (binary64 in particular).  The Poisson solver is a parameter: the FFT of
    numpy / numba is modelled in exact arithmetic in ModelPoisson.v, and with
    transforms of a given accuracy in ModelPoisson64.v. *)
From Coq Require Import List Arith ZArith Reals.
From Verif Require Import Num NdArray ModelGradients ModelArakawa ModelPoisson ModelHW ModelBackend.

(** model.py:34-41: without numba *)
Definition np_schemes {A} `{Num A} (solver : nd A -> A -> nd A) : backend A := {|
  poisson_solver := solver;
  diffuse_N := np_periodic_laplace_N;
  poisson_bracket := np_periodic_arakawa_vec;
  gradient_func := np_periodic_gradient |}.

(** model.py:43-50: numba importable *)
Definition nb_schemes {A} `{Num A} (solver : nd A -> A -> nd A) : backend A := {|
  poisson_solver := solver;
  diffuse_N := nb_periodic_laplace_N;
  poisson_bracket := nb_periodic_arakawa_stencil;
  gradient_func := nb_periodic_gradient |}.

(** over the reals these are the backends of ModelBackend.v *)
Lemma np_schemes_R : np_schemes (fun t dx => np_fourier_poisson_double t dx 1) = np_backend.
Proof. reflexivity. Qed.
Lemma nb_schemes_R : nb_schemes (fun t dx => nb_fourier_poisson_double t dx 1) = nb_backend.
Proof. reflexivity. Qed.
