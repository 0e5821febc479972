(** The default arguments of the two drivers.
    Source: /repo/src/hw2d/run.py:27-80, /repo/src/hw2d/run2.py:60-119.
    Decimal literals stand for the real numbers they denote. *)
From Coq Require Import Arith ZArith Bool Reals String List.
From Verif Require Import Num NdArray ModelArgs.
Import ListNotations.
Local Open Scope R_scope.
Local Open Scope string_scope.

(** run.py:54-63, run2.py:96-105 *)
Definition default_props : list string :=
  ["gamma_n"; "gamma_n_spectral"; "gamma_c"; "energy"; "thermal_energy"; "kinetic_energy"; "enstrophy"; "enstrophy_phi"].
(** run.py:27-80; run.py has no adaptive step, zonal flag and shown property *)
Definition run_defaults : run_args :=
  mkArgs 0.025 false 1000 1024 0.15 3 5e-8 1 1 1 false "gamma_n" 0 false 100 1 1 false default_props true.
(** run2.py:60-119 *)
Definition run2_defaults : run_args :=
  mkArgs 0.025 false 1000 512 0.15 3 5e-9 1 1 1 false "gamma_n" 0 false 100 1 16 true default_props false.
(** /repo/README.md:39: the example command line of run.py *)
Definition readme_args : run_args :=
  mkArgs 0.025 false 1000 512 0.15 3 5e-8 1 1 1 false "gamma_n" 0 false 100 1 2 false default_props true.
