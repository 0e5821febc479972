(** Rates at which the coupling and the hyper-diffusion act on one plane wave,
    and the table of step sizes of the README. *)
From Coq Require Import List Arith ZArith Reals.
From Verif Require Import Num Spec SpecHW ModelRunHW SpecWave.
Import ListNotations.
Local Open Scope R_scope.

(** phi - n decays through the coupling at c1 (1 + 1 / k^2): the density gains
    what the coupling moves, the potential loses 1 / k^2 times as much *)
Definition coupling_rate (p : par) (ny nx : nat) (dx : R) (k l : Z) : R :=
  c1_of p k * (1 + / ksq ny nx dx k l) + damp p ny nx dx k l.

(** /repo/README.md:212-231: c1 and the step size given for it, on 512 x 512
    cells with k0 = 0.15 and nu = 5e-9 *)
Definition readme_rows : list (R * R) :=
  [(0.01, 0.005); (0.1, 0.01); (0.25, 0.015); (0.5, 0.02); (0.75, 0.025); (0.9, 0.025); (1, 0.025); (1.1, 0.025);
   (1.25, 0.025); (1.5, 0.025); (2, 0.025); (2.5, 0.02); (3, 0.02); (4, 0.015); (5, 0.01)].
(** the rows below the largest step size for c1 > 2, with the next larger step
    size of the table *)
Definition readme_next : list (R * R) := [(2.5, 0.025); (3, 0.025); (4, 0.02); (5, 0.015)].
Definition readme_dx : R := domain_dx 0.15 512.
(** N, nu, the drift and bracket coefficient at the drivers' values *)
Definition readme_par (c1 : R) : par := mkPar 3 c1 5e-9 1 1 false.
