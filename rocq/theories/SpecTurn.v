(** Turned and reflected fields. *)
From Coq Require Import Arith ZArith Reals.
From Verif Require Import Num NdArray Spec SpecHW.
Local Open Scope R_scope.

(** x and y exchanged: a field on ny x nx becomes one on nx x ny *)
Definition transposed (f : field) : field := fun i j => f j i.
(** mirror image in y: row i <-> row -i (mod ny) *)
Definition mirror_y (ny : nat) (f : field) : field := fun i j => f (pidx ny (- Z.of_nat i)) j.
(** turned by a right angle: what was at (row i, column j) is at row j, column -i *)
Definition quarter_turn (ny : nat) (f : field) : field := fun i j => f (pidx ny (- Z.of_nat j)) i.
Definition half_turn (ny nx : nat) (f : field) : field := fun i j => f (pidx ny (- Z.of_nat i)) (pidx nx (- Z.of_nat j)).
(** the same parameters with another background gradient *)
Definition with_kappa (p : par) (k : R) : par := mkPar (pN p) (pc1 p) (pnu p) (ppb p) k (pzon p).
