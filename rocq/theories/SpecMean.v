(** Constants added to the fields. *)
From Coq Require Import Arith ZArith Reals.
From Verif Require Import Num NdArray Spec SpecHW.
Local Open Scope R_scope.

Definition plus_const (c : R) (f : field) : field := fun i j => f i j + c.
(** rate of the coupling on constants: none in zonal mode *)
Definition mean_rate (p : par) : R := if pzon p then 0 else pc1 p.
(** what one step does to a constant decaying with rate z / dt: the
    exponential series of -z after the fourth (Runge-Kutta) or first (Euler) power *)
Definition decay4 (z : R) : R := 1 - z + z ^ 2 / 2 - z ^ 3 / 6 + z ^ 4 / 24.
Definition decay1 (z : R) : R := 1 - z.
