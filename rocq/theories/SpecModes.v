(** Fields without common modes, and the weights of the modes in the energy. *)
From Coq Require Import Arith ZArith Reals.
From Verif Require Import Num NdArray Spec Cplx SpecFourier SpecHW SpecLinear.
Local Open Scope R_scope.
(** no mode is present in both f and g *)
Definition apart (ny nx : nat) (f g : field) : Prop := forall k l, (k < ny)%nat -> (l < nx)%nat -> coefficient ny nx k l f = C0 \/ coefficient ny nx k l g = C0.
(** square of the modified wave number of central differences along one axis *)
Definition wave2 (n : nat) (dx : R) (k : nat) : R := (sin (2 * PI * INR k / INR n) / dx) ^ 2.
(** square of the size of a coefficient, per cell *)
Definition power (ny nx k l : nat) (f : field) : R := Cnorm2 (coefficient ny nx k l f) / (INR ny * INR nx) ^ 2.
