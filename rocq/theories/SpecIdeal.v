(** The system with the coupling of density and vorticity switched off (c1 = 0):
    a two-dimensional flow with vorticity o and a field n carried by it. *)
From Coq Require Import List Arith ZArith Reals.
From Verif Require Import Num NdArray Spec SpecFourier SpecHW.
Import ListNotations.
Local Open Scope R_scope.

(** mean n^2, mean o^2, mean n o, and - mean(phi o) = mean |grad phi|^2 *)
Definition mean_nn (ny nx : nat) (y : state) : R := gmean ny nx (fun i j => fst y i j ^ 2).
Definition mean_oo (ny nx : nat) (y : state) : R := gmean ny nx (fun i j => snd y i j ^ 2).
Definition mean_no (ny nx : nat) (y : state) : R := gmean ny nx (fun i j => fst y i j * snd y i j).
Definition kinetic (ny nx : nat) (dx : R) (y : state) : R :=
  - gmean ny nx (fun i j => invlap ny nx dx (snd y) i j * snd y i j).

(** q is a quadratic invariant of the flow whatever the density does, or of
    flow and density together *)
Inductive flow_invariant (ny nx : nat) (dx : R) : (state -> R) -> Prop :=
| fi_oo : flow_invariant ny nx dx (mean_oo ny nx)
| fi_kin : flow_invariant ny nx dx (kinetic ny nx dx).
Inductive full_invariant (ny nx : nat) (dx : R) : (state -> R) -> Prop :=
| fu_flow q : flow_invariant ny nx dx q -> full_invariant ny nx dx q
| fu_nn : full_invariant ny nx dx (mean_nn ny nx)
| fu_no : full_invariant ny nx dx (mean_no ny nx).
