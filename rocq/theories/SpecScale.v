(** Units of amplitude and time, and the linear system. *)
From Coq Require Import Arith ZArith Reals.
From Verif Require Import Num NdArray Spec SpecHW.
Local Open Scope R_scope.

(** q are the parameters p when amplitudes are measured in units that make all
    fields a times as large and rates tau times as large *)
Definition rescaled (a tau : R) (p q : par) : Prop :=
  pN q = pN p /\ pzon q = pzon p /\ pc1 q = tau * pc1 p /\ pnu q = tau * pnu p /\ pkap q = tau * pkap p /\ a * ppb q = tau * ppb p.
(** without the bracket the system is linear *)
Definition linear_part (p : par) : par := mkPar (pN p) (pc1 p) (pnu p) 0 (pkap p) (pzon p).
