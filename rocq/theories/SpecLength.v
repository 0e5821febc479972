(** The unit of length of the uncoupled system. *)
From Coq Require Import Arith ZArith Reals.
From Verif Require Import Num NdArray Spec SpecHW.
Local Open Scope R_scope.
(** q are the parameters p when lengths are s times as large: viscosity s^(2N)
    times as large, background gradient s times as small *)
Definition resized (s : R) (p q : par) : Prop :=
  pN q = pN p /\ pzon q = pzon p /\ pc1 q = pc1 p /\ pnu q = (s ^ 2) ^ pN p * pnu p /\ ppb q = ppb p /\ s * pkap q = pkap p.
