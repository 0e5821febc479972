(** Densities carried by a steady flow. *)
From Coq Require Import List Arith ZArith Reals.
From Verif Require Import Num NdArray Spec SpecHW SpecPlasma.
Local Open Scope R_scope.

(** values of a field differ by at most D *)
Definition spread (ny nx : nat) (D : R) (f : field) : Prop :=
  forall i j i' j', (i < ny)%nat -> (j < nx)%nat -> (i' < ny)%nat -> (j' < nx)%nat -> f i j - f i' j' <= D.

(** the vorticity o does not change under its own flow, and the background
    gradient is not felt: switched off, or the potential does not vary along y *)
Definition steady_flow (p : par) (ny nx : nat) (dx : R) (o : field) : Prop :=
  let phi := invlap ny nx dx o in
  agree ny nx (jacobian ny nx dx phi o) (fconst 0) /\ (pkap p = 0 \/ agree ny nx (cdy ny dx phi) (fconst 0)).

(** k-fold bracket with phi *)
Fixpoint brackets (k ny nx : nat) (dx : R) (phi f : field) : field :=
  match k with O => f | S k' => jacobian ny nx dx phi (brackets k' ny nx dx phi f) end.
Definition msq (ny nx : nat) (f : field) : R := gmean ny nx (fun i j => f i j ^ 2).
