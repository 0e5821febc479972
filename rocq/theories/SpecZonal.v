(** Fields that vary along x only, and the transport of y-averages. *)
From Coq Require Import List Arith ZArith Reals.
From Verif Require Import Num NdArray Spec SpecHW.
Local Open Scope R_scope.

(** the same in every row *)
Definition xonly (ny nx : nat) (f : field) : Prop := forall i j, (i < ny)%nat -> (j < nx)%nat -> f i j = f 0%nat j.

(** transport of g along x by the velocity - d_y phi, averaged over y: in
    column j, and through the face between the columns j and j + 1, with weights
    4 for the face-averaged fields and 1 for each of the two columns *)
Definition colflux (ny : nat) (dx : R) (phi g : field) (j : nat) : R := yavg ny (fun i j => - cdy ny dx phi i j * g i j) j.
Definition xflux (ny nx : nat) (dx : R) (phi g : field) (j : nat) : R :=
  let face (h : field) : field := fun i _ => (h i j + h i (sh nx j 1)) / 2 in
  (4 * colflux ny dx (face phi) (face g) j + colflux ny dx phi g j + colflux ny dx phi g (sh nx j 1)) / 6.
