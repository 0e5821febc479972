(** Modes that combine to a mode, and sets of modes closed under that. *)
From Coq Require Import Arith ZArith Bool Reals.
From Verif Require Import NdArray Spec Cplx SpecFourier SpecHW SpecLinear.
(** the mode (k, l) - (k', l') on the grid *)
Definition rest_y (ny k k' : nat) : nat := pidx ny (Z.of_nat k - Z.of_nat k').
(** no two modes present in f and g add up to (k, l) *)
Definition no_pair (ny nx k l : nat) (f g : field) : Prop := forall k' l', (k' < ny)%nat -> (l' < nx)%nat ->
  coefficient ny nx k' l' f = C0 \/ coefficient ny nx (rest_y ny k k') (rest_y nx l l') g = C0.
(** sums of modes of the set are in the set *)
Definition closed_set (ny nx : nat) (H : nat -> nat -> bool) : Prop := forall k l k' l', (k < ny)%nat -> (l < nx)%nat -> (k' < ny)%nat -> (l' < nx)%nat ->
  H k' l' = true -> H (rest_y ny k k') (rest_y nx l l') = true -> H k l = true.
Definition only_modes (ny nx : nat) (H : nat -> nat -> bool) (f : field) : Prop := forall k l, (k < ny)%nat -> (l < nx)%nat ->
  H k l = false -> coefficient ny nx k l f = C0.
(** wave numbers up to a in y and b in x *)
Definition band (ny nx : nat) (a b : Z) (k l : nat) : bool := ((Z.abs (SpecFourier.sfreq ny k) <=? a) && (Z.abs (SpecFourier.sfreq nx l) <=? b))%Z%bool.
