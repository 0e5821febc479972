(** Single precision numbers, written down independently of the code. *)
From Coq Require Import ZArith Reals.
From Verif Require Import Num NdArray Spec SpecHW.
Local Open Scope R_scope.

(** integer multiples m of a power of two 2^(e-149) with |m| < 2^24 *)
Definition is_single (x : R) : Prop := exists (m : Z) (e : nat), (Z.abs m < 2 ^ 24)%Z /\ x = IZR m * 2 ^ e / 2 ^ 149.
(** y is a nearest single precision number to x *)
Definition nearest_single (x y : R) : Prop := is_single y /\ forall z, is_single z -> Rabs (x - y) <= Rabs (x - z).
(** all values at most 2^127 in size *)
Definition in_range32 (ny nx : nat) (f : field) : Prop := forall i j, (i < ny)%nat -> (j < nx)%nat -> Rabs (f i j) <= 2 ^ 127.
