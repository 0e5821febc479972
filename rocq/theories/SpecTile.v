(** Domains made of copies of a smaller one. *)
From Coq Require Import Arith ZArith Reals.
From Verif Require Import Num NdArray Spec Cplx SpecHW.
Local Open Scope R_scope.

(** the ny x nx field f repeated in both directions *)
Definition tile (ny nx : nat) (f : field) : field := fun i j => f (i mod ny)%nat (j mod nx)%nat.
(** the Fourier modes present have wavenumbers that are multiples of a in y and
    of b in x *)
Definition only_multiples (a b ny nx : nat) (f : field) : Prop := forall k l, (k < ny)%nat -> (l < nx)%nat ->
  (k mod a <> 0 \/ l mod b <> 0)%nat -> dft2 ny nx (fun i j => RtoC (f i j)) (Z.of_nat k) (Z.of_nat l) = C0.
