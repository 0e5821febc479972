(** Spread of the potential vorticity: words for C151. *)
From Coq Require Import List Arith ZArith Reals.
From Verif Require Import Num NdArray Spec SpecFourier SpecHW SpecAccount.
Local Open Scope R_scope.

(** mean square of the deviation of n - o from its own mean *)
Definition pv (y : state) : field := fun i j => fst y i j - snd y i j.
Definition spread (ny nx : nat) (y : state) : R :=
  gmean ny nx (fun i j => (pv y i j - gmean ny nx (pv y)) ^ 2).
