(** Arithmetic interface used by every numerical model function.

    A [Num A] is a bundle of operations with NO laws.  A theorem quantified
    over an arbitrary [Num A] therefore speaks about the exact sequence of
    arithmetic operations the Python code performs, whatever those operations
    compute (binary64 with NaN and infinities included). *)
From Coq Require Import ZArith Reals QArith Floats.SpecFloat.

Class Num (A : Type) := MkNum {
  nzero : A;                    (* default cell, numpy zeros *)
  nofZ  : Z -> A;               (* an integer literal used as a number *)
  nadd  : A -> A -> A;
  nsub  : A -> A -> A;
  nmul  : A -> A -> A;
  ndiv  : A -> A -> A;
  nopp  : A -> A;
  npow  : A -> nat -> A;        (* x ** k for a natural k *)
  neqb  : A -> A -> bool;       (* x == y *)
  nleb  : A -> A -> bool;       (* x <= y *)
  nltb  : A -> A -> bool        (* x < y *)
}.

(** Python truthiness of a number, as in [if nu:]. *)
Definition truthy {A} `{Num A} (x : A) : bool := negb (neqb x nzero).

(** Exact real arithmetic. *)
#[export] Instance NumR : Num R := {|
  nzero := 0%R; nofZ := IZR;
  nadd := Rplus; nsub := Rminus; nmul := Rmult; ndiv := Rdiv; nopp := Ropp;
  npow := pow;
  neqb := fun x y => if Req_EM_T x y then true else false;
  nleb := fun x y => if Rle_dec x y then true else false;
  nltb := fun x y => if Rlt_dec x y then true else false |}.

(** Exact rational arithmetic: the same model, but computable by the kernel. *)
Definition NumQ : Num Q := {|
  nzero := 0%Q; nofZ := inject_Z;
  nadd := fun x y => Qred (Qplus x y);
  nsub := fun x y => Qred (Qminus x y);
  nmul := fun x y => Qred (Qmult x y);
  ndiv := fun x y => Qred (Qdiv x y);
  nopp := fun x => Qred (Qopp x);
  npow := fun x k => Qred (Qpower x (Z.of_nat k));
  neqb := Qeq_bool;
  nleb := Qle_bool;
  nltb := fun x y => negb (Qle_bool y x) |}.

(** IEEE-754 binary64, round to nearest even, from the standard library's
    executable specification.  [x ** k] is iterated multiplication. *)
Definition f64 := spec_float.
Definition f64_ofZ (z : Z) : f64 := binary_normalize 53 1024 z 0 false.
Fixpoint f64_pow (x : f64) (k : nat) : f64 :=
  match k with
  | O => f64_ofZ 1
  | S O => x
  | S k' => SFmul 53 1024 (f64_pow x k') x
  end.
Definition NumF64 : Num f64 := {|
  nzero := f64_ofZ 0; nofZ := f64_ofZ;
  nadd := SFadd 53 1024; nsub := SFsub 53 1024; nmul := SFmul 53 1024;
  ndiv := SFdiv 53 1024; nopp := SFopp;
  npow := f64_pow;
  neqb := SFeqb; nleb := SFleb; nltb := SFltb |}.
