(** Complex numbers as pairs of reals, roots of unity, and the discrete
    Fourier transform (definitions used by models and specifications). *)
From Coq Require Import Reals ZArith Lra.
From Verif Require Import Num NdArray.
Local Open Scope R_scope.

Record C := mkC { re : R; im : R }.
Definition RtoC (r : R) : C := mkC r 0.
Definition C0 : C := mkC 0 0.
Definition C1 : C := mkC 1 0.
Definition Cadd (a b : C) : C := mkC (re a + re b) (im a + im b).
Definition Copp (a : C) : C := mkC (- re a) (- im a).
Definition Csub (a b : C) : C := mkC (re a - re b) (im a - im b).
Definition Cmul (a b : C) : C := mkC (re a * re b - im a * im b) (re a * im b + im a * re b).
Definition Cconj (a : C) : C := mkC (re a) (- im a).
(** |a|^2 *)
Definition Cnorm2 (a : C) : R := re a * re a + im a * im a.
(** division by a real *)
Definition Cdivr (a : C) (r : R) : C := mkC (re a / r) (im a / r).
(** multiplication by a real *)
Definition Cscal (r : R) (a : C) : C := mkC (r * re a) (r * im a).
Fixpoint Cpow (a : C) (k : nat) : C := match k with O => C1 | S k' => Cmul a (Cpow a k') end.
Definition Cinv (a : C) : C := mkC (re a / Cnorm2 a) (- im a / Cnorm2 a).

(** exp(i t) and the n-th roots of unity exp(2 pi i z / n) *)
Definition cis (t : R) : C := mkC (cos t) (sin t).
Definition wn (n : nat) (z : Z) : C := cis (2 * PI * IZR z / INR n).

Fixpoint csum (n : nat) (f : nat -> C) : C :=
  match n with O => C0 | S n' => Cadd (csum n' f) (f n') end.

(** 2-D forward transform at frequency (k, l), numpy's sign and scale *)
Definition dft2 (ny nx : nat) (f : nat -> nat -> C) (k l : Z) : C :=
  csum ny (fun i => csum nx (fun j =>
    Cmul (f i j) (Cmul (wn ny (- (k * Z.of_nat i))) (wn nx (- (l * Z.of_nat j)))))).

(** 2-D inverse transform at cell (i, j) *)
Definition idft2 (ny nx : nat) (F : nat -> nat -> C) (i j : nat) : C :=
  Cscal (/ (INR ny * INR nx))
    (csum ny (fun k => csum nx (fun l =>
      Cmul (F k l) (Cmul (wn ny (Z.of_nat k * Z.of_nat i)) (wn nx (Z.of_nat l * Z.of_nat j)))))).

(** complex arrays are numpy arrays too; order comparisons are never used *)
#[export] Instance NumC : Num C := {|
  nzero := C0; nofZ := fun z => RtoC (IZR z);
  nadd := Cadd; nsub := Csub; nmul := Cmul;
  ndiv := fun a b => Cmul a (Cinv b); nopp := Copp;
  npow := Cpow;
  neqb := fun x y => if Req_EM_T (re x) (re y) then (if Req_EM_T (im x) (im y) then true else false) else false;
  nleb := fun _ _ => false; nltb := fun _ _ => false |}.
