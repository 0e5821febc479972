(** Vocabulary of the property statements: periodic neighbours, sums, means
    and inner products over a grid.  Nothing here mentions the code. *)
From Coq Require Import List Arith ZArith Reals.
From Verif Require Import Num NdArray.
Import ListNotations.

(** the cell [k] steps after cell [i] on a periodic axis with n cells *)
Definition sh (n i : nat) (k : Z) : nat := pidx n (Z.of_nat i + k).

Section Stencils.
Context {A : Type} {N : Num A}.

(** five-point periodic Laplacian, in the evaluation order of the source *)
Definition lap5 (ny nx : nat) (dx : A) (f : nat -> nat -> A) (i j : nat) : A :=
  ndiv
    (nadd (nadd (nsub (nadd (f (sh ny i (-1)) j) (f i (sh nx j (-1))))
                      (nmul (nofZ 4) (f i j)))
                (f i (sh nx j 1)))
          (f (sh ny i 1) j))
    (npow dx 2).

(** its m-fold iterate *)
Fixpoint lap_iter (m : nat) (ny nx : nat) (dx : A) (f : nat -> nat -> A) : nat -> nat -> A :=
  match m with
  | O => f
  | S m' => lap5 ny nx dx (lap_iter m' ny nx dx f)
  end.

(** periodic central differences *)
Definition cdy (ny : nat) (dx : A) (f : nat -> nat -> A) (i j : nat) : A :=
  ndiv (nsub (f (sh ny i 1) j) (f (sh ny i (-1)) j)) (nmul (nofZ 2) dx).
Definition cdx (nx : nat) (dx : A) (f : nat -> nat -> A) (i j : nat) : A :=
  ndiv (nsub (f i (sh nx j 1)) (f i (sh nx j (-1)))) (nmul (nofZ 2) dx).

End Stencils.

Local Open Scope R_scope.

(** sum of f 0 .. f (n-1), over the whole grid, mean and inner product *)
Fixpoint rsum (n : nat) (f : nat -> R) : R :=
  match n with O => 0 | S n' => rsum n' f + f n' end.
Definition gsum (ny nx : nat) (f : nat -> nat -> R) : R :=
  rsum ny (fun i => rsum nx (fun j => f i j)).
Definition gmean (ny nx : nat) (f : nat -> nat -> R) : R :=
  gsum ny nx f / (INR ny * INR nx).
Definition inner (ny nx : nat) (f g : nat -> nat -> R) : R :=
  gsum ny nx (fun i j => f i j * g i j).

(** pointwise algebra of fields *)
Definition fadd (f g : nat -> nat -> R) : nat -> nat -> R := fun i j => f i j + g i j.
Definition fsub (f g : nat -> nat -> R) : nat -> nat -> R := fun i j => f i j - g i j.
Definition fscale (c : R) (f : nat -> nat -> R) : nat -> nat -> R := fun i j => c * f i j.
Definition fmul (f g : nat -> nat -> R) : nat -> nat -> R := fun i j => f i j * g i j.
Definition fconst (c : R) : nat -> nat -> R := fun _ _ => c.
Definition fopp (f : nat -> nat -> R) : nat -> nat -> R := fun i j => - f i j.

(** the field is constant on the grid *)
Definition is_const (ny nx : nat) (f : nat -> nat -> R) : Prop :=
  forall i j i' j', (i < ny)%nat -> (j < nx)%nat -> (i' < ny)%nat -> (j' < nx)%nat ->
    f i j = f i' j'.

(** periodic translation by (sy, sx) cells *)
Definition ftrans (ny nx : nat) (sy sx : Z) (f : nat -> nat -> R) : nat -> nat -> R :=
  fun i j => f (sh ny i sy) (sh nx j sx).

(** forward differences *)
Definition fdy (ny : nat) (f : nat -> nat -> R) (i j : nat) : R := f (sh ny i 1) j - f i j.
Definition fdx (nx : nat) (f : nat -> nat -> R) (i j : nat) : R := f i (sh nx j 1) - f i j.
