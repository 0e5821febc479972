(** A model of the numpy operations hw2d uses.

    Arrays carry a shape and flat row-major data.  The shape (and every
    index) is stored INNERMOST AXIS FIRST: a Python array of shape
    (t, y, x) has [shape = [x; y; t]] and entry a[s, i, j] is [get a [j; i; s]].
    Axis positions below are counted from the end: position 0 is Python axis
    -1, position 1 is axis -2, ...

    Python exceptions are values of [res]. *)
From Coq Require Import List Arith ZArith Lia Bool.
From Verif Require Import Num.
Import ListNotations.

Inductive exn :=
| ValueError | IndexError | KeyError | NameError | TypeError
| AssertionError | AttributeError | UnboundLocalError | ZeroDivisionError
| BaseException | FileNotFoundError | OverflowError | OutOfFuel
| Unmodelled. (* input outside the modelled domain: no claim is made *)

Inductive res (A : Type) := Ok (a : A) | Exn (e : exn).
Arguments Ok {A} a.
Arguments Exn {A} e.

Definition bind {A B} (x : res A) (f : A -> res B) : res B :=
  match x with Ok a => f a | Exn e => Exn e end.
Notation "'let*' x ':=' m 'in' k" := (bind m (fun x => k))
  (at level 200, x name, m at level 100, k at level 200, right associativity).

Record arr (A : Type) := mkArr { shape : list nat; data : list A }.
Arguments mkArr {A} shape data.
Arguments shape {A} a.
Arguments data {A} a.

(** Row-major enumeration: position 0 (the last Python axis) runs fastest. *)
Fixpoint indices (s : list nat) : list (list nat) :=
  match s with
  | [] => [[]]
  | d :: s' => flat_map (fun ix => map (fun i => i :: ix) (seq 0 d)) (indices s')
  end.

Fixpoint flat (s ix : list nat) : nat :=
  match s, ix with
  | d :: s', i :: ix' => i + d * flat s' ix'
  | _, _ => 0
  end.

Definition size (s : list nat) : nat := fold_right Nat.mul 1 s.

(** [ix] is a valid index for shape [s]. *)
Definition inb (s ix : list nat) : Prop := Forall2 lt ix s.

Definition wf {A} (a : arr A) : Prop := length (data a) = size (shape a).

Definition build {A} (s : list nat) (f : list nat -> A) : arr A :=
  mkArr s (map f (indices s)).

Section Ops.
Context {A : Type} {N : Num A}.

Definition get (a : arr A) (ix : list nat) : A :=
  nth (flat (shape a) ix) (data a) nzero.

Definition nd := res (arr A).

(** A Python number seen by numpy: a 0-d array. *)
Definition sc (c : A) : nd := Ok (build [] (fun _ => c)).

(** Unary elementwise function. *)
Definition map1 (f : A -> A) (x : nd) : nd :=
  let* a := x in Ok (mkArr (shape a) (map f (data a))).

(** numpy broadcasting of two shapes (aligned at the last axis). *)
Fixpoint bshape (s t : list nat) : option (list nat) :=
  match s, t with
  | [], t => Some t
  | s, [] => Some s
  | a :: s', b :: t' =>
      match bshape s' t' with
      | None => None
      | Some u =>
          if a =? b then Some (a :: u)
          else if a =? 1 then Some (b :: u)
          else if b =? 1 then Some (a :: u)
          else None
      end
  end.

(** The index into an operand of shape [s] used for result index [ix]. *)
Fixpoint bidx (s ix : list nat) : list nat :=
  match s, ix with
  | d :: s', i :: ix' => (if d =? 1 then 0 else i) :: bidx s' ix'
  | _, _ => []
  end.

(** Binary elementwise operation with broadcasting; incompatible shapes raise
    ValueError ("operands could not be broadcast together"). *)
Definition bc2 (f : A -> A -> A) (a b : arr A) : nd :=
  match bshape (shape a) (shape b) with
  | None => Exn ValueError
  | Some u => Ok (build u (fun ix => f (get a (bidx (shape a) ix)) (get b (bidx (shape b) ix))))
  end.

Definition lift2 (f : A -> A -> A) (x y : nd) : nd :=
  let* a := x in let* b := y in bc2 f a b.

Definition add_ := lift2 nadd.
Definition sub_ := lift2 nsub.
Definition mul_ := lift2 nmul.
Definition div_ := lift2 ndiv.
Definition neg_ := map1 nopp.
Definition powk (x : nd) (k : nat) : nd := map1 (fun v => npow v k) x.

(** In-place [a += b]: the result must keep the shape of [a]. *)
Definition iadd (x y : nd) : nd :=
  let* a := x in let* b := y in
  let* c := bc2 nadd a b in
  if list_eq_dec Nat.eq_dec (shape c) (shape a) then Ok c else Exn ValueError.

(** ** Slicing *)

(** Python slice start:stop:step with a positive step. *)
Record pslice := PS { ps_lo : option Z; ps_hi : option Z; ps_step : nat }.

Definition clip (n z : Z) : Z :=
  (Z.max 0 (Z.min n (if z <? 0 then z + n else z)))%Z.

Definition ps_start (s : pslice) (n : nat) : nat :=
  Z.to_nat (clip (Z.of_nat n) (match ps_lo s with Some z => z | None => 0%Z end)).
Definition ps_stop (s : pslice) (n : nat) : nat :=
  Z.to_nat (clip (Z.of_nat n) (match ps_hi s with Some z => z | None => Z.of_nat n end)).
(** number of selected entries: ceil((stop-start)/step) *)
Definition ps_len (s : pslice) (n : nat) : nat :=
  (ps_stop s n - ps_start s n + (ps_step s - 1)) / ps_step s.

Fixpoint upd (k : nat) (f : nat -> nat) (l : list nat) : list nat :=
  match l, k with
  | [], _ => []
  | x :: l', O => f x :: l'
  | x :: l', S k' => x :: upd k' f l'
  end.

Definition dim (a : arr A) (k : nat) : nat := nth k (shape a) 0.

Definition slice_pos (k : nat) (s : pslice) (a : arr A) : arr A :=
  build (upd k (ps_len s) (shape a))
        (fun ix => get a (upd k (fun i => ps_start s (dim a k) + i * ps_step s) ix)).

(** a[..., sy, sx] *)
Definition sl2 (sy sx : pslice) (x : nd) : nd :=
  let* a := x in
  if length (shape a) <? 2 then Exn IndexError
  else Ok (slice_pos 0 sx (slice_pos 1 sy a)).

(** a[s0, s1] : slices of the FIRST two Python axes *)
Definition slf2 (s0 s1 : pslice) (x : nd) : nd :=
  let* a := x in
  let r := length (shape a) in
  if r <? 2 then Exn IndexError
  else Ok (slice_pos (r - 2) s1 (slice_pos (r - 1) s0 a)).

(** the slices that occur in the code *)
Definition s_all : pslice := PS None None 1.            (* :     *)
Definition s_mid : pslice := PS (Some 1%Z) (Some (-1)%Z) 1. (* 1:-1  *)
Definition s_lo  : pslice := PS (Some 0%Z) (Some (-2)%Z) 1. (* 0:-2  *)
Definition s_hi  : pslice := PS (Some 2%Z) None 1.        (* 2:    *)

(** ** Periodic padding: np.pad(..., mode="wrap") *)

(** Position of (possibly negative) index z in a periodic axis of length n. *)
Definition pidx (n : nat) (z : Z) : nat := Z.to_nat (z mod Z.of_nat n).

(** One axis.  numpy refuses to wrap-pad an empty axis (ValueError); padding
    wider than the axis repeats it (strict multiples, numpy >= 1.25). *)
Definition pad_pos (k b e : nat) (x : nd) : nd :=
  let* a := x in
  let n := dim a k in
  if (n =? 0) && negb (b + e =? 0) then Exn ValueError
  else Ok (build (upd k (fun d => b + d + e) (shape a))
       (fun ix => get a (upd k (fun i => pidx n (Z.of_nat i - Z.of_nat b)) ix))).

(** np.pad(a, w, "wrap"): the same width on every axis. *)
Fixpoint pad_axes (ks : list nat) (w : nat) (x : nd) : nd :=
  match ks with
  | [] => x
  | k :: ks' => pad_axes ks' w (pad_pos k w w x)
  end.
Definition pad_all (w : nat) (x : nd) : nd :=
  let* a := x in pad_axes (seq 0 (length (shape a))) w (Ok a).

(** np.pad with widths (0,0) everywhere and (1,1) on the last two axes. *)
Definition pad_last2 (x : nd) : nd :=
  let* a := x in
  if length (shape a) <? 2 then Exn IndexError
  else pad_axes [0; 1] 1 (Ok a).

(** ** Reductions *)

(** Sequential sum of f 0 ... f (n-1).  numpy sums pairwise; the order only
    matters for rounding, and no bit-exact theorem below involves a sum. *)
Fixpoint nsum (n : nat) (f : nat -> A) : A :=
  match n with
  | O => nzero
  | S n' => nadd (nsum n' f) (f n')
  end.

(** np.mean(x, axis=(-1,-2)) *)
Definition mean_last2 (x : nd) : nd :=
  let* a := x in
  match shape a with
  | nx :: ny :: rest =>
      Ok (build rest (fun r =>
        ndiv (nsum ny (fun i => nsum nx (fun j => get a (j :: i :: r))))
             (nofZ (Z.of_nat (ny * nx)))))
  | _ => Exn ValueError
  end.

(** np.mean(x, axis=(-1,-2), keepdims=True) *)
Definition mean_last2_keep (x : nd) : nd :=
  let* a := x in
  match shape a with
  | nx :: ny :: rest =>
      Ok (build (1 :: 1 :: rest) (fun ix =>
        ndiv (nsum ny (fun i => nsum nx (fun j => get a (j :: i :: skipn 2 ix))))
             (nofZ (Z.of_nat (ny * nx)))))
  | _ => Exn ValueError
  end.

(** np.mean(x, axis=-1) *)
Definition mean_last (x : nd) : nd :=
  let* a := x in
  match shape a with
  | nx :: rest =>
      Ok (build rest (fun r =>
        ndiv (nsum nx (fun j => get a (j :: r))) (nofZ (Z.of_nat nx))))
  | _ => Exn ValueError
  end.

(** np.mean(x, axis=-2, keepdims=True) *)
Definition mean_y_keep (x : nd) : nd :=
  let* a := x in
  match shape a with
  | nx :: ny :: rest =>
      Ok (build (nx :: 1 :: rest) (fun ix =>
        ndiv (nsum ny (fun i => get a (nth 0 ix 0 :: i :: skipn 2 ix)))
             (nofZ (Z.of_nat ny))))
  | _ => Exn ValueError
  end.

(** np.mean(x) over all entries, as a 0-d array *)
Definition mean_all (x : nd) : nd :=
  let* a := x in
  Ok (build [] (fun _ =>
    ndiv (nsum (length (data a)) (fun k => nth k (data a) nzero))
         (nofZ (Z.of_nat (length (data a)))))).

(** ** Named constructors used in statements *)

(** A stack of 2-D frames: Python shape (rest reversed, ny, nx). *)
Definition stack (rest : list nat) (ny nx : nat) (F : list nat -> nat -> nat -> A) : arr A :=
  build (nx :: ny :: rest) (fun ix => F (skipn 2 ix) (nth 1 ix 0) (nth 0 ix 0)).

(** A 2-D Python array of shape (ny, nx) with entry [i, j] = f i j. *)
Definition grid (ny nx : nat) (f : nat -> nat -> A) : arr A :=
  stack [] ny nx (fun _ => f).

(** Entry [i, j] of a 2-D Python array. *)
Definition at2 (a : arr A) (i j : nat) : A := get a [j; i].

(** A Python scalar / 0-d array. *)
Definition scal (c : A) : arr A := build [] (fun _ => c).

End Ops.
Arguments nd A : clear implicits.

Declare Scope nd_scope.
Delimit Scope nd_scope with nd.
Infix "+" := add_ : nd_scope.
Infix "-" := sub_ : nd_scope.
Infix "*" := mul_ : nd_scope.
Infix "/" := div_ : nd_scope.
