(** The operators of Namespace as Python dispatches them.
    Source: /repo/src/hw2d/utils/namespaces.py.

    Operands are numbers or Namespaces.  Numpy arrays as operands are not
    modelled (numpy would apply the operator to every element).  Numbers stored
    in a Namespace are 0-d arrays, so a Python float divided by zero is the
    quotient of the arithmetic and not a ZeroDivisionError. *)
From Coq Require Import List Arith ZArith Bool String.
From Verif Require Import Num NdArray ModelHW.
Import ListNotations.

Section Namespace.
Context {A : Type} {Nm : Num A}.

(** a Python number or a Namespace *)
Inductive pyval := PNum (x : A) | PNs (d : ns A).
(** the operators +, -, * and / *)
Inductive pyop := OAdd | OSub | OMul | OTrueDiv.

(** numbers: Python's own arithmetic *)
Definition num_op (o : pyop) : A -> A -> A :=
  match o with OAdd => nadd | OSub => nsub | OMul => nmul | OTrueDiv => ndiv end.

(** namespaces.py:2-6 [__mul__], 16-20 [__truediv__], 28-32 [__add__], 36-40 [__sub__] *)
Definition ns_forward (o : pyop) (self : ns A) (other : pyval) : res (ns A) :=
  match o, other with
  | OAdd, PNs d => ns_add self d
  | OAdd, PNum x => ns_add_num self x
  | OSub, PNs d => ns_sub self d
  | OSub, PNum x => ns_sub_num self x
  | OMul, PNs d => ns_mul self d
  | OMul, PNum x => ns_scale self x
  | OTrueDiv, PNs d => ns_div self d
  | OTrueDiv, PNum x => ns_div_num self x
  end.

(** namespaces.py:8 [__rmul__ = __mul__], 34 [__radd__ = __add__]; there is no
    [__rsub__] and no [__rtruediv__]: [__div__] and [__rdiv__] (10-14, 22-26) are
    methods of Python 2, which Python 3 never calls *)
Definition ns_reflected (o : pyop) : option (ns A -> pyval -> res (ns A)) :=
  match o with
  | OAdd => Some (ns_forward OAdd)
  | OMul => Some (ns_forward OMul)
  | OSub | OTrueDiv => None
  end.

(** x o y: the method of x; a number does not know Namespaces, then the
    reflected method of y; without one TypeError *)
Definition py_bin (o : pyop) (x y : pyval) : res pyval :=
  match x, y with
  | PNum a, PNum b => Ok (PNum (num_op o a b))
  | PNs d, _ => let* r := ns_forward o d y in Ok (PNs r)
  | PNum _, PNs d => match ns_reflected o with
                     | Some m => let* r := m d x in Ok (PNs r)
                     | None => Exn TypeError
                     end
  end.
End Namespace.
Arguments pyval : clear implicits.
