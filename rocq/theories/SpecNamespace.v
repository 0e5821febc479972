(** Vocabulary for the arithmetic of Namespaces: values under a key, operands
    that fit, and the result one expects of x o y. *)
From Coq Require Import List Arith ZArith Bool String Reals.
From Verif Require Import Num NdArray ModelHW ModelNamespace.
Import ListNotations.

Section S.
Context {A : Type} {Nm : Num A}.
(** the number at cell [idx] under key [k]; a number is itself everywhere *)
Definition holds (v : pyval A) (k : string) (idx : list nat) (x : A) : Prop :=
  match v with
  | PNum y => x = y
  | PNs d => exists a, ns_get d k = Ok a /\ x = get a idx
  end.
(** keys and, under a key, the shape *)
Definition good (d : ns A) : Prop := NoDup (ns_keys d) /\ forall k a, ns_get d k = Ok a -> wf a.
(** [d] has all keys of [e], with arrays of the same shape *)
Definition covers (e d : ns A) : Prop :=
  forall k a, ns_get e k = Ok a -> exists b, ns_get d k = Ok b /\ shape b = shape a.
Definition same_layout (d e : ns A) : Prop :=
  ns_keys d = ns_keys e /\ forall k a, ns_get e k = Ok a -> exists b, ns_get d k = Ok b /\ shape b = shape a.
(** operands with a result: [d] is the one that gives keys and shapes *)
Definition fits (x y : pyval A) (d : ns A) : Prop :=
  match x, y with
  | PNum _, PNum _ => False
  | PNs d1, PNum _ => d = d1 /\ good d1
  | PNum _, PNs d2 => d = d2 /\ good d2
  | PNs d1, PNs d2 => d = d1 /\ good d1 /\ good d2 /\ covers d1 d2
  end.
(** [r] is x o y key by key and cell by cell *)
Definition keywise (op : A -> A -> A) (x y : pyval A) (d r : ns A) : Prop :=
  good r /\ same_layout r d /\
  forall k a u idx p q, ns_get d k = Ok a -> ns_get r k = Ok u -> inb (shape a) idx ->
    holds x k idx p -> holds y k idx q -> get u idx = op p q.
End S.
