(** What a function that works in memory owes to its caller. *)
From Coq Require Import List Arith String.
From Verif Require Import Num NdArray ModelHW ModelHeap.
Import ListNotations.
Local Open Scope string_scope.

Section Spec.
Context {A : Type} {Nm : Num A}.

(** reference r holds the array a *)
Definition holds (h : heap A) (r : ref) (a : arr A) : Prop := nth_error h r = Some a.
(** the arrays of the first k references are unchanged *)
Definition kept (k : nat) (h h' : heap A) : Prop := List.length h <= List.length h' /\ forall r, r < k -> nth_error h' r = nth_error h r.
(** a Namespace of references holds a Namespace of arrays; references may
    occur more than once *)
Definition nsrel (h : heap A) (d : rns) (v : ns A) : Prop :=
  Forall2 (fun kr kv => fst kr = fst kv /\ holds h (snd kr) (snd kv)) d v.
(** references to arrays made after [h], each occurring once *)
Definition fresh (h : heap A) (l : list ref) : Prop := Forall (fun r => List.length h <= r) l /\ NoDup l.

(** [m], started in [h], logs the same calls as [p], leaves the first k arrays
    alone whether or not it raises, raises what [p] raises, and otherwise
    returns what is related to the result of [p] *)
Definition refines {X Y} (k : nat) (h : heap A) (m : H A X) (p : M Y) (Q : heap A -> X -> Y -> Prop) : Prop :=
  let '(l, (h', r)) := m h in
  l = fst p /\ kept k h h' /\
  match r, snd p with
  | Ok x, Ok y => Q h' x y
  | Exn a, Exn b => a = b
  | _, _ => False
  end.

(** schemes on references that compute what [b] computes on arrays, do not
    change arrays they are given, and return a new array or an argument *)
Record scheme_ok (hb : hbackend A) (b : backend A) : Prop := {
  ok_poisson : forall h r a dx, holds h r a ->
    refines (List.length h) h (h_poisson hb r dx) (mlift (poisson_solver b (Ok a) dx))
      (fun h' x y => holds h' x y /\ (List.length h <= x \/ x = r));
  ok_poisson_exn : forall e dx, poisson_solver b (Exn e) dx = Exn e;
  ok_diffuse : forall h r a dx N, holds h r a ->
    refines (List.length h) h (h_diffuse hb r dx N) (mlift (diffuse_N b (Ok a) dx N))
      (fun h' x y => holds h' x y /\ (List.length h <= x \/ x = r));
  ok_bracket : forall h r s a c dx, holds h r a -> holds h s c ->
    refines (List.length h) h (h_bracket hb r s dx) (mlift (poisson_bracket b (Ok a) (Ok c) dx))
      (fun h' x y => holds h' x y /\ (List.length h <= x \/ x = r \/ x = s));
  ok_gradient : forall h r a dx axis, holds h r a ->
    refines (List.length h) h (h_gradient hb r dx axis) (mlift (gradient_func b (Ok a) dx axis))
      (fun h' x y => match x, y with
                     | Some s, Some v => holds h' s v /\ (List.length h <= s \/ s = r)
                     | None, None => True
                     | _, _ => False
                     end) }.
End Spec.
