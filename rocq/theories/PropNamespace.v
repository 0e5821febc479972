(** Property C105: the operators +, -, * and / between Namespaces and numbers. *)
From Coq Require Import List Arith ZArith Lia Bool String Reals Lra.
From Verif Require Import Num NdArray NdFacts ModelHW HWFacts LogProps ModelNamespace SpecNamespace NamespaceProps.
Import ListNotations.
Local Open Scope R_scope.

(** C105: + and * of a Namespace with a Namespace or a number, from either side,
    are the operation key by key and cell by cell ... *)
Theorem C105_add (x y : pyval R) d : fits x y d -> exists r, py_bin OAdd x y = Ok (PNs r) /\ keywise Rplus x y d r.
Proof. exact (c105_add x y d). Qed.
Print Assumptions C105_add.
Theorem C105_mul (x y : pyval R) d : fits x y d -> exists r, py_bin OMul x y = Ok (PNs r) /\ keywise Rmult x y d r.
Proof. exact (c105_mul x y d). Qed.
Print Assumptions C105_mul.
(** ... / is the quotient if the Namespace is on the left ... *)
Theorem C105_div (d : ns R) y : fits (PNs d) y d -> exists r, py_bin OTrueDiv (PNs d) y = Ok (PNs r) /\ keywise Rdiv (PNs d) y d r.
Proof. exact (c105_div d y). Qed.
Print Assumptions C105_div.
(** ... - is the difference the wrong way round ... *)
Theorem C105_sub_refuted (d : ns R) y : fits (PNs d) y d ->
  exists r, py_bin OSub (PNs d) y = Ok (PNs r) /\ keywise (fun p q => q - p) (PNs d) y d r.
Proof. exact (c105_sub d y). Qed.
Print Assumptions C105_sub_refuted.
(** ... number - Namespace and number / Namespace raise TypeError: [__rdiv__] is
    never called by Python 3 ... *)
Theorem C105_reflected_refuted (A : Type) (Nm : Num A) o x (d : ns A) : o = OSub \/ o = OTrueDiv -> py_bin o (PNum x) (PNs d) = Exn TypeError.
Proof. exact (c105_reflected o x d). Qed.
Print Assumptions C105_reflected_refuted.

(** ... in whatever arithmetic, a method combines its own value and the other's
    in this order ... *)
Theorem C105_order (A : Type) (Nm : Num A) o (d : ns A) y : fits (PNs d) y d ->
  exists r, py_bin o (PNs d) y = Ok (PNs r) /\
    keywise (match o with OTrueDiv => ndiv | _ => fun own other => num_op o other own end) (PNs d) y d r.
Proof. exact (c105_order o d y). Qed.
Print Assumptions C105_order.
Theorem C105_order_number_left (A : Type) (Nm : Num A) o x (d : ns A) : good d -> o = OAdd \/ o = OMul ->
  exists r, py_bin o (PNum x) (PNs d) = Ok (PNs r) /\ keywise (num_op o) (PNum x) (PNs d) d r.
Proof. exact (c105_order_l o x d). Qed.
Print Assumptions C105_order_number_left.

(** ... a key of the left operand missing on the right is a KeyError, and this
    is the only failure when shapes match; extra keys on the right are dropped ... *)
Theorem C105_key_error (A : Type) (Nm : Num A) o (d e : ns A) : good d -> good e ->
  (forall k a b, ns_get d k = Ok a -> ns_get e k = Ok b -> shape b = shape a) ->
  ((exists r, py_bin o (PNs d) (PNs e) = Ok (PNs r)) <-> forall k, In k (ns_keys d) -> In k (ns_keys e)) /\
  (py_bin o (PNs d) (PNs e) = Exn KeyError <-> exists k, In k (ns_keys d) /\ ~ In k (ns_keys e)).
Proof. exact (c105_key o d e). Qed.
Print Assumptions C105_key_error.

(** ... multiplying and dividing by the same operand gives the Namespace back
    unless it is zero somewhere, and so does subtracting the same operand twice. *)
Theorem C105_mul_div (d : ns R) y : fits (PNs d) y d ->
  (forall k a idx q, ns_get d k = Ok a -> inb (shape a) idx -> holds y k idx q -> q <> 0) ->
  (let* p := py_bin OMul (PNs d) y in py_bin OTrueDiv p y) = Ok (PNs d).
Proof. exact (c105_mul_div d y). Qed.
Print Assumptions C105_mul_div.
Theorem C105_sub_sub (d : ns R) y : fits (PNs d) y d -> (let* p := py_bin OSub (PNs d) y in py_bin OSub p y) = Ok (PNs d).
Proof. exact (c105_sub_sub d y). Qed.
Print Assumptions C105_sub_sub.

(** Two Namespaces with keys in a different order, one key more on the right. *)
Example C105_nonvacuous :
  let d := [("n"%string, grid 1 2 (fun _ j => INR j)); ("t"%string, scal 7)] in
  let e := [("t"%string, scal 2); ("x"%string, scal 9); ("n"%string, grid 1 2 (fun _ _ => 3))] in
  fits (PNs d) (PNs e) d /\ fits (PNum 4) (PNs d) d /\ ~ covers e d /\
  py_bin OMul (PNs d) (PNs e) = Ok (PNs [("n"%string, grid 1 2 (fun _ j => 3 * INR j)); ("t"%string, scal (2 * 7))]).
Proof.
  cbv zeta.
  assert (G1 : good [("n"%string, grid 1 2 (fun _ j => INR j)); ("t"%string, scal 7)]).
  { split; [repeat constructor; cbn; intuition discriminate|]. intros k a. cbn.
    destruct (String.eqb k "n"); [intros [= <-]; apply wf_build|]. destruct (String.eqb k "t"); [intros [= <-]; apply wf_build|discriminate]. }
  assert (G2 : good [("t"%string, scal 2); ("x"%string, scal 9); ("n"%string, grid 1 2 (fun _ _ => 3))]).
  { split; [repeat constructor; cbn; intuition discriminate|]. intros k a. cbn.
    destruct (String.eqb k "t"); [intros [= <-]; apply wf_build|]. destruct (String.eqb k "x"); [intros [= <-]; apply wf_build|].
    destruct (String.eqb k "n"); [intros [= <-]; apply wf_build|discriminate]. }
  split; [|split; [|split]].
  - split; [reflexivity|]. split; [exact G1|]. split; [exact G2|]. intros k a. cbn.
    destruct (String.eqb_spec k "n") as [->|]; [intros [= <-]; cbn; eauto|].
    destruct (String.eqb_spec k "t") as [->|]; [intros [= <-]; cbn; eauto|discriminate].
  - split; [reflexivity|exact G1].
  - intros C. destruct (C "x"%string (scal 9) eq_refl) as (b & Hb & _). discriminate.
  - reflexivity.
Qed.
