(** What it means for a plasma Namespace to hold given fields, and which HW
    objects the theorems speak about. *)
From Coq Require Import List Arith ZArith Reals String.
From Verif Require Import Num NdArray Spec ModelHW ModelBackend SpecHW.
Import ListNotations.
Local Open Scope R_scope.

(** numpy schemes, or numba schemes on axes of at most 65536 cells *)
Definition backend_ok (ny nx : nat) (b : backend R) : Prop :=
  b = np_backend \/ (b = nb_backend /\ (Z.of_nat ny <= 65536)%Z /\ (Z.of_nat nx <= 65536)%Z).

(** the HW object built from parameters [p]; dx0 is its own grid spacing *)
Definition hw_of (b : backend R) (p : par) (dx0 : R) (test : bool) : hw R :=
  hw_init b dx0 (Z.of_nat (pN p)) (pc1 p) (pnu p) (ppb p) (pkap p) (pzon p) test.

(** equality on the cells of the grid *)
Definition agree (ny nx : nat) (f g : field) : Prop :=
  forall i j, (i < ny)%nat -> (j < nx)%nat -> f i j = g i j.
Definition sagree (ny nx : nat) (y z : state) : Prop :=
  agree ny nx (fst y) (fst z) /\ agree ny nx (snd y) (snd z).

(** a well-formed plasma Namespace holding the given fields and age *)
Record plasma_ok (test : bool) (ny nx : nat) (pl : ns R) (n o phi : field) (a : R) : Prop := {
  po_nodup : NoDup (ns_keys pl);
  po_keys : forall k, In k (ns_keys pl) ->
    In k ["density"; "omega"; "phi"; "age"]%string \/ (test = true /\ In k ["dE"; "dU"]%string);
  po_n : ns_get pl "density" = Ok (grid ny nx n);
  po_o : ns_get pl "omega" = Ok (grid ny nx o);
  po_p : ns_get pl "phi" = Ok (grid ny nx phi);
  po_a : ns_get pl "age" = Ok (scal a);
  po_s : forall k v, In k ["dE"; "dU"]%string -> ns_get pl k = Ok v -> exists e, v = scal e }.

(** keyword arguments gradient_2d accepts: the two fields, an optional
    numeric age, nothing that clashes with its own parameters *)
Record args_ok (ny nx : nat) (y : ns R) (n o : field) : Prop := {
  ao_n : ns_get y "density" = Ok (grid ny nx n);
  ao_o : ns_get y "omega" = Ok (grid ny nx o);
  ao_r : forall k, In k ("debug"%string :: reserved) -> ~ In k (ns_keys y);
  ao_a : forall v, ns_get y "age" = Ok v -> exists a, v = scal a }.
