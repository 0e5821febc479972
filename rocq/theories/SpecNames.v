(** Vocabulary for C112. *)
From Coq Require Import Arith ZArith Bool String List.
From Verif Require Import Num NdArray ModelIO ModelRun SpecIO SpecRun.
Import ListNotations.
Local Open Scope string_scope.

(** the file just after its creation by run2: the parameters, an empty dataset
    for everything to be recorded, and the zeros reserved for the last state *)
Definition empty_file {V T} {TN : TimeNum T} (s : sim V T) (c : cfg V T) (f : h5 V T) : Prop :=
  attrs f = save_params_of c (c_phys c) (c_adaptive c) /\
  (forall k, In k (ks2 c) -> dget (dsets f) k = Some (Rows [])) /\
  (forall k, In k state_keys -> dget (dsets f) k = if add_last c then Some (Whole (s_zeroV s)) else None).

(** names run2 can compute at full resolution (README and run2.py:94-103) *)
Definition computable : list string :=
  ["gamma_n"; "gamma_n_spectral"; "gamma_c"; "energy"; "thermal_energy"; "kinetic_energy"; "enstrophy"; "enstrophy_phi"].
(** names of its table whose functions take other arguments *)
Definition uncallable : list string := ["DE"; "DU"; "dE_dt"; "dU_dt"].
(** [e] is what asking for [n] gives *)
Definition name_error (n : string) (e : exn) : Prop :=
  (In n uncallable /\ e = TypeError) \/ (~ In n computable /\ ~ In n uncallable /\ e = KeyError).
