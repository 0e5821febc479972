(** Vocabulary for runs described by the user's arguments. *)
From Coq Require Import List Arith ZArith Reals Bool String.
Import List.
From Verif Require Import Num NdArray Spec ModelHW ModelBackend SpecHW SpecPlasma ModelIO ModelRun ModelRunHW ModelDownsample ModelArgs SpecRunHW.
Import ListNotations.
Local Open Scope R_scope.

(** the frame f of ny x nx cells resampled to ys x xs cells: rows first *)
Definition resample2 (ys xs ny nx : nat) (f : nat -> nat -> R) (i j : nat) : R :=
  resample1 ys ny (fun i' => resample1 xs nx (f i') j) i.

(** what is saved of a frame: itself, or its resampling to m x m cells *)
Definition frame_fnc (a : run_args) (m : nat) (f : nat -> nat -> R) : nat -> nat -> R :=
  if Req_EM_T (a_factor a) 1 then f else resample2 m m (a_grid a) (a_grid a) f.
(** the physical parameters *)
Definition args_par (a : run_args) (zonal : bool) : par :=
  mkPar (Z.to_nat (a_N a)) (a_c1 a) (a_nu a) (a_pb a) (a_kappa a) zonal.
(** arguments with which a run can start; [m] is the size of the saved frames *)
Record args_ok (b : backend R) (a : run_args) (props : list string) (m : nat) : Prop := {
  ao_b : backend_ok (a_grid a) (a_grid a) b;
  ao_grid : (0 < a_grid a)%nat; ao_k0 : a_k0 a <> 0; ao_N : (0 <= a_N a)%Z;
  ao_m : (0 < m)%nat; ao_size : save_size a = Z.of_nat m;
  ao_blen : (1 <= a_blen a)%nat; ao_snaps : (1 <= a_snaps a)%Z;
  ao_nodup : NoDup props; ao_props : forall k, In k props -> prop_fits k m m }.
