(** The arguments of the two drivers and what they are turned into.
    Source: /repo/src/hw2d/run.py:27-80, 115-170; /repo/src/hw2d/run2.py:60-119,
            155-217.
    Not modelled here: seed, init_type and init_scale (the initial fields are an
    argument of the model), chunk_size, movie and plotting options, debug. *)
From Coq Require Import Arith ZArith Bool Reals String List.
From Verif Require Import Num NdArray ModelIO ModelRun ModelRunHW ModelDownsample.
Import ListNotations.
Local Open Scope R_scope.
Local Open Scope string_scope.

(** run.py:27-80, run2.py:60-119 *)
Record run_args := mkArgs {
  a_step : R; a_adaptive : bool; a_end : R; a_grid : nat; a_k0 : R; a_N : Z; a_nu : R; a_c1 : R;
  a_kappa : R; a_pb : R; a_zonal : bool; a_show : string; a_rec : R; a_continue : bool; a_blen : nat; a_snaps : Z;
  a_factor : R; a_last : bool; a_props : list string; a_force : bool }.

(** run.py:166-170, run2.py:213-217 *)
Definition save_size (a : run_args) : Z :=
  if Req_EM_T (a_factor a) 1 then Z.of_nat (a_grid a) else round_div (a_grid a) (a_factor a).
(** run.py:233, 269; run2.py:304, 400 *)
Definition down_fnc (a : run_args) : option (arr R -> nd R) :=
  if Req_EM_T (a_factor a) 1 then None else Some (fun v => fourier_downsample (Ok v) (a_factor a)).

Definition args_cfg (phys : physics (T := R)) (props : list string) (a : run_args) : cfg (arr R) R :=
  mkCfg (a_step a) (a_end a) phys (domain_dx (a_k0 a) (a_grid a)) (a_c1 a)
    (Z.of_nat (a_grid a)) (Z.of_nat (a_grid a)) (save_size a) (save_size a) true (a_rec a) (a_continue a)
    (a_blen a) (a_snaps a) (down_fnc a) (a_last a) (a_force a) (a_adaptive a) props.
(** run.py:115-155 *)
Definition run_cfg (a : run_args) : cfg (arr R) R :=
  args_cfg (physics_params (domain_dx (a_k0 a) (a_grid a)) (a_N a) (a_c1 a) (a_nu a) (a_k0 a) (a_pb a) (a_kappa a)) (a_props a) a.
(** run2.py:172-173: the shown property is appended to the caller's list *)
Definition effective_props (a : run_args) : list string :=
  ModelRun.effective_props (a_props a) (a_show a).
(** run2.py:155-217 *)
Definition run2_cfg (a : run_args) : cfg (arr R) R :=
  args_cfg (physics_params2 (domain_dx (a_k0 a) (a_grid a)) (a_N a) (a_c1 a) (a_nu a) (a_k0 a) (a_pb a) (a_kappa a) (a_zonal a))
    (effective_props a) a.
