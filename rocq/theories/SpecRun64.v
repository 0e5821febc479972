(** Vocabulary of the theorem about the file left by a run in binary64. *)
From Coq Require Import Arith ZArith Reals Bool String List SpecFloat.
From Verif Require Import Num NdArray Spec SpecHW SpecFourier SpecRound SpecRoundStep ModelHW ModelIO ModelRun SpecRun ModelRun64.
Import ListNotations.
Local Open Scope R_scope.
Local Existing Instance TimeF64.
Local Existing Instance NumF64.

(** the recorded iterations of a fresh run of [n] steps: the start, unless a
    recording start time is given, and then those of the loop *)
Definition entries {V T} {TN : TimeNum T} (c : cfg V T) (n : nat) : list nat :=
  ((if truthy (c_rec c) then [] else [0%nat]) ++ frames c (time1 c) n)%list.

(** error after storing a number of size at most [B] as a float32 *)
Definition stored (e B : R) : R := e + (/ 2 ^ 24 * B + / 2 ^ 150).

(** the file holds, for the iterations [js], the frames [D j], [W j], [F j]
    and the times [Tm j] *)
Definition holds64 (ny nx : nat) (g : h5 (arr f64) f64) (js : list nat) (D W F : nat -> nat -> nat -> f64) (Tm : nat -> f64) : Prop :=
  dget (dsets g) "density" = Some (Rows (map (fun j => RFrame (grid ny nx (D j))) js)) /\
  dget (dsets g) "omega" = Some (Rows (map (fun j => RFrame (grid ny nx (W j))) js)) /\
  dget (dsets g) "phi" = Some (Rows (map (fun j => RFrame (grid ny nx (F j))) js)) /\
  dget (dsets g) "time" = Some (Rows (map (fun j => RNum (Tm j)) js)).

(** the frame of one potential within [e] of the exact potential of the real
    state [y] *)
Definition phi_near (ny nx : nat) (h e : R) (phi : nat -> nat -> f64) (y : state) : Prop :=
  forall i j, (i < ny)%nat -> (j < nx)%nat -> near (phi i j) (invlap ny nx h (snd y) i j) e.

(** the potential has the shape of the vorticity *)
Definition keeps_shape (ny nx : nat) (dx : f64) (get_phi : nd f64 -> f64 -> nd f64) : Prop :=
  forall om p, get_phi (Ok (grid ny nx om)) dx = Ok p -> exists phi, p = grid ny nx phi.

(** a call of run.py that starts a new file, keeps the full resolution, asks
    for no properties and makes [k] steps of length [dt] *)
Record call64 (dx : f64) (N : nat) (c1 nu k0 pb kap dt : f64) (c : cfg (arr f64) f64) (fs : option (h5 (arr f64) f64)) (k : nat) : Prop := {
  cl_k0 : truthy k0 = true;
  cl_out : c_output c = true; cl_new : fs = None \/ c_force c = true;
  cl_blen : (1 <= c_blen c)%nat; cl_snaps : (1 <= c_snaps c)%Z;
  cl_phys : c_phys c = physics_params64 dx (Z.of_nat N) c1 nu k0 pb kap;
  cl_step : c_step c = dt; cl_dx : c_dx c = dx; cl_down : c_down c = None; cl_props : c_props c = [];
  cl_steps : exists z, t_int (ndiv (nsub (c_end c) (nofZ 0)) (c_step c)) = Ok z /\ k = Z.to_nat z /\ (z <= 2 ^ 53)%Z }.
