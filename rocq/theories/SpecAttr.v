(** The attributes of a recorded file, and the rows of a run that records from
    its m-th snapshot on. *)
From Coq Require Import Arith ZArith Reals String List.
From Verif Require Import Num NdArray Spec SpecFourier SpecHW SpecPlasma ModelHW ModelBackend ModelIO ModelRun ModelRunHW SpecIO SpecRun SpecRunHW.
Import ListNotations.
Local Open Scope string_scope.

(** the keys that describe the run *)
Definition run_keys : list string :=
  ["dt"; "frame_dt"; "x"; "y"; "x_save"; "y_save"; "grid_pts"; "initial_time"; "adaptive_step_size"].

(** the attributes describe the run: time step, time between rows, grid,
    stored grid, first recorded time, and the physics *)
Record describes {V T : Type} {TN : TimeNum T} (c : cfg V T) (adaptive : bool) (a : list (string * attr T)) : Prop := {
  de_dt : dget a "dt" = Some (AT (c_step c));
  de_frame : dget a "frame_dt" = Some (AT (nmul (c_step c) (nofZ (c_snaps c))));
  de_x : dget a "x" = Some (AZ (c_x c));
  de_y : dget a "y" = Some (AZ (c_y c));
  de_xs : dget a "x_save" = Some (AZ (c_xs c));
  de_ys : dget a "y_save" = Some (AZ (c_ys c));
  de_pts : dget a "grid_pts" = Some (AZ (c_x c));
  de_in : dget a "initial_time" = Some (AT (c_rec c));
  de_ad : dget a "adaptive_step_size" = Some (AB adaptive);
  de_phys : forall k, ~ In k run_keys -> dget a k = dget (c_phys c) k }.

(** a run whose snapshots are every [k] steps, which records from snapshot
    [m] on and ends after [n] steps: row r is iteration (m + r) k *)
Definition rows_of (m k n : nat) : nat := (S (n / k) - m)%nat.
Definition iteration (m k r : nat) : nat := ((m + r) * k)%nat.

(** run.py, set up for the parameters [p], records from snapshot [m] on *)
Record records_from (b : backend R) (p : par) (ny nx ys xs : nat) (k0 : R) (dsf : field -> field) (c : cfg (arr R) R) (fs : disk (arr R) R) (m : nat) : Prop := {
  rf_setup : hw_setup b p ny nx ys xs k0 dsf c;
  rf_zonal : pzon p = false;
  rf_phys : c_phys c = physics_params (c_dx c) (Z.of_nat (pN p)) (pc1 p) (pnu p) k0 (ppb p) (pkap p);
  rf_file : fs = None \/ c_force c = true;
  rf_step : (0 < c_step c)%R;
  rf_rec : c_rec c = (INR m * (c_step c * IZR (c_snaps c)))%R }.
(** row r of the density dataset is the stored density of frame [x] *)
Definition row_shows (rnd : R -> R) (dsf : field -> field) (ys xs : nat) (g : h5 (arr R) R) (r : nat) (x : frame) : Prop :=
  exists l, dget (dsets g) "density" = Some (Rows l) /\ nth_error l r = Some (RFrame (grid ys xs (fun i j => rnd (dsf (f_n x) i j)))).
(** the number of steps of run.py *)
Definition steps_of (c : cfg (arr R) R) : nat := Z.to_nat (R_trunc (c_end c / c_step c)).
