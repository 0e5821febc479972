(** Vocabulary for statements about plots and movies. *)
From Coq Require Import Arith ZArith Reals String List.
From Verif Require Import Num NdArray ModelIO ModelRun ModelRunHW ModelPlot.
Import ListNotations.
Local Open Scope string_scope.
Local Open Scope R_scope.

(** smallest and largest entry of a list *)
Definition least (m : R) (l : list R) : Prop := In m l /\ forall x, In x l -> m <= x.
Definition greatest (m : R) (l : list R) : Prop := In m l /\ forall x, In x l -> x <= m.

Section SpecFile.
Context {V : Type}.
(** the dataset holds these numbers, one per row *)
Definition holds (f : h5 V R) (name : string) (l : list R) : Prop := dget (dsets f) name = Some (Rows (map RNum l)).
(** the dataset has n rows *)
Definition has_rows (f : h5 V R) (name : string) (n : nat) : Prop := exists l, dget (dsets f) name = Some (Rows l) /\ List.length l = n.
(** a file recorded with fixed steps, one row every dt, started at time t_in *)
Record fixed_step (f : h5 V R) (dt t_in : R) : Prop := {
  fx_dt : dget (attrs f) "frame_dt" = Some (AT dt);
  fx_in : dget (attrs f) "initial_time" = Some (AT t_in);
  fx_ad : dget (attrs f) "adaptive_step_size" = Some (AB false);
  fx_pos : 0 < dt }.
(** a file recorded with adaptive steps *)
Record adaptive_step (f : h5 V R) (dt t_in : R) : Prop := {
  ad_dt : dget (attrs f) "frame_dt" = Some (AT dt);
  ad_in : dget (attrs f) "initial_time" = Some (AT t_in);
  ad_ad : dget (attrs f) "adaptive_step_size" = Some (AB true) }.
(** the attributes that appear in the title of a movie exist *)
Definition titled (f : h5 V R) : Prop := forall k, In k ["c1"; "k0"; "grid_pts"; "dt"; "N"; "nu"] -> exists a, dget (attrs f) k = Some a.
End SpecFile.

(** non-decreasing *)
Definition sorted (l : list R) : Prop := forall i j, (i <= j < List.length l)%nat -> nth i l 0 <= nth j l 0.

(** when row r of a file recorded every dt from time t_in on was recorded *)
Definition row_time (dt t_in : R) (r : nat) : R := t_in + INR r * dt.

(** the window of the statistics: from row s, but from row i when s is beyond the longest property *)
Definition stat_row (longest s i : nat) : nat := if (longest <? s)%nat then i else s.
(** the first index nearest to t *)
Definition nearest (times : list R) (t : R) (i : nat) : Prop := (i < List.length times)%nat /\
  (forall j, (j < List.length times)%nat -> Rabs (nth i times 0 - t) <= Rabs (nth j times 0 - t)) /\
  forall j, (j < i)%nat -> Rabs (nth i times 0 - t) < Rabs (nth j times 0 - t).
(** every how many rows a picture is taken *)
Definition skip_of (speed dt : R) (min_fps : Z) : nat := Z.to_nat (Z.max 1 (R_trunc (speed / dt) / min_fps)).
(** colour limits after k pictures of the same data *)
Fixpoint clims (k : nat) (arr : list R) (clim : R * R) : res (R * R) :=
  match k with O => Ok clim | S k' => let* c := clims k' arr clim in next_clim arr c end.
(** a colour value *)
Definition in_unit (x : R) : Prop := 0 <= x <= 1.
