(** The drivers with what they do after the simulation: the movie, the
    properties and the plot, in this order.
    Source: /repo/src/hw2d/run.py:298-329, /repo/src/hw2d/run2.py:451-482.

    A movie or plot is what ModelPlot.v says is shown; writing the picture and
    movie files is not modelled.  Numbers are exact reals. *)
From Coq Require Import Arith ZArith Bool Reals String List.
From Verif Require Import Num NdArray ModelIO ModelRun ModelRunHW ModelPlot.
Import ListNotations.
Local Open Scope string_scope.
#[local] Existing Instance TimeR.

Section RunEnd.
Context {V : Type}.

(** the arguments movie, min_fps, speed, plot_properties (run.py:48-76,
    run2.py:86-119) and t0_std (run2.py only) *)
Record ending := mkEnding {
  e_movie : bool;
  e_fps : Z;
  e_speed : R;
  e_plots : list string;
  e_t0_std : R }.

Variable s : sim V R.
Variable c : cfg V R.
Variable e : ending.
Variable latex : string -> string.

(** a function that reads the output file *)
Definition reading {X} (k : h5 V R -> res X) : IO V R X := with_file (fun f => ilift (k f)).

(** run.py:298-310, run2.py:451-463: frames per second and pictures *)
Definition end_movie : IO V R (option (R * list (nat * R))) :=
  if e_movie e then ibind (reading (fun f => create_movie f 0 None (e_fps e) (e_speed e))) (fun m => iret (Some m))
  else iret None.

(** run.py:322-329: t0=0, t0_std=300; y_cutoff is 1e5 *)
Definition end_plot : IO V R (option figure) :=
  match e_plots e with
  | [] => iret None
  | ps => ibind (reading (fun f => plot_timetraces f latex ps 0 300 100000)) (fun g => iret (Some g))
  end.
(** run2.py:475-482: t0=0; prefix "fullres_", xtick_interval 100, y_cutoff 1e5 *)
Definition end_plot2 : IO V R (option (option (list curve * list curve * bool))) :=
  match e_plots e with
  | [] => iret None
  | ps => ibind (reading (fun f => plot_timetrace_comparison f latex "fullres_" ps 0 (e_t0_std e) 100 100000)) (fun g => iret (Some g))
  end.

(** run.py:27-329 [run] to its end; the result is the movie and the plot *)
Definition run_all (pl0 : plasma V R) : IO V R (option (R * list (nat * R)) * option figure) :=
  if negb (c_output c) then ifail UnboundLocalError
  else
  ibind (run_files s c pl0) (fun st =>
  match st with
  | None => iret (None, None)
  | Some st =>
      ibind (run_simulate s c st) (fun _ =>
      ibind end_movie (fun m =>
      ibind (run_properties_ s c) (fun _ =>
      ibind end_plot (fun g => iret (m, g)))))
  end).

(** run2.py:60-482 [run] to its end *)
Definition run2_all (fuel : nat) (pl0 : plasma V R) : IO V R (option (R * list (nat * R)) * option (option (list curve * list curve * bool))) :=
  ibind (ilift (t_int (ndiv (c_end c) (c_step c)))) (fun _ =>
  if (c_snaps c =? 0)%Z then ifail ZeroDivisionError
  else if negb (c_output c) then ifail UnboundLocalError
  else
  ibind (run2_files s c pl0) (fun st =>
  match st with
  | None => iret (None, None)
  | Some st =>
      ibind (run2_simulate s c fuel st) (fun _ =>
      ibind end_movie (fun m =>
      ibind (run_properties_ s c) (fun _ =>
      ibind end_plot2 (fun g => iret (m, g)))))
  end)).
End RunEnd.
