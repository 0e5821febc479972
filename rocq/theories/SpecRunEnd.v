(** Vocabulary for the end of a run: the run without properties, what the movie
    and plot functions give on a file, runs that start. *)
From Coq Require Import Arith ZArith Bool Reals String List.
From Verif Require Import Num NdArray ModelIO ModelRun ModelRunHW ModelPlot ModelRunEnd.
Import ListNotations.
Local Open Scope string_scope.

(** the same run without properties *)
Definition no_props {V T} (c : cfg V T) : cfg V T :=
  mkCfg (c_step c) (c_end c) (c_phys c) (c_dx c) (c_c1 c) (c_x c) (c_y c) (c_xs c) (c_ys c) (c_output c) (c_rec c) (c_continue c)
    (c_blen c) (c_snaps c) (c_down c) (c_last c) (c_force c) (c_adaptive c) [].

(** [l] is a beginning of [l'] *)
Definition is_prefix {X} (l l' : list X) : Prop := exists r, l' = (l ++ r)%list.

Section E.
Context {V : Type}.
(** a run that does not stop because the file is there already *)
Definition starts (c : cfg V R) (fs : disk V R) : Prop := fs = None \/ c_force c = true \/ c_continue c = true.

Variables (e : ending) (latex : string -> string).
(** the movie and the plot of a file, if asked for *)
Definition movie_of (fs : disk V R) : res (option (R * list (nat * R))) :=
  if e_movie e then match fs with Some f => let* m := create_movie f 0 None (e_fps e) (e_speed e) in Ok (Some m) | None => Exn FileNotFoundError end
  else Ok None.
Definition plot_of (fs : disk V R) : res (option figure) :=
  match e_plots e with
  | [] => Ok None
  | ps => match fs with Some f => let* g := plot_timetraces f latex ps 0 300 100000 in Ok (Some g) | None => Exn FileNotFoundError end
  end.
Definition plot2_of (fs : disk V R) : res (option (option (list curve * list curve * bool))) :=
  match e_plots e with
  | [] => Ok None
  | ps => match fs with Some f => let* g := plot_timetrace_comparison f latex "fullres_" ps 0 (e_t0_std e) 100 100000 in Ok (Some g) | None => Exn FileNotFoundError end
  end.
(** the figure drawn from [g], if asked for *)
Definition fig_of (g : h5 V R) (fig : option figure) : Prop :=
  match fig with
  | None => e_plots e = []
  | Some fig => exists curves cut, fig = Figure curves cut /\ plot_timetraces g latex (e_plots e) 0 300 100000 = Ok fig
  end.
End E.
