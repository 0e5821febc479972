(** The axes of the time-trace plots, and the script that makes them.
    Source: /repo/src/hw2d/utils/plot/timetrace.py.

    [auto] is what matplotlib's get_ylim returns before any limit was set: the
    limits it has chosen from the curves of the axes (of both panels when they
    share the y-axis).  Setting limits ends the automatic choice.  A figure is
    what can be seen: curves and limits.  Exact reals. *)
From Coq Require Import Arith ZArith Bool Reals String List.
From Verif Require Import Num NdArray ModelIO ModelRun ModelRunHW ModelPlot.
Import ListNotations.
Local Open Scope string_scope.
Local Open Scope R_scope.

(** np.isclose(x, 0, rtol=1e-05, atol=1e-08): timetrace.py:206, 266 *)
Definition isclose0 (x : R) : bool := Rleb (Rabs x) (1 / 100000000 + 1 / 100000 * Rabs 0).

(** timetrace.py:206-215, 264-275 [format_axis]: the limits of the y-axis;
    [now] is get_ylim() *)
Definition y_limits (now : R * R) (min_yval max_yval y_cutoff : R) : R * R :=
  let l := if isclose0 min_yval || (Rltb 0 min_yval && Rltb (min_yval - 1 / 100 * (max_yval - min_yval)) 0)
           then (0, snd now) else now in
  if Rltb y_cutoff max_yval then (0, y_cutoff) else l.

(** timetrace.py:117: ax.set_xlim(t0, t0 + x[-1]) *)
Definition x_limits (t0 : R) (c : curve) : res (R * R) :=
  match cv_x c with [] => Exn IndexError | x => Ok (t0, t0 + last x 0) end.
(** the limits after a sequence of calls: those of the last one; None: never set *)
Fixpoint last_x_limits (t0 : R) (cs : list curve) (old : option (R * R)) : res (option (R * R)) :=
  match cs with [] => Ok old | c :: l => let* v := x_limits t0 c in last_x_limits t0 l (Some v) end.

(** timetrace.py:172-173, 200-202: min_yval and max_yval, both with np.min *)
Fixpoint y_range (cs : list curve) (mn mx : R) : res (R * R) :=
  match cs with
  | [] => Ok (mn, mx)
  | c :: l => let* m := np_min (cv_y c) in y_range l (Rmin mn m) (Rmax mx m)
  end.

(** what can be seen: the panels (one or two) and the limits they share *)
Record view := mkView { v_panels : list (list curve); v_x : option (R * R); v_y : R * R }.

Section Trace.
Context {V : Type}.
Variable auto : list curve -> R * R.
Variable latex : string -> string.

(** timetrace.py:121-230 [plot_timetraces]; None: it returned without a figure *)
Definition traces_view (f : h5 V R) (props : list string) (t0 t0_std y_cutoff : R) : res (option view) :=
  let* fig := plot_timetraces f latex props t0 t0_std y_cutoff in
  match fig with
  | Skipped => Ok None
  | Figure cs _ =>
      let* xl := last_x_limits t0 cs None in
      let* r := y_range cs 0 0 in
      Ok (Some (mkView [cs] xl (y_limits (auto cs) (fst r) (snd r) y_cutoff)))
  end.

(** timetrace.py:348-359 with 117: each property sets the limits, then its
    full-resolution version if there is one; the label and the statistics do
    not matter *)
Definition then_x_limits (t0 : R) (c : option curve) (old : option (R * R)) : res (option (R * R)) :=
  match c with Some c => let* v := x_limits t0 c in Ok (Some v) | None => Ok old end.
Fixpoint comparison_x_limits (f : h5 V R) (prefix : string) (props : list string) (t0 : R) (t0_idx : Z) (old : option (R * R)) : res (option (R * R)) :=
  match props with
  | [] => Ok old
  | p :: l =>
      let* c := trace_curve f "" p t0 t0_idx 0 in
      let* old := then_x_limits t0 c old in
      let full := (prefix ++ p)%string in
      let* old := (if dhas (dsets f) full then let* c := trace_curve f "" full t0 t0_idx 0 in then_x_limits t0 c old else Ok old) in
      comparison_x_limits f prefix l t0 t0_idx old
  end.

(** timetrace.py:293-370 [plot_timetrace_comparison]: min_yval and max_yval are
    passed to process_property by value (233-261) and are 0 when format_axis is
    called, first for the upper panel, then for the lower, which shares its
    axes (308: sharex, sharey) *)
Definition comparison_view (f : h5 V R) (prefix : string) (props : list string) (t0 : Z) (t0_std xtick_interval y_cutoff : R) : res (option view) :=
  let* r := plot_timetrace_comparison f latex prefix props t0 t0_std xtick_interval y_cutoff in
  match r with
  | None => Ok None
  | Some (top, bottom, _) =>
      let t := Rmax (IZR t0) (initial_time f) in
      let* t0_idx := start_index f t in
      let* xl := comparison_x_limits f prefix props t t0_idx None in
      let yl := y_limits (auto (top ++ bottom)%list) 0 0 y_cutoff in
      let yl := y_limits yl 0 0 y_cutoff in
      Ok (Some (mkView [top; bottom] xl yl))
  end.

(** timetrace.py:225-228, 365-368: str(file_path).split(".h5")[0] + "_" +
    "-".join(properties) + ".jpg" *)
Fixpoint before (sub s : string) : string :=
  if String.prefix sub s then "" else match s with "" => "" | String c s' => String c (before sub s') end.
Definition default_path (file_path : string) (props : list string) : string :=
  before ".h5" file_path ++ "_" ++ String.concat "-" props ++ ".jpg".
Definition target (out_path : option string) (file_path : string) (props : list string) : string :=
  match out_path with Some p => p | None => default_path file_path props end.

(** timetrace.py:384-393, 402, 409: the properties of [main] *)
Definition main_props : list string :=
  ["gamma_c"; "gamma_n"; "gamma_n_spectral"; "energy"; "kinetic_energy"; "thermal_energy"; "enstrophy"; "enstrophy_phi"].
Definition main_fluxes : list string := ["gamma_c"; "gamma_n"; "gamma_n_spectral"].
Definition main_energies : list string := ["energy"; "kinetic_energy"; "thermal_energy"; "enstrophy_phi"].

(** pictures on disk: savefig replaces a file of the same name *)
Definition pictures := list (string * view).
Definition savefig (path : string) (v : view) (d : pictures) : pictures := (path, v) :: filter (fun q => negb (String.eqb (fst q) path)) d.
Definition save_opt (path : string) (v : option view) (d : pictures) : pictures := match v with Some v => savefig path v d | None => d end.

(** timetrace.py:373-415 [main]; the prefix, xtick_interval and y_cutoff are the
    defaults of the plotting functions *)
Definition trace_main (f : h5 V R) (file_path : string) (out_path : option string) (t0 : Z) (t0_std : R) (comparison : bool) (d : pictures) : pictures * res unit :=
  if comparison then
    match comparison_view f "fullres_" main_props t0 t0_std 100 100000 with
    | Ok v => (save_opt (target out_path file_path main_props) v d, Ok tt)
    | Exn e => (d, Exn e)
    end
  else
    match traces_view f main_fluxes (IZR t0) t0_std 100000 with
    | Exn e => (d, Exn e)
    | Ok v =>
        let d := save_opt (target out_path file_path main_fluxes) v d in
        match traces_view f main_energies (IZR t0) t0_std 100000 with
        | Exn e => (d, Exn e)
        | Ok v => (save_opt (target out_path file_path main_energies) v d, Ok tt)
        end
    end.
End Trace.
