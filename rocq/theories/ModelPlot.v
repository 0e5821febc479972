(** Plots and movies made from an output file: which rows are shown, with which
    times and labels.
    Source: /repo/src/hw2d/utils/plot/timetrace.py, /repo/src/hw2d/utils/plot/movie.py,
            /repo/src/hw2d/utils/plot/image.py.

    Numbers are exact reals (np.arange and get_uniform_x: any numbers).  Left out: drawing itself (matplotlib), progress
    bars, printing, tick marks, file names, and the encoding of the movie. *)
From Coq Require Import Arith ZArith Bool Reals String List.
From Verif Require Import Num NdArray ModelIO ModelRun ModelRunHW.
Import ListNotations.
Local Open Scope string_scope.
Local Open Scope R_scope.

Definition Rleb (x y : R) : bool := if Rle_dec x y then true else false.
Definition Rltb (x y : R) : bool := if Rlt_dec x y then true else false.

(** np.min and np.max *)
Definition np_min (l : list R) : res R := match l with [] => Exn ValueError | x :: l' => Ok (fold_left Rmin l' x) end.
Definition np_max (l : list R) : res R := match l with [] => Exn ValueError | x :: l' => Ok (fold_left Rmax l' x) end.

(** timetrace.py:12-28 *)
Definition is_zero_included (vals : list R) (frac : R) : res bool :=
  let* min_yvals := np_min vals in
  let* max_yvals := np_max vals in
  let range_vals := max_yvals - min_yvals in
  Ok (Rleb (min_yvals - frac * range_vals) 0 && Rleb 0 (max_yvals - frac * range_vals)).

(** np.arange(start, stop, step): ceil((stop - start) / step) values, start,
    start + step, and from there on start + i * delta with
    delta = (start + step) - start (DOUBLE_fill).  For every kind of numbers. *)
Section Arange.
Context {T : Type} {TN : TimeNum T}.
Definition t_ceil (x : T) : res Z := let* z := t_int x in Ok (if nltb (nofZ z) x then (z + 1)%Z else z).
Definition np_arange (start stop step : T) : res (list T) :=
  if negb (truthy step) then Exn ZeroDivisionError
  else
  let* z := t_ceil (ndiv (nsub stop start) step) in
  let delta := nsub (nadd start step) start in
  Ok (map (fun i => match i with
                    | 0%nat => start
                    | 1%nat => nadd start step
                    | _ => nadd start (nmul (nofZ (Z.of_nat i)) delta)
                    end) (seq 0 (Z.to_nat z))).
(** timetrace.py:51-56 *)
Definition get_uniform_x {X} (values : list X) (dt t0 : T) : res (list T) :=
  let length := List.length values in
  let time := nmul (nofZ (Z.of_nat length)) dt in
  let* x := np_arange t0 (nadd t0 time) dt in
  Ok (firstn length x).
End Arange.
#[local] Existing Instance TimeR.

(** timetrace.py:31-48, 59-85 [plot_timeline]: the lines drawn at zero, the curve,
    then the limits, for which the undefined name [time] is looked up *)
Inductive drawn := VLine | HLine | Curve (x y : list R).
Definition add_axes (x y : list R) : res (list drawn) :=
  let* zx := is_zero_included x (25 / 1000) in
  let* zy := is_zero_included y (25 / 1000) in
  Ok ((if zx : bool then [VLine] else []) ++ (if zy : bool then [HLine] else []))%list.
Definition plot_timeline (y x : list R) (t0 : R) : list drawn * res unit :=
  match add_axes x y with
  | Exn e => ([], Exn e)
  | Ok ls => ((ls ++ [Curve x y])%list, Exn NameError)
  end.

(** ** Reading the file *)
Section File.
Context {V : Type}.

(** h5py: the rows of a dataset of numbers; a missing dataset is a KeyError *)
Fixpoint row_nums (l : list (row V R)) : res (list R) :=
  match l with
  | [] => Ok []
  | RNum t :: l' => let* r := row_nums l' in Ok (t :: r)
  | RFrame _ :: _ => Exn Unmodelled
  end.
Definition nums (f : h5 V R) (name : string) : res (list R) :=
  let* d := dlook (dsets f) name in
  match d with Rows l => row_nums l | Whole _ => Exn Unmodelled end.
(** len(hf[name]) *)
Definition rows_len (f : h5 V R) (name : string) : res nat :=
  let* d := dlook (dsets f) name in
  match d with Rows l => Ok (List.length l) | Whole _ => Exn Unmodelled end.
(** parameters[name] as a number *)
Definition attr_look (f : h5 V R) (name : string) : res R :=
  let* a := dlook (attrs f) name in Ok (attr_num a).
(** parameters.get("initial_time", 0) and parameters.get("adaptive_step_size", False) *)
Definition initial_time (f : h5 V R) : R := match dget (attrs f) "initial_time" with Some a => attr_num a | None => 0 end.
Definition is_adaptive (f : h5 V R) : bool := match dget (attrs f) "adaptive_step_size" with Some a => attr_bool a | None => false end.

(** int(a // b); a zero divisor gives inf or NaN in numpy *)
Definition floordiv (a b : R) : res Z := if Req_EM_T b 0 then Exn Unmodelled else Ok (Int_part (a / b)).
(** l[i:] for an integer i of any sign *)
Definition from_ {X} (l : list X) (i : Z) : list X :=
  if (i <? 0)%Z then skipn (List.length l - Z.to_nat (- i)) l else skipn (Z.to_nat i) l.
(** np.argmin(np.abs(times - t)): the first index with the smallest distance *)
Fixpoint argmin_from (best : R) (bi i : nat) (l : list R) : nat :=
  match l with
  | [] => bi
  | x :: l' => if Rltb x best then argmin_from x i (S i) l' else argmin_from best bi (S i) l'
  end.
Definition argmin_dist (times : list R) (t : R) : res nat :=
  match map (fun x => Rabs (x - t)) times with
  | [] => Exn ValueError
  | d :: l => Ok (argmin_from d 0 1 l)
  end.

(** ** Time traces *)
(** a curve: its label (without the statistics), the plotted points and the
    values whose mean and standard deviation are shown *)
Record curve := mkCurve { cv_label : string; cv_x : list R; cv_y : list R; cv_stat : list R }.
(** the figure: curves, whether the y-axis is cut off; or nothing was drawn *)
Inductive figure := Skipped | Figure (curves : list curve) (cut : bool).

(** timetrace.py:88-118: the label is latex_format(name) and a blank *)
Definition trace_label (latex : string -> string) (name : string) : string := (latex name ++ " ")%string.

(** timetrace.py:146-154, 322-329: the longest of the properties; None: one is too short *)
Fixpoint longest (f : h5 V R) (t0_idx : Z) (props : list string) (max_len : nat) : res (option nat) :=
  match props with
  | [] => Ok (Some max_len)
  | p :: l => let* n := rows_len f p in
              if (Z.of_nat n <=? t0_idx)%Z then Ok None else longest f t0_idx l (Nat.max max_len n)
  end.

(** timetrace.py:137-143, 159-162, 312-319, 331-335: the start indices *)
Definition start_index (f : h5 V R) (t : R) : res Z :=
  if is_adaptive f then let* times := nums f "time" in let* i := argmin_dist times t in Ok (Z.of_nat i)
  else let* dt := attr_look f "frame_dt" in floordiv t dt.

(** timetrace.py:184-189, 245-252: x-values *)
Definition trace_x (f : h5 V R) (t0 : R) (t0_idx : Z) (prop_data : list R) : res (list R) :=
  let* x := (if is_adaptive f then let* times := nums f "time" in Ok (from_ times t0_idx)
             else let* dt := attr_look f "frame_dt" in np_arange t0 (t0 + IZR (Z.of_nat (List.length prop_data)) * dt) dt) in
  Ok (firstn (List.length prop_data) x).

(** timetrace.py:176-199, 235-263: one property *)
Definition trace_curve (f : h5 V R) (label prop : string) (t0 : R) (t0_idx t0_std_idx : Z) : res (option curve) :=
  let* all := nums f prop in
  let prop_data := from_ all t0_idx in
  match prop_data with
  | [] => Ok None
  | _ => let* x := trace_x f t0 t0_idx prop_data in
         let* _ := attr_look f "frame_dt" in
         Ok (Some (mkCurve label x prop_data (from_ all t0_std_idx)))
  end.

(** timetrace.py:174-205: the loop; [mx] is max_yval, updated with np.min *)
Fixpoint traces_loop (f : h5 V R) (latex : string -> string) (props : list string) (t0 : R) (t0_idx t0_std_idx : Z)
    (mx : R) (acc : list curve) : res (list curve * R) :=
  match props with
  | [] => Ok (acc, mx)
  | p :: l =>
      (* name=property: the builtin class, which latex_format returns unchanged *)
      let* c := trace_curve f "<class 'property'> " p t0 t0_idx t0_std_idx in
      match c with
      | None => traces_loop f latex l t0 t0_idx t0_std_idx mx acc
      | Some c => let* m := np_min (cv_y c) in
                  traces_loop f latex l t0 t0_idx t0_std_idx (Rmax mx m) (acc ++ [c])%list
      end
  end.
(** timetrace.py:121-230 [plot_timetraces]; [cut]: 213 *)
Definition plot_timetraces (f : h5 V R) (latex : string -> string) (props : list string) (t0 t0_std y_cutoff : R) : res figure :=
  let* t0_idx := start_index f t0 in
  let* ml := longest f t0_idx props 0 in
  match ml with
  | None => Ok Skipped
  | Some max_len =>
      if (Z.of_nat max_len <? t0_idx)%Z then Ok Skipped
      else
      let* si := start_index f (t0_std - initial_time f) in
      let t0_std_idx := if (Z.of_nat max_len <? si)%Z then t0_idx else si in
      let* r := traces_loop f latex props t0 t0_idx t0_std_idx 0 [] in
      Ok (Figure (fst r) (Rltb y_cutoff (snd r)))
  end.

(** timetrace.py:348-359: both panels of [plot_timetrace_comparison]; min_yval and
    max_yval are passed by value and stay 0 *)
Fixpoint comparison_loop (f : h5 V R) (latex : string -> string) (prefix : string) (props : list string) (t0 : R)
    (t0_idx t0_std_idx : Z) (top bottom : list curve) : res (list curve * list curve) :=
  match props with
  | [] => Ok (top, bottom)
  | p :: l =>
      let* c := trace_curve f (trace_label latex p) p t0 t0_idx t0_std_idx in
      let top := match c with Some c => (top ++ [c])%list | None => top end in
      let full := (prefix ++ p)%string in
      let* bottom := (if dhas (dsets f) full then
                        let* c := trace_curve f ("Full " ++ latex p ++ " ")%string full t0 t0_idx t0_std_idx in
                        Ok (match c with Some c => (bottom ++ [c])%list | None => bottom end)
                      else Ok bottom) in
      comparison_loop f latex prefix l t0 t0_idx t0_std_idx top bottom
  end.
(** timetrace.py:289-290 [format_axis]: ticks are set with range(t0, ...), which
    rejects a float *)
Definition set_ticks (t0_is_int : bool) (age xtick_interval : R) : res unit :=
  let* q := floordiv age xtick_interval in
  if (q <? 15)%Z && negb t0_is_int then Exn TypeError else Ok tt.
(** timetrace.py:311: max(t0, init_time) keeps the type of the larger one; the
    argument t0 is an int *)
Definition later_is_int (f : h5 V R) (t0 : Z) : bool :=
  match dget (attrs f) "initial_time" with
  | Some (AT t) => negb (Rltb (IZR t0) t)
  | _ => true
  end.
(** timetrace.py:316, 320: end_time *)
Definition end_time (f : h5 V R) : res R :=
  if is_adaptive f then let* times := nums f "time" in match times with [] => Exn IndexError | _ => Ok (last times 0) end
  else let* n := rows_len f "density" in let* dt := attr_look f "frame_dt" in Ok (INR n * dt).
(** timetrace.py:293-370 [plot_timetrace_comparison] *)
Definition plot_timetrace_comparison (f : h5 V R) (latex : string -> string) (prefix : string) (props : list string)
    (t0 : Z) (t0_std xtick_interval y_cutoff : R) : res (option (list curve * list curve * bool)) :=
  let is_int := later_is_int f t0 in
  let t0 := Rmax (IZR t0) (initial_time f) in
  let* t0_idx := start_index f t0 in
  let* age := end_time f in
  let* ml := longest f t0_idx props 0 in
  match ml with
  | None => Ok None
  | Some max_len =>
      let* si := start_index f (t0_std - initial_time f) in
      let t0_std_idx := if (Z.of_nat max_len <? si)%Z then t0_idx else si in
      let* r := comparison_loop f latex prefix props t0 t0_idx t0_std_idx [] [] in
      let* _ := set_ticks is_int age xtick_interval in
      Ok (Some (fst r, snd r, Rltb y_cutoff 0))
  end.

(** ** Movies *)
(** hf[field][i] for an integer i: negative indices count from the end *)
Definition row_index (n : nat) (i : Z) : res nat :=
  if (0 <=? i)%Z && (i <? Z.of_nat n)%Z then Ok (Z.to_nat i)
  else if (i <? 0)%Z && (- Z.of_nat n <=? i)%Z then Ok (Z.to_nat (Z.of_nat n + i))
  else Exn IndexError.
(** list(range(a, b, s)) for s > 0 *)
Definition py_range (a b s : Z) : list Z :=
  map (fun k => (a + Z.of_nat k * s)%Z) (seq 0 (Z.to_nat ((b - a + s - 1) / s))).
(** movie.py:131-133 *)
Definition time_to_length (time dt : R) : res Z := if Req_EM_T dt 0 then Exn Unmodelled else Ok (R_round_even (time / dt)).

Fixpoint show_frames {X} (g : X -> res (nat * R)) (l : list X) : res (list (nat * R)) :=
  match l with
  | [] => Ok []
  | i :: l' => let* a := g i in let* r := show_frames g l' in Ok (a :: r)
  end.
(** movie.py:136-147 [generate_title]: the attributes it needs *)
Definition title_keys : list string := ["c1"; "k0"; "grid_pts"; "dt"; "N"; "nu"].
Definition generate_title (f : h5 V R) : res unit :=
  if forallb (dhas (attrs f)) title_keys then Ok tt else Exn KeyError.
(** movie.py:150-218 [create_movie_equally_spaced]: frames per second, and for
    every picture the row shown and the time written above it; plot_order[0] is
    "density" and all three fields have the same number of rows *)
Definition create_movie_equally_spaced (f : h5 V R) (t0 : R) (t1 : option R) (min_fps : Z) (speed : R) : res (R * list (nat * R)) :=
  let* _ := generate_title f in
  let* n := rows_len f "density" in
  let* frame_dt := attr_look f "frame_dt" in
  let t1 := match t1 with Some t => t | None => (INR n - 1) * frame_dt end in
  let* t0_idx := time_to_length (t0 - initial_time f) frame_dt in
  let* t1_idx := time_to_length (t1 - initial_time f) frame_dt in
  let fps := R_trunc (speed / frame_dt) in
  if (min_fps =? 0)%Z then Exn ZeroDivisionError
  else
  let frame_steps := Z.max 1 (fps / min_fps) in
  let* _ := row_index n 0 in (* setup_visualization shows row 0: movie.py:110 *)
  let* shown := show_frames (fun i => let* r := row_index n i in Ok (r, IZR i * frame_dt)) (py_range t0_idx (t1_idx + 1) frame_steps) in
  Ok (IZR fps / IZR frame_steps, shown).

(** np.searchsorted(times, t) on a sorted array *)
Definition searchsorted (times : list R) (t : R) : nat := List.length (filter (fun x => Rltb x t) times).
(** movie.py:221-307 [create_movie_unequal_spaced_fine]; t0_idx and t1_idx are
    computed and not used *)
Definition create_movie_unequal_spaced_fine (f : h5 V R) (t0 : R) (t1 : option R) (min_fps speed : R) : res (R * list (nat * R)) :=
  let* _ := generate_title f in
  let* times := nums f "time" in
  let* t1 := match t1 with
             | Some t => Ok t
             | None => match times with [] => Exn IndexError | _ => Ok (last times 0) end
             end in
  if Req_EM_T min_fps 0 then Exn ZeroDivisionError
  else
  let t_per_frame := speed / min_fps in
  if Req_EM_T t_per_frame 0 then Exn Unmodelled
  else
  let selected_frames := map (fun i => searchsorted times (INR i * t_per_frame)) (seq 0 (Z.to_nat (R_trunc (t1 / t_per_frame) + 1))) in
  let* n := rows_len f "density" in
  let* _ := row_index n 0 in
  let* shown := show_frames (fun i => let* r := row_index n (Z.of_nat i) in
                                      if (r <? List.length times)%nat then Ok (r, nth r times 0) else Exn IndexError) selected_frames in
  Ok (min_fps, shown).

(** movie.py:310-326 [create_movie]: which of the two; the attribute must exist *)
Definition create_movie (f : h5 V R) (t0 : R) (t1 : option R) (min_fps : Z) (speed : R) : res (R * list (nat * R)) :=
  let* a := dlook (attrs f) "adaptive_step_size" in
  if attr_bool a then create_movie_unequal_spaced_fine f t0 t1 (IZR min_fps) speed
  else create_movie_equally_spaced f t0 t1 min_fps speed.
(** movie.py:313-318: is the warning "not in available writers" printed? *)
Definition writer_warning (available : list string) : bool := existsb (String.eqb "ffmpeg") available.

(** ** Images: image.py:93-97, the row shown for time t *)
Definition image_row (f : h5 V R) (t : R) : res nat :=
  let* dt := attr_look f "frame_dt" in
  let* t_idx := floordiv (t - initial_time f) dt in
  let* n := rows_len f "density" in
  row_index n t_idx.
End File.

(** ** The colour map: movie.py:14-58 *)
Section Viridis.
Context {T : Type} {TN : TimeNum T}.
(** movie.py:24-41; the positions in hundredths *)
Definition viridis_table : list (Z * (Z * Z * Z)) :=
  [(0, (255, 200, 100)); (13, (255, 153, 51)); (25, (230, 5, 40)); (38, (150, 3, 62)); (50, (68, 1, 84)); (55, (72, 33, 115));
   (59, (67, 62, 133)); (64, (56, 88, 140)); (68, (45, 112, 142)); (73, (37, 133, 142)); (77, (30, 155, 138)); (82, (42, 176, 127));
   (86, (82, 197, 105)); (90, (34, 213, 73)); (95, (194, 223, 35)); (100, (253, 231, 37))]%Z.
(** np.linspace(a, b, n, endpoint=False) *)
Definition linspace_open (a b : T) (n : nat) : list T :=
  let step := ndiv (nsub b a) (nofZ (Z.of_nat n)) in
  map (fun i => nadd (nmul (nofZ (Z.of_nat i)) step) a) (seq 0 n).
(** a decimal literal with two digits; a colour value divided by 256 *)
Definition hundredth (z : Z) : T := ndiv (nofZ z) (nofZ 100).
Definition colour (z : Z) : T := ndiv (nofZ z) (nofZ 256).
(** movie.py:46-56: one segment; a negative number of points is a ValueError *)
Definition viridis_segment (vals : Z) (p q : Z * (Z * Z * Z)) : res (list (T * T * T)) :=
  let '(x, (r, g, b)) := p in
  let '(x', (r', g', b')) := q in
  let* pts := t_int (nmul (nsub (hundredth x') (hundredth x)) (nofZ vals)) in
  if (pts <? 0)%Z then Exn ValueError
  else
  let n := Z.to_nat pts in
  Ok (combine (combine (linspace_open (colour r) (colour r') n) (linspace_open (colour g) (colour g') n))
        (linspace_open (colour b) (colour b') n)).
Fixpoint viridis_list (vals : Z) (p : Z * (Z * Z * Z)) (l : list (Z * (Z * Z * Z))) : res (list (T * T * T)) :=
  match l with
  | [] => Ok []
  | q :: l' => let* a := viridis_segment vals p q in
               let* b := viridis_list vals q l' in
               Ok (a ++ b)%list
  end.
Definition get_extended_viridis (vals : Z) : res (list (T * T * T)) :=
  match viridis_table with [] => Ok [] | p :: l => viridis_list vals p l end.
End Viridis.

(** ** Colour limits *)
(** movie.py:61-90 *)
Definition new_cbar_max (nm pm : R) : R := if Rlt_dec nm pm then nm + sqrt (pm - nm) else nm.
Definition new_cbar_max_smooth (nm pm : R) : R := if Rlt_dec nm pm then (nm + pm) / 2 else nm.
(** movie.py:200-207: the limits of the next picture of data [arr], given the
    previous ones *)
Definition next_clim (arr : list R) (clim : R * R) : res (R * R) :=
  let* vmax := np_max arr in
  let* vmin := np_min arr in
  let pm := Rmax (Rabs (fst clim)) (snd clim) in
  let nm := Rmax (Rabs vmin) vmax in
  let nm := new_cbar_max_smooth nm pm in
  Ok (- nm, nm).
(** image.py:34-35, 62-63, 68-70: limits shared by coupled colour bars *)
Fixpoint coupled_clim (imgs : list (list R)) (clim : R * R) : res (R * R) :=
  match imgs with
  | [] => Ok clim
  | d :: l => let* lo := np_min d in
              let* hi := np_max d in
              coupled_clim l (Rmin lo (fst clim), Rmax hi (snd clim))
  end.
