(** The pictures of a movie: fields, times and colour limits of the three panels,
    and the name of the file.
    Source: /repo/src/hw2d/utils/plot/movie.py:93-128, 150-353, over exact reals.

    matplotlib is not modelled: imshow without limits takes the least and the
    largest entry (its documented default); FuncAnimation calls animate for the
    first frame some number [pre] of times before the first picture is taken
    (once for the initial drawing), and then once per picture.  Titles carry the
    time as a number, before formatting.  Ticks, sizes, progress bars, the
    writer and what it does with the pictures are left out. *)
From Coq Require Import Arith ZArith Bool Reals String List.
From Verif Require Import Num NdArray ModelIO ModelRun ModelRunHW ModelPlot ModelImage.
Import ListNotations.
Local Open Scope string_scope.

(** plot_order[i]: movie.py:110, 112, 194, 285 *)
Definition pick (plot_order : list string) (i : nat) : res string :=
  match nth_error plot_order i with Some s => Ok s | None => Exn IndexError end.
(** the axes of plt.subplots(1, 3): movie.py:126 *)
Definition axes : list nat := [0; 1; 2]%nat.
(** movie.py:93-113 [setup_visualization]: row 0 of every field; the colour
    limits of the images *)
Fixpoint setup_axes (f : h5 (arr R) R) (plot_order : list string) (is : list nat) : res (list (R * R)) :=
  match is with
  | [] => Ok []
  | i :: is' =>
      let* name := pick plot_order i in
      let* a := field_row f name 0 in
      let* lo := np_min (data a) in
      let* hi := np_max (data a) in
      let* r := setup_axes f plot_order is' in
      Ok ((lo, hi) :: r)
  end.
(** one panel of one picture: movie.py:205-207, 296-298 *)
Record view := mkView { v_field : string; v_time : R; v_data : arr R; v_clim : R * R }.
(** movie.py:191-208, 281-299 [animate]; the label is t_idx * frame_dt in line
    207 and times[t_idx] in line 298 *)
Fixpoint animate_axes (f : h5 (arr R) R) (plot_order : list string) (zero_omega : bool) (t_idx : Z) (label : res R)
    (is : list nat) (clims : list (R * R)) : res (list view) :=
  match is, clims with
  | i :: is', c :: cs =>
      let* name := pick plot_order i in
      let* a := field_row f name t_idx in
      let* a := (if zero_omega && (name =? "omega") then sub_ (Ok a) (mean_all (Ok a)) else Ok a) in
      let* c' := next_clim (data a) c in
      let* t := label in
      let* r := animate_axes f plot_order zero_omega t_idx label is' cs in
      Ok (mkView name t a c' :: r)
  | _, _ => Ok []
  end.
Definition animate (f : h5 (arr R) R) (plot_order : list string) (zero_omega : bool) (fr : Z * res R) (clims : list (R * R)) : res (list view) :=
  animate_axes f plot_order zero_omega (fst fr) (snd fr) axes clims.
(** the calls of animate: movie.py:210, 213, 301, 306 *)
Fixpoint warm (f : h5 (arr R) R) (plot_order : list string) (zero_omega : bool) (pre : nat) (fr : Z * res R) (clims : list (R * R)) : res (list (R * R)) :=
  match pre with
  | O => Ok clims
  | S pre' => let* v := animate f plot_order zero_omega fr clims in warm f plot_order zero_omega pre' fr (map v_clim v)
  end.
Fixpoint play (f : h5 (arr R) R) (plot_order : list string) (zero_omega : bool) (frames : list (Z * res R)) (clims : list (R * R)) : res (list (list view)) :=
  match frames with
  | [] => Ok []
  | fr :: l => let* v := animate f plot_order zero_omega fr clims in
               let* r := play f plot_order zero_omega l (map v_clim v) in
               Ok (v :: r)
  end.
Definition movie_pictures (f : h5 (arr R) R) (plot_order : list string) (zero_omega : bool) (pre : nat) (frames : list (Z * res R)) : res (list (list view)) :=
  let* clims := setup_axes f plot_order axes in
  match frames with
  | [] => Ok []
  | fr :: _ => let* clims := warm f plot_order zero_omega pre fr clims in play f plot_order zero_omega frames clims
  end.

Section Names.
(** f"{x:.0f}" and f"{x}" of a number: movie.py:212, 304 *)
Context (fmt0 str : R -> string).
(** movie.py:212, 304 *)
Definition movie_name (output_filename : string) (dpi : string) (fps speed t0 t1 : R) : string :=
  output_filename ++ "_dpi=" ++ dpi ++ "_fps=" ++ fmt0 fps ++ "_speed=" ++ fmt0 speed ++ "_t0=" ++ str t0 ++ "_t1=" ++ str t1 ++ ".mp4".

(** what a movie function leaves: the name of the file, pictures per second and
    the pictures *)
Definition film : Type := string * R * list (list view).
(** movie.py:150-218 [create_movie_equally_spaced] *)
Definition film_equal (f : h5 (arr R) R) (output_filename dpi : string) (plot_order : list string) (zero_omega : bool) (pre : nat)
    (t0 : R) (t1 : option R) (min_fps : Z) (speed : R) : res film :=
  let* _ := generate_title f in
  let* t1 := match t1 with
             | Some t => Ok t
             | None => let* name := pick plot_order 0 in
                       let* n := rows_len f name in
                       let* frame_dt := attr_look f "frame_dt" in
                       Ok ((INR n - 1) * frame_dt)%R
             end in
  let* frame_dt := attr_look f "frame_dt" in
  let* t0_idx := time_to_length (t0 - initial_time f) frame_dt in
  let* t1_idx := time_to_length (t1 - initial_time f) frame_dt in
  let fps := R_trunc (speed / frame_dt) in
  if (min_fps =? 0)%Z then Exn ZeroDivisionError
  else
  let frame_steps := Z.max 1 (fps / min_fps) in
  let fps := (IZR fps / IZR frame_steps)%R in
  let* p := movie_pictures f plot_order zero_omega pre
              (map (fun i => (i, Ok (IZR i * frame_dt)%R)) (py_range t0_idx (t1_idx + 1) frame_steps)) in
  Ok (movie_name output_filename dpi fps speed t0 t1, fps, p).
(** movie.py:221-307 [create_movie_unequal_spaced_fine] *)
Definition film_unequal (f : h5 (arr R) R) (output_filename dpi : string) (plot_order : list string) (zero_omega : bool) (pre : nat)
    (t0 : R) (t1 : option R) (min_fps speed : R) : res film :=
  let* _ := generate_title f in
  let* times := nums f "time" in
  let* t1 := match t1 with
             | Some t => Ok t
             | None => match times with [] => Exn IndexError | _ => Ok (last times 0%R) end
             end in
  if Req_EM_T min_fps 0 then Exn ZeroDivisionError
  else
  let t_per_frame := (speed / min_fps)%R in
  if Req_EM_T t_per_frame 0 then Exn Unmodelled
  else
  let selected_frames := map (fun i => searchsorted times (INR i * t_per_frame)) (seq 0 (Z.to_nat (R_trunc (t1 / t_per_frame) + 1))) in
  let* p := movie_pictures f plot_order zero_omega pre
              (map (fun r => (Z.of_nat r, if (r <? List.length times)%nat then Ok (nth r times 0%R) else Exn IndexError)) selected_frames) in
  Ok (movie_name output_filename dpi min_fps speed t0 t1, min_fps, p).
(** movie.py:310-326 [create_movie] and 330-349 [main], which has no zero_omega *)
Definition film_main (f : h5 (arr R) R) (output_path dpi : string) (plot_order : list string) (pre : nat)
    (t0 : R) (t1 : option R) (min_fps : Z) (speed : R) : res film :=
  let* a := dlook (attrs f) "adaptive_step_size" in
  if attr_bool a then film_unequal f output_path dpi plot_order false pre t0 t1 (IZR min_fps) speed
  else film_equal f output_path dpi plot_order false pre t0 t1 min_fps speed.
End Names.
