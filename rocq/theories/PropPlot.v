(** Properties of plots and movies: C52-C54, C77-C84, C86. *)
From Coq Require Import Arith ZArith Bool Reals Lra Lia String List.
From Coq Require QArith.QArith_base.
Import List.
From Verif Require Import Num NdArray ModelIO ModelRun ModelRunHW ModelPlot SpecPlot PlotFacts PlotProps PlotCases PlotEarly ModelHelpers SpecDownsample.
Import ListNotations.
Local Open Scope string_scope.
Local Open Scope R_scope.
#[local] Existing Instance TimeR.

(** one time per value, in exact arithmetic *)
Theorem C52_uniform : forall (X : Type) (values : list X) t0 dt, dt <> 0 -> get_uniform_x values dt t0 = Ok (map (fun k => t0 + INR k * dt) (seq 0 (List.length values))).
Proof. exact @uniform_eq. Qed.
Print Assumptions C52_uniform.

(** not in floating point: no entry at all for one value at t0 = 2^53 *)
Theorem C52_binary64_refuted : ~ (forall (values : list unit) dt t0, nltb (Num := NumF64) (f64_ofZ 0) dt = true -> exists x, get_uniform_x (TN := TimeF64) values dt t0 = Ok x /\ List.length x = List.length values).
Proof. exact uniform_float. Qed.
Print Assumptions C52_binary64_refuted.

Example C52_example : get_uniform_x [tt; tt; tt] (1 / 2) 1 = Ok [1 + INR 0 * (1 / 2); 1 + INR 1 * (1 / 2); 1 + INR 2 * (1 / 2)].
Proof. apply (C52_uniform unit [tt; tt; tt]). lra. Qed.

(** when the zero line is drawn *)
Theorem C53_zero_line : forall vals frac lo hi, least lo vals -> greatest hi vals -> (is_zero_included vals frac = Ok true <-> lo <= frac * (hi - lo) <= hi).
Proof. exact zero_iff. Qed.
Print Assumptions C53_zero_line.

(** zero between the smallest and the largest value does not suffice *)
Theorem C53_zero_inside_refuted : ~ (forall vals lo hi, least lo vals -> greatest hi vals -> lo <= 0 <= hi -> is_zero_included vals (25 / 1000) = Ok true).
Proof. exact c53_covered. Qed.
Print Assumptions C53_zero_inside_refuted.

(** and the answer changes when the data change sign *)
Theorem C53_mirror_refuted : ~ (forall vals, is_zero_included (map Ropp vals) (25 / 1000) = is_zero_included vals (25 / 1000)).
Proof. exact c53_mirror. Qed.
Print Assumptions C53_mirror_refuted.

Example C53_example : is_zero_included [-1; 2; 1] (25 / 1000) = Ok true.
Proof. apply (C53_zero_line _ _ (-1) 2); [split; [left; reflexivity|intros x [<-|[<-|[<-|[]]]]; lra] | split; [right; left; reflexivity|intros x [<-|[<-|[<-|[]]]]; lra] | lra]. Qed.

(** a file recorded from time 0: every s-th row, with its own time *)
Theorem C54_equal : forall (V : Type) (f : h5 V R) dt n (min_fps : Z) speed, fixed_step f dt 0 -> titled f -> has_rows f "density" n -> (0 < n)%nat -> (0 < min_fps)%Z ->
  exists s fps shown, (0 < s)%nat /\ create_movie_equally_spaced f 0 None min_fps speed = Ok (fps, shown) /\
    shown = map (fun k => ((k * s)%nat, row_time dt 0 (k * s))) (seq 0 (ceil_div n s)) /\
    forall r, In r (map fst shown) <-> (r < n)%nat /\ (r mod s = 0)%nat.
Proof. exact @movie_from_start. Qed.
Print Assumptions C54_equal.

(** a file recorded from row m on: the pictures start m rows before the end and wrap around *)
Theorem C54_equal_late : forall (V : Type) (f : h5 V R) dt m n (min_fps : Z) speed, fixed_step f dt (INR m * dt) -> titled f -> has_rows f "density" n -> (0 < n)%nat -> (m <= n)%nat -> (0 < min_fps)%Z ->
  let s := skip_of speed dt min_fps in
  create_movie_equally_spaced f 0 None min_fps speed
  = Ok (IZR (R_trunc (speed / dt)) / INR s,
        map (fun k => (((n - m + k * s) mod n)%nat, (INR (k * s) - INR m) * dt)) (seq 0 (ceil_div n s))).
Proof. intros V f dt m n min_fps speed F Ti Hn Pn Pm Pf. exact (movie_equal f dt (INR m * dt) m n min_fps speed F eq_refl Ti Hn Pn Pm Pf). Qed.
Print Assumptions C54_equal_late.

(** and every title shows too early a time *)
Theorem C54_late_titles : forall (V : Type) (f : h5 V R) dt m n (min_fps : Z) speed fps shown, fixed_step f dt (INR m * dt) -> titled f -> has_rows f "density" n -> (0 < m <= n)%nat -> (0 < min_fps)%Z ->
  create_movie_equally_spaced f 0 None min_fps speed = Ok (fps, shown) ->
  hd_error (map fst shown) = Some ((n - m) mod n)%nat /\ forall r t, In (r, t) shown -> t < row_time dt (INR m * dt) r.
Proof. exact @movie_late_titles. Qed.
Print Assumptions C54_late_titles.

(** a file that starts later than it is long cannot be shown *)
Theorem C54_far_late : forall (V : Type) (f : h5 V R) dt m n (min_fps : Z) speed, fixed_step f dt (INR m * dt) -> titled f -> has_rows f "density" n -> (0 < n)%nat -> (n < m)%nat -> (0 < min_fps)%Z ->
  create_movie_equally_spaced f 0 None min_fps speed = Exn IndexError.
Proof. intros V f dt m n min_fps speed F Ti Hn Pn Pm Pf. exact (movie_equal_far f dt (INR m * dt) m n min_fps speed F eq_refl Ti Hn Pn Pm Pf). Qed.
Print Assumptions C54_far_late.

(** the first picture is not always the first row *)
Theorem C54_first_row_refuted : ~ (forall (f : h5 unit R) dt t_in n fps shown, fixed_step f dt t_in -> titled f -> has_rows f "density" n -> (0 < n)%nat ->
    create_movie_equally_spaced f 0 None 10 1 = Ok (fps, shown) -> hd_error (map fst shown) = Some 0%nat).
Proof. exact movie_first_row. Qed.
Print Assumptions C54_first_row_refuted.

(** adaptive steps: picture k is the first row not earlier than k times the time per picture *)
Theorem C54_unequal : forall (V : Type) (f : h5 V R) times t0 (min_fps speed : R), titled f -> holds f "time" times -> sorted times -> times <> [] -> 0 <= nth 0 times 0 ->
  has_rows f "density" (List.length times) -> 0 < min_fps -> 0 < speed ->
  let tpf := speed / min_fps in
  let T := nth (List.length times - 1) times 0 in
  exists rows, create_movie_unequal_spaced_fine f t0 None min_fps speed = Ok (min_fps, map (fun r => (r, nth r times 0)) rows) /\
    List.length rows = S (Z.to_nat (Int_part (T / tpf))) /\
    forall k, (k < List.length rows)%nat -> let r := nth k rows 0%nat in
      (r < List.length times)%nat /\ INR k * tpf <= nth r times 0 /\ forall i, (i < r)%nat -> nth i times 0 < INR k * tpf.
Proof. exact @movie_unequal. Qed.
Print Assumptions C54_unequal.

(** an end time beyond the recording fails *)
Theorem C54_unequal_beyond_end : forall (V : Type) (f : h5 V R) times t0 t1 (min_fps speed : R), titled f -> holds f "time" times -> sorted times -> times <> [] -> 0 <= nth 0 times 0 ->
  has_rows f "density" (List.length times) -> 0 < min_fps -> 0 < speed -> nth (List.length times - 1) times 0 < t1 - speed / min_fps ->
  exists e, create_movie_unequal_spaced_fine f t0 (Some t1) min_fps speed = Exn e.
Proof. exact @movie_unequal_end. Qed.
Print Assumptions C54_unequal_beyond_end.

(** the start time is ignored *)
Theorem C54_start_ignored_refuted : ~ (forall (f : h5 unit R) times t0 fps shown, holds f "time" times -> sorted times ->
    create_movie_unequal_spaced_fine f t0 None 1 1 = Ok (fps, shown) -> forall r t, In (r, t) shown -> t0 <= t).
Proof. exact movie_ignores_start. Qed.
Print Assumptions C54_start_ignored_refuted.

Example C54_example : fixed_step (file 0 [] 5) 1 0 /\ titled (file 0 [] 5) /\ has_rows (file 0 [] 5) "density" 5 /\ fixed_step (file 2 [] 5) 1 (INR 2 * 1).
Proof. split; [apply file_fixed|]. split; [apply file_titled|]. split; [apply file_rows|]. replace (INR 2 * 1) with 2 by (cbn; ring). apply file_fixed. Qed.

Example C54_example_adaptive : titled (afile 0 [0; 1; 3] []) /\ holds (afile 0 [0; 1; 3] []) "time" [0; 1; 3] /\ sorted [0; 1; 3] /\ has_rows (afile 0 [0; 1; 3] []) "density" 3.
Proof. split; [apply afile_titled|]. split; [apply afile_time|]. split; [|apply (afile_rows 0 [0; 1; 3])]. intros i j [A B]. cbn in B. destruct i as [|[|[|i]]], j as [|[|[|j]]]; cbn; try lra; lia. Qed.

(** the times drawn: right for files recorded from time 0 and t0 a multiple of the spacing, otherwise shifted *)
Theorem C77_times : forall (V : Type) (f : h5 V R) dt t_in latex props (data : string -> list R) t0 t0_std y_cutoff i s, fixed_step f dt t_in -> INR i * dt <= t0 < (INR i + 1) * dt -> INR s * dt <= t0_std - t_in < (INR s + 1) * dt ->
  props <> [] -> (forall p, In p props -> holds f p (data p) /\ (i < List.length (data p))%nat) ->
  exists curves cut, plot_timetraces f latex props t0 t0_std y_cutoff = Ok (Figure curves cut) /\ List.length curves = List.length props /\
    forall n p c, nth_error props n = Some p -> nth_error curves n = Some c ->
      cv_y c = skipn i (data p) /\ List.length (cv_x c) = List.length (cv_y c) /\
      forall k, (k < List.length (cv_x c))%nat -> nth k (cv_x c) 0 = row_time dt t_in (i + k) + (t0 - INR i * dt) - t_in.
Proof. exact @traces_times. Qed.
Print Assumptions C77_times.

(** adaptive files: the recorded times from the nearest row on *)
Theorem C77_adaptive : forall (V : Type) (f : h5 V R) dt t_in latex props (data : string -> list R) times t0 t0_std y_cutoff i s,
  adaptive_step f dt t_in -> holds f "time" times -> nearest times t0 i -> nearest times (t0_std - t_in) s ->
  props <> [] -> (forall p, In p props -> holds f p (data p) /\ List.length (data p) = List.length times) ->
  exists cut, plot_timetraces f latex props t0 t0_std y_cutoff
    = Ok (Figure (map (fun p => mkCurve "<class 'property'> " (skipn i times) (skipn i (data p)) (skipn s (data p))) props) cut).
Proof. exact @traces_adaptive. Qed.
Print Assumptions C77_adaptive.

(** nothing is drawn when a property ends before the start *)
Theorem C77_short : forall (V : Type) (f : h5 V R) dt t_in latex props (data : string -> list R) t0 t0_std y_cutoff i p,
  fixed_step f dt t_in -> INR i * dt <= t0 < (INR i + 1) * dt -> (forall p, In p props -> holds f p (data p)) ->
  In p props -> (List.length (data p) <= i)%nat -> plot_timetraces f latex props t0 t0_std y_cutoff = Ok Skipped.
Proof. exact @traces_short. Qed.
Print Assumptions C77_short.

(** not the recorded times in general *)
Theorem C77_times_refuted : ~ (forall (f : h5 unit R) dt t_in curves cut, fixed_step f dt t_in ->
    plot_timetraces f latex_format ["gamma_n"] 0 300 100000 = Ok (Figure curves cut) ->
    forall c k, In c curves -> (k < List.length (cv_x c))%nat -> nth k (cv_x c) 0 = row_time dt t_in k).
Proof. exact trace_times_wrong. Qed.
Print Assumptions C77_times_refuted.

Example C77_example : fixed_step (file 0 [5; 6; 7] 3) 1 0 /\ holds (file 0 [5; 6; 7] 3) "gamma_n" [5; 6; 7] /\ INR 1 * 1 <= 1 < (INR 1 + 1) * 1.
Proof. split; [apply file_fixed|]. split; [apply file_holds|]. cbn. lra. Qed.

Example C77_example_adaptive : nearest [0; 1; 3] 1 1.
Proof. split; [cbn; lia|]. replace (nth 1 [0; 1; 3] 0 - 1) with 0 by (cbn; lra). rewrite Rabs_R0. split; [intros; apply Rabs_pos|]. intros [|j] Hj; [|lia]. cbn. apply Rabs_pos_lt. lra. Qed.

(** mean and deviation are taken from the row recorded at t0_std on, or of all that is drawn when the file ends earlier *)
Theorem C78_window : forall (V : Type) (f : h5 V R) dt t_in latex props (data : string -> list R) t0 t0_std y_cutoff i s,
  fixed_step f dt t_in -> INR i * dt <= t0 < (INR i + 1) * dt -> row_time dt t_in s <= t0_std < row_time dt t_in (S s) ->
  props <> [] -> (forall p, In p props -> holds f p (data p) /\ (i < List.length (data p))%nat) ->
  exists curves cut, plot_timetraces f latex props t0 t0_std y_cutoff = Ok (Figure curves cut) /\ List.length curves = List.length props /\
    forall n p c, nth_error props n = Some p -> nth_error curves n = Some c ->
      ((exists q, In q props /\ (s <= List.length (data q))%nat) -> cv_stat c = skipn s (data p)) /\
      ((forall q, In q props -> (List.length (data q) < s)%nat) -> cv_stat c = cv_y c).
Proof. exact @traces_stats. Qed.
Print Assumptions C78_window.

(** a file that ends exactly at t0_std has no value in the window *)
Theorem C78_empty_window_refuted : ~ (forall (f : h5 unit R) dt t_in curves cut, fixed_step f dt t_in ->
    plot_timetraces f latex_format ["gamma_n"] 0 300 100000 = Ok (Figure curves cut) -> forall c, In c curves -> cv_stat c <> []).
Proof. exact stats_empty. Qed.
Print Assumptions C78_empty_window_refuted.

(** adaptive files recorded from a later time: the window starts too early *)
Theorem C78_adaptive_shift_refuted : ~ (forall (f : h5 unit R) dt t_in times data curves cut i, adaptive_step f dt t_in -> holds f "time" times -> holds f "gamma_n" data ->
    nearest times 12 i -> plot_timetraces f latex_format ["gamma_n"] 0 12 100000 = Ok (Figure curves cut) -> forall c, In c curves -> cv_stat c = skipn i data).
Proof. exact stats_shifted. Qed.
Print Assumptions C78_adaptive_shift_refuted.

(** t0_std before the recording: the window is as long as the time between them,
    counted from the end of the file, not the whole file *)
Theorem C78_early : forall (V : Type) (f : h5 V R) dt t_in latex props (data : string -> list R) t0 t0_std y_cutoff i s,
  fixed_step f dt t_in -> INR i * dt <= t0 < (INR i + 1) * dt -> (0 < s)%nat -> t_in - INR s * dt <= t0_std < t_in - (INR s - 1) * dt ->
  props <> [] -> (forall p, In p props -> holds f p (data p) /\ (i < List.length (data p))%nat) ->
  exists curves cut, plot_timetraces f latex props t0 t0_std y_cutoff = Ok (Figure curves cut) /\ List.length curves = List.length props /\
    forall n p c, nth_error props n = Some p -> nth_error curves n = Some c -> cv_y c = skipn i (data p) /\ cv_stat c = skipn (List.length (data p) - s) (data p).
Proof. exact @traces_early. Qed.
Print Assumptions C78_early.
Theorem C78_early_refuted : ~ (forall (f : h5 unit R) dt t_in data curves cut t0_std, fixed_step f dt t_in -> holds f "gamma_n" data -> t0_std <= t_in ->
  plot_timetraces f latex_format ["gamma_n"] 0 t0_std 100000 = Ok (Figure curves cut) -> forall c, In c curves -> cv_stat c = data).
Proof. exact stats_early. Qed.
Print Assumptions C78_early_refuted.

(** every curve has the same label *)
Theorem C79_label_constant : forall (V : Type) (f : h5 V R) latex props t0 t0_std y_cutoff curves cut, plot_timetraces f latex props t0 t0_std y_cutoff = Ok (Figure curves cut) ->
  forall c, In c curves -> cv_label c = "<class 'property'> ".
Proof. exact @traces_labels. Qed.
Print Assumptions C79_label_constant.

(** not the name of the property *)
Theorem C79_label_refuted : ~ (forall (f : h5 unit R) dt t_in curves cut, fixed_step f dt t_in ->
    plot_timetraces f latex_format ["gamma_n"] 0 300 100000 = Ok (Figure curves cut) -> map cv_label curves = [(latex_format "gamma_n" ++ " ")%string]).
Proof. exact labels_differ. Qed.
Print Assumptions C79_label_refuted.

(** the comparison plot labels its curves with the names; its axis is never cut off *)
Theorem C79_comparison : forall (V : Type) (f : h5 V R) dt t_in latex prefix props (data : string -> list R) (t0 : Z) t0_std xtick y_cutoff i s top bottom cut,
  fixed_step f dt t_in -> let t := Rmax (IZR t0) t_in in
  INR i * dt <= t < (INR i + 1) * dt -> INR s * dt <= t0_std - t_in < (INR s + 1) * dt ->
  (forall p, In p props -> holds f p (data p) /\ (i < List.length (data p))%nat) ->
  plot_timetrace_comparison f latex prefix props t0 t0_std xtick y_cutoff = Ok (Some (top, bottom, cut)) ->
  top = map (fun p => mkCurve (latex p ++ " ") (map (fun k => t + INR k * dt) (seq 0 (List.length (data p) - i))) (skipn i (data p))
                   (skipn (stat_row (list_max (map (fun p => List.length (data p)) props)) s i) (data p))) props
  /\ (cut = true <-> y_cutoff < 0).
Proof. exact @comparison_fixed. Qed.
Print Assumptions C79_comparison.

(** the axis is cut off when all values of a property exceed the limit *)
Theorem C80_cut : forall (V : Type) (f : h5 V R) dt t_in latex props (data : string -> list R) t0 t0_std y_cutoff i s, fixed_step f dt t_in -> INR i * dt <= t0 < (INR i + 1) * dt -> INR s * dt <= t0_std - t_in < (INR s + 1) * dt ->
  props <> [] -> (forall p, In p props -> holds f p (data p) /\ (i < List.length (data p))%nat) ->
  exists curves cut, plot_timetraces f latex props t0 t0_std y_cutoff = Ok (Figure curves cut) /\
    (cut = true <-> y_cutoff < 0 \/ exists p, In p props /\ forall y, In y (skipn i (data p)) -> y_cutoff < y).
Proof. intros V f dt t_in latex props data t0 t0_std y_cutoff i s F Bi Bs Ne H. destruct (traces_fixed f dt t_in latex props data t0 t0_std y_cutoff i s F Bi Bs Ne H) as (cut & E & C). eexists. exists cut. split; [exact E|exact C]. Qed.
Print Assumptions C80_cut.

(** not when some value does *)
Theorem C80_cut_refuted : ~ (forall (f : h5 unit R) dt t_in data curves cut, fixed_step f dt t_in -> holds f "gamma_n" data ->
    plot_timetraces f latex_format ["gamma_n"] 0 300 100000 = Ok (Figure curves cut) -> (exists y, In y data /\ 100000 < y) -> cut = true).
Proof. exact cut_missed. Qed.
Print Assumptions C80_cut_refuted.

(** the comparison of a short file recorded from a later (float) time never shows anything *)
Theorem C80_comparison_ticks : forall (V : Type) (f : h5 V R) dt t_in latex prefix props (t0 : Z) t0_std xtick y_cutoff n q, fixed_step f dt t_in -> has_rows f "density" n ->
  IZR t0 < t_in -> 0 < xtick -> (q < 15)%Z -> INR n * dt < (IZR q + 1) * xtick ->
  forall r, plot_timetrace_comparison f latex prefix props t0 t0_std xtick y_cutoff <> Ok (Some r).
Proof. exact @comparison_ticks. Qed.
Print Assumptions C80_comparison_ticks.

(** for example *)
Theorem C80_comparison_refuted : exists (f : h5 unit R), fixed_step f 1 (3 / 2) /\ has_rows f "density" 4 /\ holds f "gamma_n" [1; 2; 3; 4] /\
  plot_timetrace_comparison f latex_format "full_" ["gamma_n"] 0 300 100 100000 = Exn TypeError.
Proof. exact comparison_typeerror. Qed.
Print Assumptions C80_comparison_refuted.

(** simulated time per second of film, and pictures per second; see C54_equal_late for fps and s *)
Theorem C81_playback : forall speed dt (min_fps : Z), 0 < dt -> 0 <= speed -> (0 < min_fps)%Z ->
  let s := skip_of speed dt min_fps in let fps := IZR (R_trunc (speed / dt)) / INR s in
  fps * (INR s * dt) <= speed < fps * (INR s * dt) + dt /\ fps < 2 * IZR min_fps /\
  (IZR min_fps * dt <= speed -> IZR min_fps <= fps) /\ (fps = 0 <-> speed < dt).
Proof. exact playback. Qed.
Print Assumptions C81_playback.

Example C81_example : 0 < 1 / 4 /\ 0 <= 5 /\ (0 < 10)%Z /\ IZR 10 * (1 / 4) <= 5.
Proof. repeat split; lra || lia. Qed.

(** colour limits of a movie are symmetric, contain the data, and never exceed old limits and data *)
Theorem C82_symmetric : forall arr lo hi, arr <> [] -> exists m, next_clim arr (lo, hi) = Ok (- m, m) /\ (forall x, In x arr -> - m <= x <= m) /\
  (forall b, (forall x, In x arr -> - b <= x <= b) -> - b <= lo <= hi -> hi <= b -> m <= b).
Proof. exact clim_ok. Qed.
Print Assumptions C82_symmetric.

(** when the data stay small the limits shrink to them by half the distance per picture *)
Theorem C82_limit : forall arr m p k, arr <> [] -> (forall x, In x arr -> - m <= x <= m) -> (In m arr \/ In (- m) arr) -> 0 <= m <= p ->
  clims k arr (- p, p) = Ok (- (m + (p - m) / 2 ^ k), m + (p - m) / 2 ^ k).
Proof. exact clim_limit. Qed.
Print Assumptions C82_limit.

(** coupled colour bars: smallest and largest value of all images and zero *)
Theorem C82_coupled : forall imgs lo hi, (forall d, In d imgs -> d <> []) -> exists lo' hi', coupled_clim imgs (lo, hi) = Ok (lo', hi') /\
  least lo' (lo :: concat imgs) /\ greatest hi' (hi :: concat imgs).
Proof. exact coupled_ok. Qed.
Print Assumptions C82_coupled.

(** the unused variant can exceed both values *)
Theorem C82_overshoot_refuted : ~ (forall nm pm, nm <= pm -> nm <= new_cbar_max nm pm <= pm).
Proof. exact cbar_overshoot. Qed.
Print Assumptions C82_overshoot_refuted.

Example C82_example : [1; -2] <> [] /\ (forall x, In x [1; -2] -> - 2 <= x <= 2) /\ (In 2 [1; -2] \/ In (- 2) [1; -2]) /\ 0 <= 2 <= 5.
Proof. split; [discriminate|]. split; [intros x [<-|[<-|[]]]; lra|]. split; [right; right; left; lra|lra]. Qed.

(** the image for time t is the last row recorded not later *)
Theorem C83_row : forall (V : Type) (f : h5 V R) dt t_in n t r, fixed_step f dt t_in -> has_rows f "density" n -> (r < n)%nat ->
  t_in + INR r * dt <= t < t_in + (INR r + 1) * dt -> image_row f t = Ok r.
Proof. exact @image_ok. Qed.
Print Assumptions C83_row.

(** after the recording: an error *)
Theorem C83_late : forall (V : Type) (f : h5 V R) dt t_in n t, fixed_step f dt t_in -> has_rows f "density" n -> t_in + INR n * dt <= t -> image_row f t = Exn IndexError.
Proof. exact @image_late. Qed.
Print Assumptions C83_late.

(** before the recording: a row counted from the end *)
Theorem C83_early : forall (V : Type) (f : h5 V R) dt t_in n t r, fixed_step f dt t_in -> has_rows f "density" n -> (0 < r <= n)%nat ->
  t_in - INR r * dt <= t < t_in - (INR r - 1) * dt -> image_row f t = Ok (n - r)%nat.
Proof. exact @image_early. Qed.
Print Assumptions C83_early.

(** not an error *)
Theorem C83_early_refuted : ~ (forall (f : h5 unit R) dt t_in t, fixed_step f dt t_in -> t < t_in -> exists e, image_row f t = Exn e).
Proof. exact image_before. Qed.
Print Assumptions C83_early_refuted.

Example C83_example : fixed_step (file 2 [] 5) 1 2 /\ has_rows (file 2 [] 5) "density" 5 /\ 2 + INR 1 * 1 <= 7 / 2 < 2 + (INR 1 + 1) * 1.
Proof. split; [apply file_fixed|]. split; [apply file_rows|]. cbn. lra. Qed.

(** colours lie between 0 and 1 *)
Theorem C84_unit : forall vals c, get_extended_viridis vals = Ok c -> forall r g b, In (r, g, b) c -> in_unit r /\ in_unit g /\ in_unit b.
Proof. exact viridis_unit. Qed.
Print Assumptions C84_unit.

(** 600 colours asked for in binary64: not 600 colours *)
Theorem C84_count_refuted : ~ (exists c, get_extended_viridis (TN := TimeF64) 600 = Ok c /\ List.length c = 600%nat).
Proof. exact viridis_count. Qed.
Print Assumptions C84_count_refuted.

(** the published viridis colours, in eleven steps, over the upper half of the
    600 exact colours: all are met but the tenth, where the red is 34 instead
    of 134, and the last, where the list ends *)
Definition viridis12 : list (Z * (Z * Z * Z)) :=
  [(300, (68, 1, 84)); (330, (72, 33, 115)); (354, (67, 62, 133)); (384, (56, 88, 140)); (408, (45, 112, 142)); (438, (37, 133, 142));
   (462, (30, 155, 138)); (492, (42, 176, 127)); (516, (82, 197, 105)); (540, (134, 213, 73)); (570, (194, 223, 35))]%Z.
Definition shown_at (c : list (QArith_base.Q * QArith_base.Q * QArith_base.Q)) (e : Z * (Z * Z * Z)) : Prop :=
  let '(i, (r, g, b)) := e in
  exists r' g' b', nth_error c (Z.to_nat i) = Some (r', g', b') /\ QArith_base.Qeq r' (QArith_base.Qmake r 256) /\ QArith_base.Qeq g' (QArith_base.Qmake g 256) /\ QArith_base.Qeq b' (QArith_base.Qmake b 256).
Definition shownb (c : list (QArith_base.Q * QArith_base.Q * QArith_base.Q)) (e : Z * (Z * Z * Z)) : bool :=
  let '(i, (r, g, b)) := e in
  match nth_error c (Z.to_nat i) with
  | Some (r', g', b') => QArith_base.Qeq_bool r' (QArith_base.Qmake r 256) && QArith_base.Qeq_bool g' (QArith_base.Qmake g 256) && QArith_base.Qeq_bool b' (QArith_base.Qmake b 256)
  | None => false
  end.
Lemma shownb_spec c e : shownb c e = true <-> shown_at c e.
Proof.
  destruct e as [i [[r g] b]]. unfold shownb, shown_at. destruct (nth_error c (Z.to_nat i)) as [[[r' g'] b']|].
  - rewrite !andb_true_iff, !QArith_base.Qeq_bool_iff. split.
    + intros [[H1 H2] H3]. exists r', g', b'. tauto.
    + intros (x & y & z & E & H). injection E as <- <- <-. tauto.
  - split; [discriminate|]. intros (x & y & z & E & H). discriminate.
Qed.
Theorem C84_anchors : exists c, get_extended_viridis (TN := TimeQ) 600 = Ok c /\
  forall e, In e viridis12 -> fst e <> 540%Z -> shown_at c e.
Proof.
  assert (H : match get_extended_viridis (TN := TimeQ) 600 with Ok c => forallb (fun e => (fst e =? 540)%Z || shownb c e)%bool viridis12 | Exn _ => false end = true)
    by (vm_compute; reflexivity).
  destruct (get_extended_viridis (TN := TimeQ) 600) as [c|e]; [|discriminate]. exists c. split; [reflexivity|].
  intros e He Hn. rewrite forallb_forall in H. specialize (H e He). apply orb_true_iff in H as [H|H]; [apply Z.eqb_eq in H; congruence|].
  now apply shownb_spec.
Qed.
Print Assumptions C84_anchors.
Theorem C84_viridis_refuted : ~ (exists c, get_extended_viridis (TN := TimeQ) 600 = Ok c /\ forall e, In e viridis12 -> shown_at c e).
Proof.
  intros (c & E & H). specialize (H (540, (134, 213, 73))%Z).
  assert (K : match get_extended_viridis (TN := TimeQ) 600 with Ok c => shownb c (540, (134, 213, 73))%Z | Exn _ => true end = false) by (vm_compute; reflexivity).
  rewrite E in K. apply Bool.not_true_iff_false in K. apply K, shownb_spec, H. cbn. tauto.
Qed.
Print Assumptions C84_viridis_refuted.

Example C84_example : exists c, get_extended_viridis (TN := TimeQ) 600 = Ok c /\ List.length c = 600%nat.
Proof. eexists. split; [vm_compute; reflexivity|]. vm_compute. reflexivity. Qed.

(** plot_timeline always fails after drawing *)
Theorem C86_timeline : forall y x t0, x <> [] -> y <> [] -> snd (plot_timeline y x t0) = Exn NameError.
Proof. exact timeline_fails. Qed.
Print Assumptions C86_timeline.

Theorem C86_timeline_refuted : ~ (forall y x t0, x <> [] -> y <> [] -> snd (plot_timeline y x t0) = Ok tt).
Proof. exact timeline_shown. Qed.
Print Assumptions C86_timeline_refuted.

(** what is drawn before the failure: a vertical line at zero by the range of
    x, a horizontal one by the range of y, then the curve *)
Theorem C86_timeline_drawn : forall y x t0 lx hx ly hy, least lx x -> greatest hx x -> least ly y -> greatest hy y ->
  exists vs hs, fst (plot_timeline y x t0) = (vs ++ hs ++ [Curve x y])%list /\
    (lx <= 25 / 1000 * (hx - lx) <= hx /\ vs = [VLine] \/ ~ (lx <= 25 / 1000 * (hx - lx) <= hx) /\ vs = []) /\
    (ly <= 25 / 1000 * (hy - ly) <= hy /\ hs = [HLine] \/ ~ (ly <= 25 / 1000 * (hy - ly) <= hy) /\ hs = []).
Proof.
  intros y x t0 lx hx ly hy L1 G1 L2 G2. pose proof (C53_zero_line x (25 / 1000) lx hx L1 G1) as A. pose proof (C53_zero_line y (25 / 1000) ly hy L2 G2) as B.
  assert (X : exists b, is_zero_included x (25 / 1000) = Ok b) by (unfold is_zero_included; rewrite (np_min_eq _ _ L1), (np_max_eq _ _ G1); eexists; reflexivity).
  assert (Y : exists b, is_zero_included y (25 / 1000) = Ok b) by (unfold is_zero_included; rewrite (np_min_eq _ _ L2), (np_max_eq _ _ G2); eexists; reflexivity).
  destruct X as [u X], Y as [v Y]. rewrite X in A. rewrite Y in B.
  exists (if u then [VLine] else []), (if v then [HLine] else []). unfold plot_timeline, add_axes. rewrite X, Y. cbn [bind fst]. rewrite <- app_assoc.
  split; [reflexivity|]. split.
  - destruct u; [left; split; [now apply A|reflexivity]|right; split; [|reflexivity]]. intros Q. apply A in Q. discriminate.
  - destruct v; [left; split; [now apply B|reflexivity]|right; split; [|reflexivity]]. intros Q. apply B in Q. discriminate.
Qed.
Print Assumptions C86_timeline_drawn.
Example C86_drawn_case : fst (plot_timeline [-1; 2] [5; 6] 0) = [HLine; Curve [5; 6] [-1; 2]].
Proof.
  destruct (C86_timeline_drawn [-1; 2] [5; 6] 0 5 6 (-1) 2) as (vs & hs & -> & A & B);
    [unfold least; cbn; intuition (subst; lra)|unfold greatest; cbn; intuition (subst; lra)|unfold least; cbn; intuition (subst; lra)|unfold greatest; cbn; intuition (subst; lra)|].
  destruct A as [[A _]|[_ ->]]; [exfalso; lra|]. destruct B as [[_ ->]|[B _]]; [reflexivity|]. exfalso. apply B. lra.
Qed.

(** the warning about a missing movie writer is given when it exists *)
Theorem C87_writer_refuted : ~ (forall available, writer_warning available = true <-> ~ In "ffmpeg" available).
Proof. exact writer_inverted. Qed.
Print Assumptions C87_writer_refuted.
