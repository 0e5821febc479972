(** Attributes of recorded files (C88), and images, movies and time traces of
    recorded runs (C89). *)
From Coq Require Import Arith ZArith QArith Bool Reals String List Lia Lra.
Import List.
From Verif Require Import Num NdArray Spec SpecFourier SpecHW SpecPlasma SpecDiag
  ModelHW ModelBackend ModelIO ModelRun ModelRunHW SpecIO SpecRun SpecRunHW ModelPlot SpecPlot SpecAttr RunForce RunTop RunTop2 RunPlot RunWit RunHWWit.
Import ListNotations.
Local Close Scope Q_scope.
Local Open Scope nat_scope.
Local Open Scope string_scope.

(** ** C88: the attributes of a file describe the run *)
Theorem C88_run : forall (V T : Type) (TN : TimeNum T) (s : sim V T) (c : cfg V T) P pl0 phi traj steps n ds fs tbl,
  c_output c = true -> (fs = None \/ c_force c = true) -> (1 <= c_blen c)%nat -> (c_snaps c =? 0)%Z = false -> NoDup (keys (c_phys c)) ->
  downsampled c ds pl0 -> goes s c (c_phys c) (nofZ 0) pl0 phi traj steps n ds ->
  apart1 c -> props_fine s c P (save_params_of c (c_phys c) false) tbl ->
  frames_P P (fun k => map (fun tp => frame_row s ds (fst tp) (snd tp) k) (fresh_log c pl0 (time1 c) traj n)) ->
  exists g, result_of (run s c pl0) fs = Ok tt /\ disk_of (run s c pl0) fs = Some g /\ describes c false (attrs g).
Proof. exact @described_run. Qed.
Theorem C88_run2 : forall (V T : Type) (TN : TimeNum T) (s : sim V T) (c : cfg V T) P pl0 phi traj n ds pv fuel fs tbl q,
  c_output c = true -> (fs = None \/ c_force c = true) -> (1 <= c_blen c)%nat -> (c_snaps c =? 0)%Z = false -> NoDup (c_props c) ->
  t_int (ndiv (c_end c) (c_step c)) = Ok q ->
  NoDup (keys (c_phys c)) -> downsampled c ds pl0 -> has_props s c pv pl0 ->
  props_apart c -> props_fine s c P (save_params_of c (c_phys c) (c_adaptive c)) tbl ->
  goes2 s c (c_phys c) (nofZ 0) pl0 phi traj n ds pv -> (n < fuel)%nat ->
  let l := fresh_log c pl0 (time2 c (nofZ 0)) traj n in
  let m := if nltb (c_rec c) (time2 c (nofZ 0) n) then List.length l else (c_blen c * (List.length l / c_blen c))%nat in
  frames_P P (fun k => map (fun tp => frame_row s ds (fst tp) (snd tp) k) (firstn m l)) ->
  exists g, result_of (run2 s c fuel pl0) fs = Ok tt /\ disk_of (run2 s c fuel pl0) fs = Some g /\ describes c (c_adaptive c) (attrs g).
Proof. exact @described_run2. Qed.
(** whatever happens, wherever it stops: no other attribute is ever written *)
Theorem C88_run_any : forall (V T : Type) (TN : TimeNum T) (s : sim V T) (c : cfg V T) pl0 D fs j g k a,
  NoDup (keys (c_phys c)) -> describes c false D ->
  crash_after (zero_like s) j (run s c pl0) fs = Some g -> dget (attrs g) k = Some a ->
  (exists g0, fs = Some g0 /\ dget (attrs g0) k = Some a) \/ dget D k = Some a.
Proof. exact @attr_any_run. Qed.
Theorem C88_run2_any : forall (V T : Type) (TN : TimeNum T) (s : sim V T) (c : cfg V T) fuel pl0 D fs j g k a,
  NoDup (keys (c_phys c)) -> describes c (c_adaptive c) D ->
  crash_after (zero_like s) j (run2 s c fuel pl0) fs = Some g -> dget (attrs g) k = Some a ->
  (exists g0, fs = Some g0 /\ dget (attrs g0) k = Some a) \/ dget D k = Some a.
Proof. exact @attr_any_run2. Qed.
Print Assumptions C88_run.
Print Assumptions C88_run2.
Print Assumptions C88_run_any.
Print Assumptions C88_run2_any.
(** a finished run and one stopped after eleven file operations *)
Example C88_example : (exists g, qrun (qcfg 3 2 1 false true []) None = Some g /\ dget (attrs g) "frame_dt" = Some (AT 1%Q) /\ dget (attrs g) "grid_pts" = Some (AZ 4)) /\
  exists g, crash_after (@zero_like Z Q TimeQ tq) 11 (@run Z Q TimeQ tq (qcfg 3 2 1 false true []) (@toy_init Q TimeQ)) None = Some g /\ attrs g <> [] /\ dget (attrs g) "adaptive_step_size" = None.
Proof. split; eexists; (split; [vm_compute; reflexivity|]); split; vm_compute; (reflexivity || discriminate). Qed.

Local Open Scope R_scope.
#[local] Existing Instance TimeR.

(** ** C89: images, movies and time traces of a recorded run *)

(** the image for time t is the last recorded state not later than t *)
Theorem C89_image : forall b p ny nx ys xs k0 dsf (c : cfg (arr R) R) rnd y0 phi0 fs m t r, records_from b p ny nx ys xs k0 dsf c fs m ->
  let sim := run (hw_sim b rnd ny nx ys xs) c (plasma0 (grid ny nx (fst y0)) (grid ny nx (snd y0)) (grid ny nx phi0)) in
  let k := Z.to_nat (c_snaps c) in
  let fr r := hw_frame p ny nx (c_dx c) (c_step c) y0 phi0 (iteration m k r) in
  (r < rows_of m k (steps_of c))%nat -> f_t (fr r) <= t < f_t (fr r) + c_step c * IZR (c_snaps c) ->
  exists g, disk_of sim fs = Some g /\ image_row g t = Ok r /\ row_shows rnd dsf ys xs g r (fr r).
Proof. intros b p ny nx ys xs k0 dsf c rnd y0 phi0 fs m t r RF sim k fr. exact (run_image b p ny nx ys xs k0 dsf c rnd y0 phi0 fs m RF t r). Qed.
(** recorded from the start: every picture of the movie shows the state of its title *)
Theorem C89_movie : forall b p ny nx ys xs k0 dsf (c : cfg (arr R) R) rnd y0 phi0 fs (min_fps : Z) speed, records_from b p ny nx ys xs k0 dsf c fs 0 ->
  let sim := run (hw_sim b rnd ny nx ys xs) c (plasma0 (grid ny nx (fst y0)) (grid ny nx (snd y0)) (grid ny nx phi0)) in
  let k := Z.to_nat (c_snaps c) in
  let fr r := hw_frame p ny nx (c_dx c) (c_step c) y0 phi0 (iteration 0 k r) in
  (0 < min_fps)%Z ->
  exists g fps shown, disk_of sim fs = Some g /\ create_movie_equally_spaced g 0 None min_fps speed = Ok (fps, shown) /\ shown <> [] /\
    forall r t, In (r, t) shown -> (r < rows_of 0 k (steps_of c))%nat /\ t = f_t (fr r) /\ row_shows rnd dsf ys xs g r (fr r).
Proof. intros b p ny nx ys xs k0 dsf c rnd y0 phi0 fs min_fps speed RF sim k fr. exact (run_movie b p ny nx ys xs k0 dsf c rnd y0 phi0 fs 0 RF min_fps speed eq_refl). Qed.
(** recorded from later on: every title is earlier than the state it shows *)
Theorem C89_movie_late : forall b p ny nx ys xs k0 dsf (c : cfg (arr R) R) rnd y0 phi0 fs m (min_fps : Z) speed, records_from b p ny nx ys xs k0 dsf c fs m ->
  let sim := run (hw_sim b rnd ny nx ys xs) c (plasma0 (grid ny nx (fst y0)) (grid ny nx (snd y0)) (grid ny nx phi0)) in
  let k := Z.to_nat (c_snaps c) in
  let fr r := hw_frame p ny nx (c_dx c) (c_step c) y0 phi0 (iteration m k r) in
  (0 < m <= rows_of m k (steps_of c))%nat -> (0 < min_fps)%Z ->
  exists g fps shown, disk_of sim fs = Some g /\ create_movie_equally_spaced g 0 None min_fps speed = Ok (fps, shown) /\ shown <> [] /\
    forall r t, In (r, t) shown -> (r < rows_of m k (steps_of c))%nat /\ t < f_t (fr r) /\ row_shows rnd dsf ys xs g r (fr r).
Proof. intros b p ny nx ys xs k0 dsf c rnd y0 phi0 fs m min_fps speed RF sim k fr. exact (run_movie_late b p ny nx ys xs k0 dsf c rnd y0 phi0 fs m RF min_fps speed). Qed.
(** recorded less than was skipped: no movie *)
Theorem C89_movie_none : forall b p ny nx ys xs k0 dsf (c : cfg (arr R) R) rnd y0 phi0 fs m (min_fps : Z) speed, records_from b p ny nx ys xs k0 dsf c fs m ->
  let sim := run (hw_sim b rnd ny nx ys xs) c (plasma0 (grid ny nx (fst y0)) (grid ny nx (snd y0)) (grid ny nx phi0)) in
  (0 < rows_of m (Z.to_nat (c_snaps c)) (steps_of c) < m)%nat -> (0 < min_fps)%Z ->
  exists g, disk_of sim fs = Some g /\ create_movie_equally_spaced g 0 None min_fps speed = Exn IndexError.
Proof. intros b p ny nx ys xs k0 dsf c rnd y0 phi0 fs m min_fps speed RF sim. exact (run_movie_far b p ny nx ys xs k0 dsf c rnd y0 phi0 fs m RF min_fps speed). Qed.
(** time traces: the properties of every recorded frame, drawn at its time
    less the recording start *)
Theorem C89_traces : forall b p ny nx ys xs k0 dsf (c : cfg (arr R) R) rnd y0 phi0 fs m latex props t0_std y_cutoff s, records_from b p ny nx ys xs k0 dsf c fs m ->
  let sim := run (hw_sim b rnd ny nx ys xs) c (plasma0 (grid ny nx (fst y0)) (grid ny nx (snd y0)) (grid ny nx phi0)) in
  let k := Z.to_nat (c_snaps c) in
  let N := rows_of m k (steps_of c) in
  let fr r := hw_frame p ny nx (c_dx c) (c_step c) y0 phi0 (iteration m k r) in
  let dt := c_step c * IZR (c_snaps c) in
  props <> [] -> incl props (c_props c) -> (0 < N)%nat -> INR s * dt <= t0_std - INR m * dt < (INR s + 1) * dt ->
  exists g curves cut, disk_of sim fs = Some g /\ plot_timetraces g latex props 0 t0_std y_cutoff = Ok (Figure curves cut) /\
    List.length curves = List.length props /\
    forall i q cv, nth_error props i = Some q -> nth_error curves i = Some cv ->
      List.length (cv_x cv) = N /\ List.length (cv_y cv) = N /\
      forall r, (r < N)%nat -> nth r (cv_x cv) 0 = f_t (fr r) - c_rec c /\
        nth r (cv_y cv) 0 = rnd (prop_value q ys xs (domain_dx k0 xs) (pc1 p)
          (fun i j => rnd (dsf (f_n (fr r)) i j)) (fun i j => rnd (dsf (f_p (fr r)) i j)) (fun i j => rnd (dsf (f_o (fr r)) i j))).
Proof. intros b p ny nx ys xs k0 dsf c rnd y0 phi0 fs m latex props t0_std y_cutoff s RF sim k N fr dt. exact (run_traces b p ny nx ys xs k0 dsf c rnd y0 phi0 fs m RF latex props t0_std y_cutoff s). Qed.
Print Assumptions C89_image.
Print Assumptions C89_movie.
Print Assumptions C89_movie_late.
Print Assumptions C89_movie_none.
Print Assumptions C89_traces.
(** two steps on a 2 x 2 grid, three rows *)
Example C89_example : records_from np_backend (pc false) 2 2 2 2 1 idf wit1 None 0 /\ rows_of 0 1 2 = 3%nat /\ c_props wit1 <> [].
Proof.
  split; [|split; [reflexivity|discriminate]]. split; [apply wit_setup|reflexivity|reflexivity|now left|cbn; lra|]. cbn. lra.
Qed.
(** recorded from the first and from the second step on *)
Definition wit_late (m : nat) : cfg (arr R) R :=
  mkCfg 1 2 (c_phys wit1) (domain_dx 1 2) 1 2 2 2 2 true (INR m) true 1 1 None true false false wit_props.
Example C89_example_late : (forall m, records_from np_backend (pc false) 2 2 2 2 1 idf (wit_late m) None m) /\ steps_of (wit_late 1) = 2%nat /\
  (0 < 1 <= rows_of 1 1 2)%nat /\ (0 < rows_of 2 1 2 < 2)%nat.
Proof.
  split.
  - intros m. split; [|reflexivity|reflexivity|now left|cbn; lra|cbn [c_rec wit_late c_step c_snaps]; lra].
    destruct (wit_setup false (c_phys wit1) 2). split; assumption.
  - split; [|split; cbv; lia]. unfold steps_of. cbn [c_end c_step wit_late]. now rewrite trunc_2.
Qed.
