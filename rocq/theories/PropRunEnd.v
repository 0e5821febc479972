(** C107: the drivers to their end: movie, properties and plot. *)
From Coq Require Import Arith ZArith QArith Bool Reals String List Lia Lra.
Import List.
From Verif Require Import Num NdArray Spec SpecFourier SpecHW SpecPlasma SpecDiag
  ModelHW ModelBackend ModelIO ModelRun ModelRunHW SpecIO SpecRun SpecRunHW ModelPlot SpecPlot SpecAttr
  RunForce RunTop RunTop2 RunPlot RunWit RunHWWit ModelRunEnd SpecRunEnd RunEnd PropRunPlot.
Import ListNotations.
Local Close Scope Q_scope.
Local Open Scope nat_scope.
Local Open Scope string_scope.
Local Open Scope R_scope.
#[local] Existing Instance TimeR.

(** ** Movie and plot never write to the file: what is done to it is what the
    driver without them does, or a beginning of it *)
Theorem C107_run_trace : forall (V : Type) (s : sim V R) c e latex pl0 fs,
  is_prefix (trace_of (run_all s c e latex pl0) fs) (trace_of (run s c pl0) fs).
Proof. exact @all_prefix. Qed.
Theorem C107_run2_trace : forall (V : Type) (s : sim V R) c e latex fuel pl0 fs,
  is_prefix (trace_of (run2_all s c e latex fuel pl0) fs) (trace_of (run2 s c fuel pl0) fs).
Proof. exact @all2_prefix. Qed.
(** so a crash leaves a file that a crash of the driver without them could leave *)
Theorem C107_run_crash : forall (V : Type) (s : sim V R) c e latex pl0 fs j, exists j',
  crash_after (zero_like s) j (run_all s c e latex pl0) fs = crash_after (zero_like s) j' (run s c pl0) fs.
Proof. intros V s c e latex pl0 fs j. apply crash_prefix, all_prefix. Qed.
Theorem C107_run2_crash : forall (V : Type) (s : sim V R) c e latex fuel pl0 fs j, exists j',
  crash_after (zero_like s) j (run2_all s c e latex fuel pl0) fs = crash_after (zero_like s) j' (run2 s c fuel pl0) fs.
Proof. intros V s c e latex fuel pl0 fs j. apply crash_prefix, all2_prefix. Qed.
(** with neither asked for it is the driver itself *)
Theorem C107_plain : forall (V : Type) (s : sim V R) c e latex pl0 fs, e_movie e = false -> e_plots e = [] ->
  disk_of (run_all s c e latex pl0) fs = disk_of (run s c pl0) fs /\
  result_of (run_all s c e latex pl0) fs = (let* _ := result_of (run s c pl0) fs in Ok (None, None)).
Proof. exact @all_plain. Qed.
(** the movie is made of the file without properties.  It fails: no property is
    computed and its exception ends the run.  It does not: the file is the one
    with the properties, and the plot is made of it *)
Theorem C107_order : forall (V : Type) (s : sim V R) c e latex pl0 fs g, starts c fs ->
  result_of (run s (no_props c) pl0) fs = Ok tt -> disk_of (run s (no_props c) pl0) fs = Some g ->
  let A := run_all s c e latex pl0 in let B := run s c pl0 in
  match movie_of e (Some g) with
  | Exn x => disk_of A fs = Some g /\ result_of A fs = Exn x
  | Ok m => disk_of A fs = disk_of B fs /\
      result_of A fs = (let* _ := result_of B fs in let* p := plot_of e latex (disk_of B fs) in Ok (m, p))
  end.
Proof. exact @all_run. Qed.

(** ** The Hasegawa-Wakatani run *)

(** recorded from the start: the run ends, every picture shows the state of its title *)
Theorem C107_from_start : forall b p ny nx ys xs k0 dsf (c : cfg (arr R) R) rnd y0 phi0 fs e latex, records_from b p ny nx ys xs k0 dsf c fs 0 ->
  let S := hw_sim b rnd ny nx ys xs in
  let pl0 := plasma0 (grid ny nx (fst y0)) (grid ny nx (snd y0)) (grid ny nx phi0) in
  let A := run_all S c e latex pl0 in
  let k := Z.to_nat (c_snaps c) in
  let fr r := hw_frame p ny nx (c_dx c) (c_step c) y0 phi0 (iteration 0 k r) in
  e_movie e = true -> (0 < e_fps e)%Z -> incl (e_plots e) (c_props c) ->
  exists g fps shown fig, disk_of A fs = Some g /\ disk_of (run S c pl0) fs = Some g /\ result_of A fs = Ok (Some (fps, shown), fig) /\ shown <> [] /\
    (forall r t, In (r, t) shown -> (r < rows_of 0 k (steps_of c))%nat /\ t = f_t (fr r) /\ row_shows rnd dsf ys xs g r (fr r)) /\ fig_of e latex g fig.
Proof. intros b p ny nx ys xs k0 dsf c rnd y0 phi0 fs e latex RF. exact (end_from_start b p ny nx ys xs k0 dsf c rnd y0 phi0 fs 0 RF e latex eq_refl). Qed.
(** recorded from later on, at most as much skipped as recorded: it ends, with
    every title earlier than the state shown *)
Theorem C107_late : forall b p ny nx ys xs k0 dsf (c : cfg (arr R) R) rnd y0 phi0 fs m e latex, records_from b p ny nx ys xs k0 dsf c fs m ->
  let S := hw_sim b rnd ny nx ys xs in
  let pl0 := plasma0 (grid ny nx (fst y0)) (grid ny nx (snd y0)) (grid ny nx phi0) in
  let A := run_all S c e latex pl0 in
  let k := Z.to_nat (c_snaps c) in
  let N := rows_of m k (steps_of c) in
  let fr r := hw_frame p ny nx (c_dx c) (c_step c) y0 phi0 (iteration m k r) in
  (0 < m <= N)%nat -> e_movie e = true -> (0 < e_fps e)%Z -> incl (e_plots e) (c_props c) -> c_rec c <= 300 ->
  exists g fps shown fig, disk_of A fs = Some g /\ disk_of (run S c pl0) fs = Some g /\ result_of A fs = Ok (Some (fps, shown), fig) /\ shown <> [] /\
    (forall r t, In (r, t) shown -> (r < N)%nat /\ t < f_t (fr r) /\ row_shows rnd dsf ys xs g r (fr r)) /\ fig_of e latex g fig.
Proof. intros b p ny nx ys xs k0 dsf c rnd y0 phi0 fs m e latex RF. exact (end_late b p ny nx ys xs k0 dsf c rnd y0 phi0 fs m RF e latex). Qed.
(** more skipped than recorded: after the whole simulation the movie raises
    IndexError; the frames are in the file, none of the properties is *)
Theorem C107_far_refuted : forall b p ny nx ys xs k0 dsf (c : cfg (arr R) R) rnd y0 phi0 fs m e latex, records_from b p ny nx ys xs k0 dsf c fs m ->
  let A := run_all (hw_sim b rnd ny nx ys xs) c e latex (plasma0 (grid ny nx (fst y0)) (grid ny nx (snd y0)) (grid ny nx phi0)) in
  let k := Z.to_nat (c_snaps c) in
  let N := rows_of m k (steps_of c) in
  let fr r := hw_frame p ny nx (c_dx c) (c_step c) y0 phi0 (iteration m k r) in
  (0 < N < m)%nat -> e_movie e = true -> (0 < e_fps e)%Z ->
  result_of A fs = Exn IndexError /\
  exists g, disk_of A fs = Some g /\ file_frames rnd dsf ys xs (map fr (seq 0 N)) g /\ forall q, In q (c_props c) -> dget (dsets g) q = None.
Proof. intros b p ny nx ys xs k0 dsf c rnd y0 phi0 fs m e latex RF. exact (end_far b p ny nx ys xs k0 dsf c rnd y0 phi0 fs m RF e latex). Qed.

(** ** Which movie: by the attribute the drivers store; without it there is none *)
Theorem C107_dispatch : forall (V : Type) (f : h5 V R) t0 t1 fps speed,
  (dget (attrs f) "adaptive_step_size" = None -> create_movie f t0 t1 fps speed = Exn KeyError) /\
  (dget (attrs f) "adaptive_step_size" = Some (AB false) -> create_movie f t0 t1 fps speed = create_movie_equally_spaced f t0 t1 fps speed) /\
  (dget (attrs f) "adaptive_step_size" = Some (AB true) -> create_movie f t0 t1 fps speed = create_movie_unequal_spaced_fine f t0 t1 (IZR fps) speed).
Proof. intros V f t0 t1 fps speed. repeat split; intros E; unfold create_movie, dlook; rewrite E; reflexivity. Qed.
(** "writer not available" is printed exactly when it is available *)
Theorem C107_writer_refuted : forall available, writer_warning available = true <-> In "ffmpeg" available.
Proof.
  intros l. unfold writer_warning. rewrite existsb_exists. split.
  - intros (x & I & E). apply String.eqb_eq in E. now subst.
  - intros I. exists "ffmpeg". split; [exact I|]. apply String.eqb_refl.
Qed.
Print Assumptions C107_run_trace.
Print Assumptions C107_run2_trace.
Print Assumptions C107_run_crash.
Print Assumptions C107_run2_crash.
Print Assumptions C107_plain.
Print Assumptions C107_order.
Print Assumptions C107_from_start.
Print Assumptions C107_late.
Print Assumptions C107_far_refuted.
Print Assumptions C107_dispatch.
Print Assumptions C107_writer_refuted.

(** two steps on a 2 x 2 grid, recorded from the start, from the first and from
    the second step on, with two plots *)
Example C107_example : let e := mkEnding true 10 5 ["gamma_n"; "energy"] 300 in
  records_from np_backend (pc false) 2 2 2 2 1 idf wit1 None 0 /\
  (forall m, records_from np_backend (pc false) 2 2 2 2 1 idf (wit_late m) None m) /\
  (0 < 1 <= rows_of 1 1 2)%nat /\ c_rec (wit_late 1) <= 300 /\ (0 < rows_of 2 1 2 < 2)%nat /\
  incl (e_plots e) (c_props wit1) /\ incl (e_plots e) (c_props (wit_late 1)) /\ starts wit1 None.
Proof.
  cbv zeta. split; [apply C89_example|]. split; [apply C89_example_late|]. split; [cbv; lia|]. split; [cbn; lra|].
  split; [cbv; lia|]. split; [|split; [|now left]]; intros q Q; cbn in Q; cbn; intuition.
Qed.
