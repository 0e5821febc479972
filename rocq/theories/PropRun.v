(** Properties of the two drivers run.run and run2.run. *)
From Coq Require Import Arith ZArith Bool String List Lia Sorted QArith.
Import List.
From Verif Require Import Num NdArray ModelIO ModelRun SpecIO SpecRun IOFacts RunProps KeepFacts RunTimes RunMisc RunWit RunTop RunExamples RunTop2 RunForce.
Import ListNotations.
Local Close Scope Q_scope.
Local Open Scope nat_scope.
Local Open Scope string_scope.

(** ** C36 for whole runs: wherever a fresh or continued run is stopped, the
    file has all frames of the complete flushes *)
Theorem C36_fresh_run_stopped : forall (V T : Type) (TN : TimeNum T) (s : sim V T) (c : cfg V T)
  P pl0 phi traj steps n ds fs tbl,
  c_output c = true -> (fs = None \/ c_force c = true) -> 1 <= c_blen c -> (c_snaps c =? 0)%Z = false -> NoDup (keys (c_phys c)) ->
  downsampled c ds pl0 -> goes s c (c_phys c) (nofZ 0) pl0 phi traj steps n ds ->
  apart1 c -> props_fine s c P (save_params_of c (c_phys c) false) tbl ->
  let l := fresh_log c pl0 (time1 c) traj n in
  frames_P P (fun k => map (fun tp => frame_row s ds (fst tp) (snd tp) k) l) ->
  exists j0, (forall j, j < j0 -> crash_after (zero_like s) j (run s c pl0) fs = fs \/
          exists g, crash_after (zero_like s) j (run s c pl0) fs = Some g /\ forall k, In k field_keys -> dget (dsets g) k = None \/ dget (dsets g) k = Some (Rows []))
        /\ forall j, j0 <= j -> exists g a b, crash_after (zero_like s) j (run s c pl0) fs = Some g /\ (exists q, a = c_blen c * q)
            /\ a <= b /\ b <= a + c_blen c /\ b <= length l /\ torn_records s ds (fun _ => []) g l a b.
Proof. exact top_fresh_crash. Qed.
Print Assumptions C36_fresh_run_stopped.

Theorem C36_continued_run_stopped : forall (V T : Type) (TN : TimeNum T) (s : sim V T) (c : cfg V T)
  P pl0 f phys pl phi traj steps n ds old tbl,
  c_output c = true -> c_force c = false -> c_continue c = true ->
  1 <= c_blen c -> (c_snaps c =? 0)%Z = false ->
  continues s f phys pl ->
  (forall k, In k field_keys -> dget (dsets f) k = Some (Rows (old k))) ->
  (forall k k', In k field_keys -> In k' field_keys -> length (old k) = length (old k')) ->
  (add_last c = true -> forall k, In k state_keys -> exists v, dget (dsets f) k = Some (Whole v)) ->
  goes s c phys (p_age pl) pl phi traj steps n ds ->
  apart1 c -> props_fine s c P (attrs f) tbl ->
  let l := loop_log c (time1 c) traj n in
  frames_P P (fun k => (old k ++ map (fun tp => frame_row s ds (fst tp) (snd tp) k) l)%list) ->
  forall j, exists g a b, crash_after (zero_like s) j (run s c pl0) (Some f) = Some g /\ (exists q, a = c_blen c * q)
            /\ a <= b /\ b <= a + c_blen c /\ b <= length l /\ torn_records s ds old g l a b.
Proof. exact top_continued_crash. Qed.
Print Assumptions C36_continued_run_stopped.

(** ** C37: the state in a finished file belongs to an earlier time than the
    last frame when the last flush was partial *)
Theorem C37_state_lags_refuted : exists f ld phys, qrun (qcfg 2 2 1 false true []) None = Some f /\
  get (Some f) "density" = vals [5; 6; 7]%Z /\ get (Some f) "time" = times [0; 1; 2]%Q /\
  continue_h5_file (Some f) = Ok (ld, phys) /\ l_age ld = 2%Q /\ l_density ld = 6%Z.
Proof. exact w37. Qed.
Print Assumptions C37_state_lags_refuted.
(** what a continued run starts from: the stored state if there is one, else
    the last frame; the age is the last recorded time *)
Theorem C37_continue_reads : forall (V T : Type) (f : h5 V T) ld phys, continue_h5_file (Some f) = Ok (ld, phys) ->
  (exists l, dget (dsets f) "time" = Some (Rows (l ++ [RNum (l_age ld)]))) /\
  forall k v, In (k, v) [("density", l_density ld); ("omega", l_omega ld); ("phi", l_phi ld)] ->
  dget (dsets f) ("state_" ++ k) = Some (Whole v) \/
  (dget (dsets f) ("state_" ++ k) = None /\ exists l, dget (dsets f) k = Some (Rows (l ++ [RFrame v]))).
Proof. exact top_continue_reads. Qed.
Print Assumptions C37_continue_reads.

(** ** C38: times of continued runs *)
Theorem C38_run2_times_continue : forall (V T : Type) (TN : TimeNum T) (s : sim V T) (c : cfg V T)
  P pl0 f phys pl phi traj n ds pv fuel old tbl q,
  c_output c = true -> c_force c = false -> c_continue c = true -> 1 <= c_blen c -> (1 <= c_snaps c)%Z ->
  NoDup (c_props c) -> t_int (ndiv (c_end c) (c_step c)) = Ok q ->
  (forall j, 1 <= j <= n -> nleb (c_rec c) (time2 c (p_age pl) j) = true) -> nltb (c_rec c) (time2 c (p_age pl) n) = true ->
  continues s f phys pl ->
  (forall k, In k (ks2 c) -> dget (dsets f) k = Some (Rows (old k))) ->
  (forall k k', In k field_keys -> In k' field_keys -> length (old k) = length (old k')) ->
  (add_last c = true -> forall k, In k state_keys -> exists v, dget (dsets f) k = Some (Whole v)) ->
  props_apart c -> props_fine s c P (attrs f) tbl ->
  goes2 s c phys (p_age pl) pl phi traj n ds pv -> n < fuel ->
  frames_P P (fun k => (old k ++ map (fun tp => frame_row s ds (fst tp) (snd tp) k) (loop_log c (time2 c (p_age pl)) traj n))%list) ->
  let k := Z.to_nat (c_snaps c) in
  get (disk_of (run2 s c fuel pl0) (Some f)) "time"
  = Some (Rows (old "time" ++ map (fun i => RNum (s_f32T s (time2 c (p_age pl) (i * k)))) (seq 1 (n / k)))).
Proof. exact top_run2_times. Qed.
Print Assumptions C38_run2_times_continue.
(** in exact arithmetic these times are age + i * snaps * step, and increase *)
Theorem C38_run2_times_exact : forall (V : Type) (c : cfg V Q) t0 j,
  (@time2 V Q TimeQ c t0 j == t0 + inject_Z (Z.of_nat j) * c_step c)%Q.
Proof. exact @time2_exact. Qed.
Theorem C38_run2_times_increase : forall (V : Type) (c : cfg V Q) t0 i j, (0 < c_step c)%Q -> i < j ->
  (@time2 V Q TimeQ c t0 i < @time2 V Q TimeQ c t0 j)%Q.
Proof. exact @run2_increasing. Qed.
Print Assumptions C38_run2_times_exact.
Print Assumptions C38_run2_times_increase.
(** run restarts the clock *)
Theorem C38_run_restarts_clock : forall (V T : Type) (TN : TimeNum T) (s : sim V T) (c : cfg V T)
  P pl0 f phys pl phi traj steps n ds old tbl,
  c_output c = true -> c_force c = false -> c_continue c = true ->
  1 <= c_blen c -> (1 <= c_snaps c)%Z -> (forall j, 1 <= j <= n -> nleb (c_rec c) (time1 c j) = true) ->
  continues s f phys pl ->
  (forall k, In k field_keys -> dget (dsets f) k = Some (Rows (old k))) ->
  (forall k k', In k field_keys -> In k' field_keys -> length (old k) = length (old k')) ->
  (add_last c = true -> forall k, In k state_keys -> exists v, dget (dsets f) k = Some (Whole v)) ->
  goes s c phys (p_age pl) pl phi traj steps n ds ->
  apart1 c -> props_fine s c P (attrs f) tbl ->
  frames_P P (fun k => (old k ++ map (fun tp => frame_row s ds (fst tp) (snd tp) k) (loop_log c (time1 c) traj n))%list) ->
  let k := Z.to_nat (c_snaps c) in
  get (disk_of (run s c pl0) (Some f)) "time"
  = Some (Rows (old "time" ++ map (fun i => RNum (s_f32T s (time1 c (i * k)))) (seq 1 (n / k)))).
Proof. exact top_run_restarts. Qed.
Print Assumptions C38_run_restarts_clock.
Theorem C38_run_times_refuted :
  get (qrun (qcfg 6 2 1 true true []) (qrun (qcfg 3 2 1 false true []) None)) "time" = times [0; 1; 2; 3; 1; 2; 3]%Q
  /\ get (qrun (qcfg 6 2 1 true true []) (qrun (qcfg 3 2 1 false true []) None)) "density" = vals [5; 6; 7; 8; 9; 10; 11]%Z.
Proof. exact w38. Qed.
Print Assumptions C38_run_times_refuted.
Theorem C38_run_continued_twice_refuted :
  get (qrun (qcfg 9 2 1 true true []) (qrun (qcfg 6 2 1 true true []) (qrun (qcfg 3 2 1 false true []) None))) "time"
    = times [0; 1; 2; 3; 1; 2; 3; 1; 2; 3; 4; 5; 6]%Q.
Proof. exact w38b. Qed.
Print Assumptions C38_run_continued_twice_refuted.
Example C38_run2_example : get (qrun2 50 (qcfg 6 2 1 true true []) (qrun2 50 (qcfg 3 2 1 false true []) None)) "time" = times [0; 1; 2; 3; 4; 5; 6]%Q.
Proof. exact w38_run2. Qed.

(** ** C39: the file of a fresh run *)
Theorem C39_fresh_file : forall (V T : Type) (TN : TimeNum T) (s : sim V T) (c : cfg V T)
  P pl0 phi traj steps n ds fs tbl,
  c_output c = true -> (fs = None \/ c_force c = true) -> 1 <= c_blen c -> (c_snaps c =? 0)%Z = false -> NoDup (keys (c_phys c)) ->
  downsampled c ds pl0 -> goes s c (c_phys c) (nofZ 0) pl0 phi traj steps n ds ->
  apart1 c -> props_fine s c P (save_params_of c (c_phys c) false) tbl ->
  let l := fresh_log c pl0 (time1 c) traj n in
  frames_P P (fun k => map (fun tp => frame_row s ds (fst tp) (snd tp) k) l) ->
  exists g, result_of (run s c pl0) fs = Ok tt /\ disk_of (run s c pl0) fs = Some g
   /\ records s ds (fun _ => []) g l
   /\ attrs g = save_params_of c (c_phys c) false
   /\ (forall k, In k (c_props c) -> dget (dsets g) k = Some (Rows (prop_rows (zero_like s) (s_f32V s) (s_f32T s) tbl
           (map (fun tp => frame_row s ds (fst tp) (snd tp) "density") l) (map (fun tp => frame_row s ds (fst tp) (snd tp) "phi") l) (map (fun tp => frame_row s ds (fst tp) (snd tp) "omega") l) k))).
Proof. exact top_fresh. Qed.
Print Assumptions C39_fresh_file.
(** which entries these are: with recording from the start, the initial frame
    and every snaps-th step *)
Theorem C39_recorded_entries : forall (V T : Type) (TN : TimeNum T) (c : cfg V T) pl0 time traj n,
  (1 <= c_snaps c)%Z -> truthy (c_rec c) = false -> (forall j, 1 <= j <= n -> nleb (c_rec c) (time j) = true) ->
  let k := Z.to_nat (c_snaps c) in
  fresh_log c pl0 time traj n = (nofZ 0, pl0) :: map (fun i => (time (i * k), traj (i * k))) (seq 1 (n / k)).
Proof. exact @fresh_log_all. Qed.
Print Assumptions C39_recorded_entries.
Theorem C39_number_of_frames : forall (V T : Type) (TN : TimeNum T) (c : cfg V T) pl0 time traj n,
  (1 <= c_snaps c)%Z -> truthy (c_rec c) = false -> (forall j, 1 <= j <= n -> nleb (c_rec c) (time j) = true) ->
  length (fresh_log c pl0 time traj n) = 1 + n / Z.to_nat (c_snaps c).
Proof. exact top_count. Qed.
Print Assumptions C39_number_of_frames.
(** in general exactly the snapshots at or after recording_start_time, in order *)
Theorem C39_recording_start : forall (V T : Type) (TN : TimeNum T) (c : cfg V T) time n, (1 <= c_snaps c)%Z ->
  (forall j, In j (frames c time n) <-> 1 <= j <= n /\ nleb (c_rec c) (time j) = true /\ exists i, j = i * Z.to_nat (c_snaps c))
  /\ StronglySorted lt (frames c time n).
Proof. exact top_frames. Qed.
Print Assumptions C39_recording_start.
Theorem C39_times_exact : forall (V : Type) (c : cfg V Q) j, (@time1 V Q TimeQ c j == inject_Z (Z.of_nat j) * c_step c)%Q.
Proof. exact @time1_exact. Qed.
Print Assumptions C39_times_exact.
Example C39_hypotheses_met : forall n,
  let c := qcfg (inject_Z (Z.of_nat n)) 2 2 false true ["gamma_n"] in
  c_output c = true /\ 1 <= c_blen c /\ (c_snaps c =? 0)%Z = false /\ NoDup (keys (c_phys c)) /\
  @downsampled Z Q c (fun v => v) (@toy_init Q TimeQ) /\
  @goes Z Q TimeQ tq c (c_phys c) (@nofZ Q NumQ 0) (@toy_init Q TimeQ) 14%Z toy_traj (Z.of_nat n) n (fun v => v) /\
  apart1 c /\ @props_fine Z Q tq c (fun _ => True) (@save_params_of Z Q TimeQ c (c_phys c) false) [("gamma_n", toy_value TimeQ)] /\
  frames_P (fun _ => True) (fun k => map (fun tp => frame_row tq (fun v => v) (fst tp) (snd tp) k) (@fresh_log Z Q TimeQ c (@toy_init Q TimeQ) (@time1 Z Q TimeQ c) toy_traj n)).
Proof. exact toy_example_fresh. Qed.
Example C39_example : qrun (qcfg 5 2 2 false true ["gamma_n"]) None =
  Some (mkH5 [("density", Rows [RFrame 5; RFrame 7; RFrame 9]%Z); ("omega", Rows [RFrame 7; RFrame 11; RFrame 15]%Z);
       ("phi", Rows [RFrame 1; RFrame 22; RFrame 30]%Z); ("time", Rows [RNum 0; RNum 2; RNum 4]%Q);
       ("state_density", Whole 7%Z); ("state_phi", Whole 22%Z); ("state_omega", Whole 11%Z);
       ("gamma_n", Rows [RNum 5; RNum 154; RNum 270]%Q)]
      ((toy_phys 1%Q ++ [("dt", AT 1%Q); ("frame_dt", AT 2%Q); ("x", AZ 4); ("y", AZ 4); ("x_save", AZ 4); ("y_save", AZ 4);
       ("grid_pts", AZ 4); ("initial_time", AT 0%Q); ("adaptive_step_size", AB false)])%list)).
Proof. exact toy_example_file. Qed.

(** ** C41: an existing file *)
Theorem C41_left_alone : forall (V T : Type) (TN : TimeNum T) (s : sim V T) (c : cfg V T) pl0 f,
  c_output c = true -> c_force c = false -> c_continue c = false ->
  run s c pl0 (Some f) = (([], Some f), Ok tt).
Proof. exact @run_left_alone. Qed.
Theorem C41_left_alone_run2 : forall (V T : Type) (TN : TimeNum T) (s : sim V T) (c : cfg V T) fuel pl0 f q,
  c_output c = true -> c_force c = false -> c_continue c = false ->
  t_int (ndiv (c_end c) (c_step c)) = Ok q -> (c_snaps c =? 0)%Z = false ->
  run2 s c fuel pl0 (Some f) = (([], Some f), Ok tt).
Proof. exact @run2_left_alone. Qed.
(** without force_recompute, whatever happens (error, crash at any point), the
    file keeps every recorded row as a prefix, and its attributes; only the
    datasets named as properties are recomputed *)
Theorem C41_rows_kept : forall (V T : Type) (TN : TimeNum T) (s : sim V T) (c : cfg V T) pl0 fs, c_force c = false ->
  (forall j, grown (fun k => ~ In k (c_props c)) fs (crash_after (zero_like s) j (run s c pl0) fs)) /\
  grown (fun k => ~ In k (c_props c)) fs (disk_of (run s c pl0) fs).
Proof. exact top_kept. Qed.
Theorem C41_rows_kept_run2 : forall (V T : Type) (TN : TimeNum T) (s : sim V T) (c : cfg V T) fuel pl0 fs, c_force c = false ->
  (forall j, grown (fun k => ~ In k (c_props c)) fs (crash_after (zero_like s) j (run2 s c fuel pl0) fs)) /\
  grown (fun k => ~ In k (c_props c)) fs (disk_of (run2 s c fuel pl0) fs).
Proof. exact top_kept2. Qed.
Print Assumptions C41_left_alone.
Print Assumptions C41_left_alone_run2.
Print Assumptions C41_rows_kept.
Print Assumptions C41_rows_kept_run2.

(** ** C42: a continued run takes its physics from the file *)
Theorem C42_arguments_ignored : forall (V T : Type) (TN : TimeNum T) (s : sim V T) (c : cfg V T) p pl0 pl0' f, c_force c = false ->
  run s (with_phys c p) pl0' (Some f) = run s c pl0 (Some f).
Proof. exact @run_file_physics. Qed.
Theorem C42_arguments_ignored_run2 : forall (V T : Type) (TN : TimeNum T) (s : sim V T) (c : cfg V T) fuel p pl0 pl0' f, c_force c = false ->
  run2 s (with_phys c p) fuel pl0' (Some f) = run2 s c fuel pl0 (Some f).
Proof. exact @run2_file_physics. Qed.
Theorem C42_same_physics : forall (V T : Type) (TN : TimeNum T) (c : cfg V T) (g : h5 V T) ld p phys ad,
  attrs g = save_params_of c phys ad -> continue_h5_file (Some g) = Ok (ld, p) ->
  keys p = physics_keys /\ forall k, In k physics_keys -> dget p k = dget phys k.
Proof. exact @fresh_physics. Qed.
Theorem C42_zonal_dropped_refuted : exists f ld phys,
  qrun2 50 (toy_cfg (toy_phys 1%Q ++ [("zonal", AB true)])%list 1%Q 1%Q 3%Q 0%Q 2 1 false true []) None = Some f /\
  dget (attrs f) "zonal" = Some (AB true) /\ continue_h5_file (Some f) = Ok (ld, phys) /\ dget phys "zonal" = None.
Proof. exact w42_zonal. Qed.
(** the steps use the grid spacing of the new call (7), not the stored one (1) *)
Theorem C42_spacing_refuted :
  get (qrun (toy_cfg (toy_phys 7%Q) 7%Q 1%Q 6%Q 0%Q 2 1 true true []) (qrun (qcfg 3 2 1 false true []) None)) "density"
  = vals [5; 6; 7; 8; 15; 22; 29]%Z.
Proof. exact w42_dx. Qed.
Print Assumptions C42_arguments_ignored.
Print Assumptions C42_arguments_ignored_run2.
Print Assumptions C42_same_physics.
Print Assumptions C42_zonal_dropped_refuted.
Print Assumptions C42_spacing_refuted.

(** ** C44: no output path *)
Theorem C44_run_raises : forall (V T : Type) (TN : TimeNum T) (s : sim V T) (c : cfg V T) pl0 fs, c_output c = false ->
  run s c pl0 fs = (([], fs), Exn UnboundLocalError).
Proof. exact @run_no_output. Qed.
Theorem C44_run2_raises : forall (V T : Type) (TN : TimeNum T) (s : sim V T) (c : cfg V T) fuel pl0 fs q, c_output c = false ->
  t_int (ndiv (c_end c) (c_step c)) = Ok q -> (c_snaps c =? 0)%Z = false ->
  run2 s c fuel pl0 fs = (([], fs), Exn UnboundLocalError).
Proof. exact @run2_no_output_exn. Qed.
Print Assumptions C44_run_raises.
Print Assumptions C44_run2_raises.

(** ** C45: number of steps *)
Theorem C45_run_steps : forall (V : Type) (c : cfg V Q) t0, (0 < c_step c)%Q -> (t0 <= c_end c)%Q ->
  exists n : nat, @t_int Q TimeQ (@ndiv Q NumQ (@nsub Q NumQ (c_end c) t0) (c_step c)) = Ok (Z.of_nat n)
   /\ (t0 + inject_Z (Z.of_nat n) * c_step c <= c_end c)%Q /\ (c_end c < t0 + inject_Z (Z.of_nat (S n)) * c_step c)%Q.
Proof. exact @steps_exact. Qed.
(** run makes exactly the computed number of steps unless a density is NaN *)
Theorem C45_run_makes_them : forall (V T : Type) (TN : TimeNum T) (s : sim V T) (c : cfg V T) phys t0 pl phi traj steps n ds,
  goes s c phys t0 pl phi traj steps n ds -> (forall j, s_nan s (p_density (traj j)) = false) -> n = Z.to_nat steps.
Proof. exact top_makes. Qed.
Theorem C45_run2_steps : forall (V : Type) (s : sim V Q) (c : cfg V Q) t0 traj n,
  @stops2 V Q TimeQ s c t0 traj n -> (forall j, s_nan s (p_density (traj j)) = false) ->
  (c_end c <= t0 + inject_Z (Z.of_nat n) * c_step c + (1 # 20000))%Q /\
  forall j, j < n -> (t0 + inject_Z (Z.of_nat j) * c_step c - (1 # 20000) < c_end c)%Q.
Proof. exact top_run2_steps. Qed.
(** in binary64: end_time = 0.3, step_size = 0.1 *)
Theorem C45_binary64_refuted : len (get (frun (fcfg endF)) "time") = Some 3 /\ len (get (frun2 20 (fcfg endF)) "time") = Some 4 /\
  SpecFloat.SFltb (ndiv (Num := NumF64) endF stepF) (f64_ofZ 3) = true.
Proof. exact w45. Qed.
Print Assumptions C45_run_steps.
Print Assumptions C45_run_makes_them.
Print Assumptions C45_run2_steps.
Print Assumptions C45_binary64_refuted.

(** ** C46: a failing step *)
Theorem C46_never_progresses : forall (V T : Type) (TN : TimeNum T) (s : sim V T) (c : cfg V T) phys fuel t0 it used cur pl bi fs e,
  nltb (t_round4 cur) (c_end c) = true -> s_step s phys pl (c_step c) (c_dx c) = Exn e -> e <> BaseException ->
  run2_loop s c phys fuel t0 it used cur pl bi fs = (([], fs), Exn OutOfFuel).
Proof. exact @run2_loop_stuck. Qed.
Theorem C46_run_raises : forall (V T : Type) (TN : TimeNum T) (s : sim V T) (c : cfg V T) phys k it pl bi fs e,
  s_step s phys pl (c_step c) (c_dx c) = Exn e ->
  run_loop s c phys (S k) it pl bi fs = (([], fs), Exn e).
Proof. exact @run_loop_raises. Qed.
Theorem C46_error_hidden_refuted :
  result_of (@run2 Z Q TimeQ bad_sim (qcfg 5 2 1 false false []) 40 (@toy_init Q TimeQ)) None = Exn OutOfFuel
  /\ result_of (@run Z Q TimeQ bad_sim (qcfg 5 2 1 false false []) (@toy_init Q TimeQ)) None = Exn ValueError.
Proof. exact w46. Qed.
Print Assumptions C46_never_progresses.
Print Assumptions C46_run_raises.
Print Assumptions C46_error_hidden_refuted.

(** ** C62: continuing a file with the other driver *)
Theorem C62_run2_after_run_refuted : exists d, d = qrun (qcfg 3 2 1 false true ["gamma_n"]) None /\
  qres (qcfg 3 2 1 false true ["gamma_n"]) None = Ok tt /\
  qres2 50 (qcfg 6 2 1 true true ["gamma_n"]) d = Exn KeyError /\
  get (qrun2 50 (qcfg 6 2 1 true true ["gamma_n"]) d) "time" = times [0; 1; 2; 3; 4; 5]%Q /\
  get (qrun2 50 (qcfg 6 2 1 true true ["gamma_n"]) d) "gamma_n" = get d "gamma_n".
Proof. exact w62. Qed.
Theorem C62_run_after_run2_refuted : exists d, d = qrun (qcfg 6 2 1 true true ["gamma_n"]) (qrun2 50 (qcfg 3 2 1 false true ["gamma_n"]) None) /\
  len (get d "density") = Some 7 /\ len (get d "fullres_gamma_n") = Some 4.
Proof. exact w62_back. Qed.
Print Assumptions C62_run2_after_run_refuted.
Print Assumptions C62_run_after_run2_refuted.

(** ** C63: the value in the progress bar of run2 *)
Theorem C63_progress_always_zero : forall (V T : Type) (TN : TimeNum T) (s : sim V T) (c : cfg V T) pl t nv show,
  new_val_of_2 s c pl t = Ok nv -> ~ In show field_keys ->
  (forall p, In p (c_props c) -> show <> "fullres_" ++ p) -> progress_value nv show = Some (nofZ 0).
Proof. exact top_progress. Qed.
Print Assumptions C63_progress_always_zero.
Example C63_example : exists nv, @new_val_of_2 Z Q tq (qcfg 3 2 1 false true ["gamma_n"]) (@toy_init Q TimeQ) 0%Q = Ok nv /\
  dget nv "fullres_gamma_n" = Some (RNum 5%Q) /\ @progress_value Z Q TimeQ nv "gamma_n" = Some 0%Q.
Proof. exact top_progress_ex. Qed.

(** ** C64: frames still in the buffer when the final time is not after
    recording_start_time are dropped by run2 *)
Theorem C64_run2_drops_buffer : forall (V T : Type) (TN : TimeNum T) (s : sim V T) (c : cfg V T)
  P pl0 phi traj n ds pv fuel fs tbl q,
  c_output c = true -> (fs = None \/ c_force c = true) -> 1 <= c_blen c -> (c_snaps c =? 0)%Z = false -> NoDup (c_props c) ->
  t_int (ndiv (c_end c) (c_step c)) = Ok q ->
  NoDup (keys (c_phys c)) -> downsampled c ds pl0 -> has_props s c pv pl0 ->
  props_apart c -> props_fine s c P (save_params_of c (c_phys c) (c_adaptive c)) tbl ->
  goes2 s c (c_phys c) (nofZ 0) pl0 phi traj n ds pv -> n < fuel ->
  let l := fresh_log c pl0 (time2 c (nofZ 0)) traj n in
  let B := c_blen c in
  let m := if nltb (c_rec c) (time2 c (nofZ 0) n) then length l else B * (length l / B) in
  frames_P P (fun k => map (fun tp => frame_row s ds (fst tp) (snd tp) k) (firstn m l)) ->
  exists g, result_of (run2 s c fuel pl0) fs = Ok tt /\ disk_of (run2 s c fuel pl0) fs = Some g
    /\ records2 s c ds pv (fun _ => []) g (firstn m l) /\ attrs g = save_params_of c (c_phys c) (c_adaptive c)
    /\ (add_last c = true -> holds_state (fun _ => Some (Whole (s_zeroV s))) g l (B * (length l / B)))
    /\ (forall k, In k (c_props c) -> dget (dsets g) k = Some (Rows (prop_rows (zero_like s) (s_f32V s) (s_f32T s) tbl
           (map (fun tp => frame_row s ds (fst tp) (snd tp) "density") (firstn m l))
           (map (fun tp => frame_row s ds (fst tp) (snd tp) "phi") (firstn m l))
           (map (fun tp => frame_row s ds (fst tp) (snd tp) "omega") (firstn m l)) k))).
Proof. exact top_run2_fresh. Qed.
Theorem C64_initial_frame_lost_refuted :
  qres2 50 (qcfg 0 2 1 false true []) None = Ok tt /\ get (qrun2 50 (qcfg 0 2 1 false true []) None) "time" = times []
  /\ get (qrun (qcfg 0 2 1 false true []) None) "time" = times [0%Q].
Proof. exact w64. Qed.
Print Assumptions C64_run2_drops_buffer.
Print Assumptions C64_initial_frame_lost_refuted.

(** ** C65: adaptive_step_size changes nothing but rounding *)
Theorem C65_adaptive_same_times : forall (V : Type) (c c' : cfg V Q) t0 j, c_step c' = c_step c ->
  (@time2 V Q TimeQ c' t0 j == @time2 V Q TimeQ c t0 j)%Q.
Proof. exact @adaptive_same. Qed.
Print Assumptions C65_adaptive_same_times.

(** ** C66: continuing after a crash inside a flush *)
Theorem C66_state_and_age_disagree_refuted : exists j f ld phys,
  crash_after (@zero_like Z Q TimeQ tq) j (@run Z Q TimeQ tq (qcfg 3 2 1 false true []) (@toy_init Q TimeQ)) None = Some f /\
  continue_h5_file (Some f) = Ok (ld, phys) /\ l_age ld = 3%Q /\ l_density ld = 6%Z.
Proof. exact w66. Qed.
Theorem C66_datasets_out_of_step_refuted : exists j d,
  crash_after (@zero_like Z Q TimeQ tq) j (@run Z Q TimeQ tq (qcfg 3 2 1 false true []) (@toy_init Q TimeQ)) None = d /\
  qres (qcfg 6 2 1 true true []) d = Ok tt /\
  len (get (qrun (qcfg 6 2 1 true true []) d) "density") = Some 9 /\ len (get (qrun (qcfg 6 2 1 true true []) d) "time") = Some 7.
Proof. exact w66_torn. Qed.
Print Assumptions C66_state_and_age_disagree_refuted.
Print Assumptions C66_datasets_out_of_step_refuted.

(** ** C67: asking for the state when continuing a file without one *)
Theorem C67_no_state_dataset_refuted : exists d, d = qrun (qcfg 3 2 1 false false []) None /\ qres (qcfg 3 2 1 false false []) None = Ok tt /\
  qres (qcfg 6 2 1 true true []) d = Exn KeyError /\ get (qrun (qcfg 6 2 1 true true []) d) "time" = times [0; 1; 2; 3; 1; 2]%Q.
Proof. exact w67. Qed.
Print Assumptions C67_no_state_dataset_refuted.

(** ** C70: with force_recompute (the default of run) continue_file is ignored
    and the existing file is destroyed *)
Theorem C70_force_wins : forall (V T : Type) (TN : TimeNum T) (s : sim V T) (c : cfg V T) pl0 f,
  c_output c = true -> c_force c = true -> run s c pl0 (Some f) = run s c pl0 None.
Proof. exact @run_forced. Qed.
Theorem C70_force_wins_run2 : forall (V T : Type) (TN : TimeNum T) (s : sim V T) (c : cfg V T) fuel pl0 f q,
  c_output c = true -> t_int (ndiv (c_end c) (c_step c)) = Ok q -> (c_snaps c =? 0)%Z = false -> c_force c = true ->
  run2 s c fuel pl0 (Some f) = run2 s c fuel pl0 None.
Proof. exact @run2_forced. Qed.
Theorem C70_continue_ignored_refuted : exists d, d = qrun (qcfg 6 2 1 false true []) None /\ len (get d "time") = Some 7%nat /\
  qres (forced (qcfg 2 2 1 true true [])) d = Ok tt /\ len (get (qrun (forced (qcfg 2 2 1 true true [])) d) "time") = Some 3%nat.
Proof. exact forced_witness. Qed.
Print Assumptions C70_force_wins.
Print Assumptions C70_force_wins_run2.
Print Assumptions C70_continue_ignored_refuted.
