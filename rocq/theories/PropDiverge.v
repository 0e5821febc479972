(** C111: what a diverged simulation leaves behind. *)
From Coq Require Import Arith ZArith Bool String List Lia Floats.SpecFloat QArith.
From Verif Require Import Num NdArray ModelIO ModelRun ModelHW SpecIO SpecRun SpecCheck SpecDiverge DivergeFacts NanFacts RunWit RunExamples DivergeWit CheckFacts.
Import ListNotations.
Local Close Scope Q_scope.
Local Open Scope nat_scope.
Local Open Scope string_scope.

(** run stops with the step that diverges; its frame is recorded if it was due,
    all others are sound *)
Theorem C111_run : forall (V T : Type) (TN : TimeNum T) (s : sim V T) (c : cfg V T) P pl0 phi traj steps d ds fs tbl,
  c_output c = true -> (fs = None \/ c_force c = true) -> 1 <= c_blen c -> (c_snaps c =? 0)%Z = false -> NoDup (keys (c_phys c)) ->
  downsampled c ds pl0 ->
  (let* dx := dlook (c_phys c) "dx" in s_phi s (c_phys c) (p_omega pl0) dx) = Ok phi ->
  t_int (ndiv (nsub (c_end c) (nofZ 0)) (c_step c)) = Ok steps -> (Z.of_nat d <= steps)%Z ->
  evolves s c (c_phys c) (mkPlasma (p_density pl0) (p_omega pl0) phi (p_age pl0)) traj d ->
  (forall j, 1 <= j <= d -> downsampled c ds (traj j)) ->
  diverges_at s traj d ->
  apart1 c -> props_fine s c P (save_params_of c (c_phys c) false) tbl ->
  let l := fresh_log c pl0 (time1 c) traj d in
  frames_P P (fun k => map (fun tp => frame_row s ds (fst tp) (snd tp) k) l) ->
  exists g, result_of (run s c pl0) fs = Ok tt /\ disk_of (run s c pl0) fs = Some g
   /\ records s ds (fun _ => []) g l
   /\ (add_last c = true -> holds_state (fun _ => Some (Whole (s_zeroV s))) g l (c_blen c * (length l / c_blen c)))
   /\ (recorded c (time1 c) d = false -> sound s l)
   /\ (recorded c (time1 c) d = true -> exists l', l = (l' ++ [(time1 c d, traj d)])%list /\ sound s l').
Proof. exact run_diverged. Qed.
Print Assumptions C111_run.

(** run2 stops with the first recorded step after it: the last frame is NaN and
    the others are those recorded before the divergence *)
Theorem C111_run2 : forall (V T : Type) (TN : TimeNum T) (s : sim V T) (c : cfg V T) P pl0 phi traj d r ds pv fuel fs tbl q,
  c_output c = true -> (fs = None \/ c_force c = true) -> 1 <= c_blen c -> (c_snaps c =? 0)%Z = false ->
  t_int (ndiv (c_end c) (c_step c)) = Ok q ->
  NoDup (c_props c) -> NoDup (keys (c_phys c)) -> downsampled c ds pl0 -> has_props s c pv pl0 ->
  props_apart c -> props_fine s c P (save_params_of c (c_phys c) (c_adaptive c)) tbl ->
  (let* dx := dlook (c_phys c) "dx" in s_phi s (c_phys c) (p_omega pl0) dx) = Ok phi ->
  evolves s c (c_phys c) (mkPlasma (p_density pl0) (p_omega pl0) phi (p_age pl0)) traj r ->
  (forall j, 1 <= j <= r -> downsampled c ds (traj j) /\ has_props s c pv (traj j)) ->
  (forall j, j < r -> nltb (t_round4 (time2 c (nofZ 0) j)) (c_end c) = true) ->
  diverges_at s traj d -> stays_diverged s traj d r -> first_recorded c (time2 c (nofZ 0)) d r ->
  nltb (c_rec c) (time2 c (nofZ 0) r) = true -> r < fuel ->
  let l := fresh_log c pl0 (time2 c (nofZ 0)) traj r in
  frames_P P (fun k => map (fun tp => frame_row s ds (fst tp) (snd tp) k) l) ->
  exists g, result_of (run2 s c fuel pl0) fs = Ok tt /\ disk_of (run2 s c fuel pl0) fs = Some g
    /\ records2 s c ds pv (fun _ => []) g l
    /\ (add_last c = true -> holds_state (fun _ => Some (Whole (s_zeroV s))) g l (c_blen c * (length l / c_blen c)))
    /\ exists l', l = (l' ++ [(time2 c (nofZ 0) r, traj r)])%list /\ sound s l' /\ l' = fresh_log c pl0 (time2 c (nofZ 0)) traj (d - 1).
Proof. exact run2_diverged. Qed.
Print Assumptions C111_run2.
(** when no later step is recorded run2 goes on to the end and the file shows
    no NaN *)
Theorem C111_run2_unnoticed : forall (V T : Type) (TN : TimeNum T) (s : sim V T) (c : cfg V T) P pl0 phi traj d n ds pv fuel fs tbl q,
  c_output c = true -> (fs = None \/ c_force c = true) -> 1 <= c_blen c -> (c_snaps c =? 0)%Z = false ->
  t_int (ndiv (c_end c) (c_step c)) = Ok q ->
  NoDup (c_props c) -> NoDup (keys (c_phys c)) -> downsampled c ds pl0 -> has_props s c pv pl0 ->
  props_apart c -> props_fine s c P (save_params_of c (c_phys c) (c_adaptive c)) tbl ->
  (let* dx := dlook (c_phys c) "dx" in s_phi s (c_phys c) (p_omega pl0) dx) = Ok phi ->
  evolves s c (c_phys c) (mkPlasma (p_density pl0) (p_omega pl0) phi (p_age pl0)) traj n ->
  (forall j, 1 <= j <= n -> downsampled c ds (traj j) /\ has_props s c pv (traj j)) ->
  (forall j, j < n -> nltb (t_round4 (time2 c (nofZ 0) j)) (c_end c) = true) ->
  nltb (t_round4 (time2 c (nofZ 0) n)) (c_end c) = false ->
  diverges_at s traj d -> d <= n -> (forall j, d <= j <= n -> recorded c (time2 c (nofZ 0)) j = false) -> n < fuel ->
  let l := fresh_log c pl0 (time2 c (nofZ 0)) traj n in
  let m := if nltb (c_rec c) (time2 c (nofZ 0) n) then length l else c_blen c * (length l / c_blen c) in
  frames_P P (fun k => map (fun tp => frame_row s ds (fst tp) (snd tp) k) (firstn m l)) ->
  exists g, result_of (run2 s c fuel pl0) fs = Ok tt /\ disk_of (run2 s c fuel pl0) fs = Some g
    /\ records2 s c ds pv (fun _ => []) g (firstn m l)
    /\ l = fresh_log c pl0 (time2 c (nofZ 0)) traj (d - 1) /\ sound s l.
Proof. exact run2_unnoticed. Qed.
Print Assumptions C111_run2_unnoticed.

(** such a file is not continued if it has no state datasets, or if the NaN
    frame completed a flush *)
Theorem C111_refused : forall (V T : Type) (TN : TimeNum T) (s : sim V T) (c : cfg V T) pl0 ds g l t pl,
  keeps_nan s ds -> s_nan s (p_density pl) = true -> records s ds (fun _ => []) g (l ++ [(t, pl)])%list ->
  (dget (dsets g) "state_density" = None \/
   exists B, 1 <= B /\ B * (length (l ++ [(t, pl)])%list / B) = length (l ++ [(t, pl)])%list /\
     holds_state (fun _ => Some (Whole (s_zeroV s))) g (l ++ [(t, pl)])%list (B * (length (l ++ [(t, pl)])%list / B))) ->
  c_force c = false -> c_continue c = true ->
  (exists e, run s c pl0 (Some g) = (([], Some g), Exn e)) /\
  (forall fuel, exists e, run2 s c fuel pl0 (Some g) = (([], Some g), Exn e)).
Proof. exact refused. Qed.
Print Assumptions C111_refused.
(** otherwise it is continued: from the state before the divergence, with the
    time of the NaN frame *)
Theorem C111_refused_refuted :
  let d := disk_of (nan_run2 (qcfg 7 2 2 false true [])) None in
  get d "density" = vals [5; 7; 1000]%Z /\ get d "state_density" = Some (Whole 7%Z) /\
  result_of (nan_run2 (qcfg 9 2 2 true true [])) d = Ok tt /\
  get (disk_of (nan_run2 (qcfg 9 2 2 true true [])) d) "density" = vals [5; 7; 1000; 1000]%Z.
Proof. exact wit_resumed. Qed.
Print Assumptions C111_refused_refuted.

(** binary64: a field with a NaN, or with infinities of both signs, sums to NaN
    in every order of summation, and is still such a field after every later step *)
Theorem C111_sum : forall (a : arr f64) x, lost a -> sums (data a) x -> x = S754_nan.
Proof. exact sums_lost. Qed.
Theorem C111_rk4_lost : forall (h : hw f64) (Y : nat -> ns f64) (v : nat -> arr f64) dt dx k sh n, k = "density" \/ k = "omega" ->
  (forall j, j < n -> exists lg, rk4_step (Nm := NumF64) h (Y j) dt dx = (lg, Ok (Y (S j)))) ->
  (forall j, j <= n -> ns_get (Y j) k = Ok (v j) /\ wf (v j) /\ shape (v j) = sh) ->
  forall d, lost (v d) -> forall j, d <= j <= n -> lost (v j).
Proof. exact all_lost. Qed.
Theorem C111_euler_lost : forall (h : hw f64) pl dt dx lg y k v w, euler_step (Nm := NumF64) h pl dt dx = (lg, Ok y) ->
  k = "density" \/ k = "omega" -> ns_get pl k = Ok v -> ns_get y k = Ok w -> wf v -> shape w = shape v -> lost v -> lost w.
Proof. exact euler_lost. Qed.
Print Assumptions C111_sum.
Print Assumptions C111_rk4_lost.
Print Assumptions C111_euler_lost.

(** the toy run that diverges after three steps *)
Example C111_nonvacuous : forall n, diverges_at nan_sim nan_traj 3 /\ stays_diverged nan_sim nan_traj 3 n /\
  @evolves Z Q nan_sim (qcfg 7 2 2 false true []) (toy_phys 1%Q) (mkPlasma 5%Z 7%Z 14%Z 0%Q) nan_traj n /\
  @first_recorded Z Q TimeQ (qcfg 7 2 2 false true []) (@time2 Z Q TimeQ (qcfg 7 2 2 false true []) 0%Q) 3 4.
Proof.
  intros n. split; [apply nan_diverges|]. split; [apply nan_diverges|]. split; [now apply nan_evolves|].
  split; [lia|]. split; [vm_compute; reflexivity|]. intros j Hj. replace j with 3 by lia. vm_compute. reflexivity.
Qed.
Example C111_files : get (disk_of (nan_run (qcfg 7 2 1 false true [])) None) "density" = vals [5; 6; 7; 1000]%Z /\
  get (disk_of (nan_run (qcfg 7 2 2 false true [])) None) "density" = vals [5; 7]%Z /\
  get (disk_of (nan_run2 (qcfg 7 2 2 false true [])) None) "density" = vals [5; 7; 1000]%Z /\
  get (disk_of (nan_run2 (qcfg 7 2 2 false true [])) None) "time" = times [0; 2; 4]%Q.
Proof. split; [apply wit_run|]. split; [apply wit_run|]. exact wit_run2. Qed.
Example C111_refused_example :
  let d := disk_of (nan_run (qcfg 7 2 1 false true [])) None in
  get d "density" = vals [5; 6; 7; 1000]%Z /\ nan_run (qcfg 9 2 1 true true []) d = (([], d), Exn BaseException).
Proof. exact wit_refused. Qed.
(** a step from finite binary64 values can overflow *)
Example C111_overflow : forallb is_finite (data big33) = true /\
  exists lg y v, rk4_step (Nm := NumF64) h33 state33 (f64_ofZ 1) (f64_ofZ 1) = (lg, Ok y) /\ ns_get y "density" = Ok v /\ shape v = shape big33 /\ lost v.
Proof. exact wit_overflow. Qed.
