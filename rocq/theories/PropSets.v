(** C92: the datasets of a recorded file. *)
From Coq Require Import Arith ZArith QArith Bool String List Lia.
From Verif Require Import Num NdArray ModelIO ModelRun SpecIO SpecRun SpecSets SetsFacts RunWit.
Import ListNotations.
Local Close Scope Q_scope.
Local Open Scope nat_scope.
Local Open Scope string_scope.

(** wherever a run is stopped, its file has no dataset that was not there
    before and is not documented *)
Theorem C92_run : forall (V T : Type) (TN : TimeNum T) (s : sim V T) (c : cfg V T) pl0 fs j g k,
  crash_after (zero_like s) j (run s c pl0) fs = Some g -> dget (dsets g) k <> None ->
  (exists f, fs = Some f /\ dget (dsets f) k <> None) \/ documented c false k.
Proof. intros V T TN s c. exact (sets_run s c). Qed.
Theorem C92_run2 : forall (V T : Type) (TN : TimeNum T) (s : sim V T) (c : cfg V T) fuel pl0 fs j g k,
  crash_after (zero_like s) j (run2 s c fuel pl0) fs = Some g -> dget (dsets g) k <> None ->
  (exists f, fs = Some f /\ dget (dsets f) k <> None) \/ documented c true k.
Proof. intros V T TN s c. exact (sets_run2 s c). Qed.
(** a fresh or overwritten file has only documented ones *)
Theorem C92_run_done : forall (V T : Type) (TN : TimeNum T) (s : sim V T) (c : cfg V T) pl0 fs g k,
  fs = None \/ (c_output c = true /\ c_force c = true) -> disk_of (run s c pl0) fs = Some g -> dget (dsets g) k <> None ->
  documented c false k.
Proof. intros V T TN s c. exact (sets_run_done s c). Qed.
Theorem C92_run2_done : forall (V T : Type) (TN : TimeNum T) (s : sim V T) (c : cfg V T) fuel pl0 fs g k q,
  fs = None \/ (c_output c = true /\ c_force c = true /\ t_int (ndiv (c_end c) (c_step c)) = Ok q /\ (c_snaps c =? 0)%Z = false) ->
  disk_of (run2 s c fuel pl0) fs = Some g -> dget (dsets g) k <> None -> documented c true k.
Proof. intros V T TN s c. exact (sets_run2_done s c). Qed.
(** a run that down-samples or was asked to does keep its state *)
Theorem C92_state_run : forall (V T : Type) (TN : TimeNum T) (s : sim V T) (c : cfg V T) P pl0 phi traj steps n ds fs tbl,
  c_output c = true -> (fs = None \/ c_force c = true) -> 1 <= c_blen c -> (c_snaps c =? 0)%Z = false -> NoDup (keys (c_phys c)) ->
  downsampled c ds pl0 -> goes s c (c_phys c) (nofZ 0) pl0 phi traj steps n ds ->
  apart1 c -> props_fine s c P (save_params_of c (c_phys c) false) tbl ->
  let l := fresh_log c pl0 (time1 c) traj n in
  frames_P P (fun k => map (fun tp => frame_row s ds (fst tp) (snd tp) k) l) ->
  keeps_state c ->
  exists g, disk_of (run s c pl0) fs = Some g /\ holds_state (fun _ => Some (Whole (s_zeroV s))) g l (c_blen c * (length l / c_blen c)).
Proof. intros V T TN s c. exact (state_run s c). Qed.
Theorem C92_state_run2 : forall (V T : Type) (TN : TimeNum T) (s : sim V T) (c : cfg V T) P pl0 phi traj n ds pv fuel fs tbl q,
  c_output c = true -> (fs = None \/ c_force c = true) -> 1 <= c_blen c -> (c_snaps c =? 0)%Z = false -> NoDup (c_props c) ->
  t_int (ndiv (c_end c) (c_step c)) = Ok q ->
  NoDup (keys (c_phys c)) -> downsampled c ds pl0 -> has_props s c pv pl0 ->
  props_apart c -> props_fine s c P (save_params_of c (c_phys c) (c_adaptive c)) tbl ->
  goes2 s c (c_phys c) (nofZ 0) pl0 phi traj n ds pv -> n < fuel ->
  let l := fresh_log c pl0 (time2 c (nofZ 0)) traj n in
  let B := c_blen c in
  let m := if nltb (c_rec c) (time2 c (nofZ 0) n) then length l else B * (length l / B) in
  frames_P P (fun k => map (fun tp => frame_row s ds (fst tp) (snd tp) k) (firstn m l)) ->
  keeps_state c ->
  exists g, disk_of (run2 s c fuel pl0) fs = Some g /\ holds_state (fun _ => Some (Whole (s_zeroV s))) g l (B * (length l / B)).
Proof. intros V T TN s c. exact (state_run2 s c). Qed.
Print Assumptions C92_run.
Print Assumptions C92_run2.
Print Assumptions C92_run_done.
Print Assumptions C92_run2_done.
Print Assumptions C92_state_run.
Print Assumptions C92_state_run2.

(** frames halved (integers): add_last_state is off, yet the state is kept *)
Definition halved : cfg Z Q :=
  mkCfg 1%Q 3%Q (toy_phys 1%Q) 1%Q 1%Q 4 4 2 2 true 0%Q false 2 1 (Some (fun v => Ok (v / 2)%Z)) false false false ["gamma_n"].
Definition names {V T} (d : disk V T) : list string := match d with Some f => keys (dsets f) | None => [] end.
Example C92_example : c_last halved = false /\ keeps_state halved /\
  names (qrun halved None) = ["density"; "omega"; "phi"; "time"; "state_density"; "state_phi"; "state_omega"; "gamma_n"] /\
  get (qrun halved None) "density" = vals [2; 3; 3; 4]%Z /\ get (qrun halved None) "state_density" = Some (Whole 8%Z) /\
  names (qrun2 50 halved None) = ["density"; "omega"; "phi"; "time"; "fullres_gamma_n"; "state_density"; "state_phi"; "state_omega"; "gamma_n"] /\
  names (qrun (qcfg 3 2 1 false false []) None) = ["density"; "omega"; "phi"; "time"].
Proof. split; [reflexivity|]. split; [left; discriminate|]. vm_compute. repeat split; reflexivity. Qed.
