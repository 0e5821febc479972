(** More lemmas behind the statements of PropRun. *)
From Coq Require Import Arith ZArith Bool String List Lia Sorted QArith.
Import List.
From Verif Require Import Num NdArray ModelIO ModelRun SpecIO SpecRun IOFacts RunProps PropsFacts KeepFacts RunFull Run2Props RunTimes RunMisc RunWit RunTop.
Import ListNotations.
Local Close Scope Q_scope.
Local Open Scope nat_scope.
Local Open Scope string_scope.

Lemma top_continue_reads (V T : Type) (f : h5 V T) ld phys : continue_h5_file (Some f) = Ok (ld, phys) ->
  (exists l, dget (dsets f) "time" = Some (Rows (l ++ [RNum (l_age ld)]))) /\
  forall k v, In (k, v) [("density", l_density ld); ("omega", l_omega ld); ("phi", l_phi ld)] ->
  dget (dsets f) ("state_" ++ k) = Some (Whole v) \/
  (dget (dsets f) ("state_" ++ k) = None /\ exists l, dget (dsets f) k = Some (Rows (l ++ [RFrame v]))).
Proof. intros H. split; [exact (continue_age f ld phys H)|exact (continue_field f ld phys H)]. Qed.

Lemma top_count (V T : Type) (TN : TimeNum T) (c : cfg V T) pl0 time traj n :
  (1 <= c_snaps c)%Z -> truthy (c_rec c) = false -> (forall j, 1 <= j <= n -> nleb (c_rec c) (time j) = true) ->
  length (fresh_log c pl0 time traj n) = 1 + n / Z.to_nat (c_snaps c).
Proof. intros H1 H2 H3. rewrite fresh_log_all by assumption. cbn [length]. now rewrite map_length, seq_length. Qed.

Lemma top_frames (V T : Type) (TN : TimeNum T) (c : cfg V T) time n : (1 <= c_snaps c)%Z ->
  (forall j, In j (frames c time n) <-> 1 <= j <= n /\ nleb (c_rec c) (time j) = true /\ exists i, j = i * Z.to_nat (c_snaps c))
  /\ StronglySorted lt (frames c time n).
Proof. intros H. split; [intros j; now apply frames_rec|apply frames_sorted]. Qed.

Lemma top_kept (V T : Type) (TN : TimeNum T) (s : sim V T) (c : cfg V T) pl0 fs : c_force c = false ->
  (forall j, grown (fun k => ~ In k (c_props c)) fs (crash_after (zero_like s) j (run s c pl0) fs)) /\
  grown (fun k => ~ In k (c_props c)) fs (disk_of (run s c pl0) fs).
Proof.
  intros H. pose proof (run_keeps s c pl0 H fs) as K. split; [exact K|].
  apply (keeps_disk (zero_like s) (grown (fun k => ~ In k (c_props c)))); [apply faithful_run|exact K].
Qed.
Lemma top_kept2 (V T : Type) (TN : TimeNum T) (s : sim V T) (c : cfg V T) fuel pl0 fs : c_force c = false ->
  (forall j, grown (fun k => ~ In k (c_props c)) fs (crash_after (zero_like s) j (run2 s c fuel pl0) fs)) /\
  grown (fun k => ~ In k (c_props c)) fs (disk_of (run2 s c fuel pl0) fs).
Proof.
  intros H. pose proof (run2_keeps s c fuel pl0 H fs) as K. split; [exact K|].
  apply (keeps_disk (zero_like s) (grown (fun k => ~ In k (c_props c)))); [apply faithful_run2|exact K].
Qed.

Lemma top_makes (V T : Type) (TN : TimeNum T) (s : sim V T) (c : cfg V T) phys t0 pl phi traj steps n ds :
  goes s c phys t0 pl phi traj steps n ds -> (forall j, s_nan s (p_density (traj j)) = false) -> n = Z.to_nat steps.
Proof. intros [_ [_ [_ [_ H]]]] N. eapply stops_all; eauto. Qed.

Lemma top_run2_steps (V : Type) (s : sim V Q) (c : cfg V Q) t0 traj n :
  @stops2 V Q TimeQ s c t0 traj n -> (forall j, s_nan s (p_density (traj j)) = false) ->
  (c_end c <= t0 + inject_Z (Z.of_nat n) * c_step c + (1 # 20000))%Q /\
  forall j, j < n -> (t0 + inject_Z (Z.of_nat j) * c_step c - (1 # 20000) < c_end c)%Q.
Proof.
  intros [H1 [_ H2]] N. apply run2_steps; [exact H1|]. destruct H2 as [H2|[_ [_ H2]]]; [exact H2|]. rewrite N in H2. discriminate.
Qed.

Lemma top_progress_ex : exists nv, @new_val_of_2 Z Q tq (qcfg 3 2 1 false true ["gamma_n"]) (@toy_init Q TimeQ) 0%Q = Ok nv /\
  dget nv "fullres_gamma_n" = Some (RNum 5%Q) /\ @progress_value Z Q TimeQ nv "gamma_n" = Some 0%Q.
Proof. eexists. split; [vm_compute; reflexivity|]. split; reflexivity. Qed.

Lemma top_run2_fresh (V T : Type) (TN : TimeNum T) (s : sim V T) (c : cfg V T)
  P pl0 phi traj n ds pv fuel fs tbl q :
  c_output c = true -> (fs = None \/ c_force c = true) -> 1 <= c_blen c -> (c_snaps c =? 0)%Z = false -> NoDup (c_props c) ->
  t_int (ndiv (c_end c) (c_step c)) = Ok q ->
  NoDup (keys (c_phys c)) -> downsampled c ds pl0 -> has_props s c pv pl0 ->
  props_apart c -> props_fine s c P (save_params_of c (c_phys c) (c_adaptive c)) tbl ->
  goes2 s c (c_phys c) (nofZ 0) pl0 phi traj n ds pv -> n < fuel ->
  let l := fresh_log c pl0 (time2 c (nofZ 0)) traj n in
  let B := c_blen c in
  let m := if nltb (c_rec c) (time2 c (nofZ 0) n) then length l else B * (length l / B) in
  frames_P P (fun k => map (fun tp => frame_row s ds (fst tp) (snd tp) k) (firstn m l)) ->
  exists g, result_of (run2 s c fuel pl0) fs = Ok tt /\ disk_of (run2 s c fuel pl0) fs = Some g
    /\ records2 s c ds pv (fun _ => []) g (firstn m l) /\ attrs g = save_params_of c (c_phys c) (c_adaptive c)
    /\ (add_last c = true -> holds_state (fun _ => Some (Whole (s_zeroV s))) g l (B * (length l / B)))
    /\ (forall k, In k (c_props c) -> dget (dsets g) k = Some (Rows (prop_rows (zero_like s) (s_f32V s) (s_f32T s) tbl
           (map (fun tp => frame_row s ds (fst tp) (snd tp) "density") (firstn m l))
           (map (fun tp => frame_row s ds (fst tp) (snd tp) "phi") (firstn m l))
           (map (fun tp => frame_row s ds (fst tp) (snd tp) "omega") (firstn m l)) k))).
Proof. intros. eapply run2_fresh; eassumption. Qed.
