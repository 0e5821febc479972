(** Runs started from the user's arguments. *)
From Coq Require Import List Arith ZArith Reals Lra Lia Bool String.
Import List.
From Verif Require Import Num NdArray NdFacts Spec SumFacts Cplx DftFacts SpecFourier ModelHW ModelBackend SpecHW SpecPlasma SpecDiag
  ModelIO ModelRun ModelRunHW ModelDownsample ModelArgs SpecIO SpecRun SpecRunHW SpecArgs SpecDownsample DsField RunHWTop.
Import ListNotations.
Local Open Scope R_scope.
Local Open Scope string_scope.
#[local] Existing Instance TimeR.

Lemma args_hw_setup b a phys props m z : args_ok b a props m ->
  hw_setup b (args_par a z) (a_grid a) (a_grid a) m m (a_k0 a) (frame_fnc a m) (args_cfg phys props a).
Proof. intros []. apply args_setup; auto. Qed.

Lemma args_run b a m rnd y0 phi0 fs : args_ok b a (a_props a) m -> (fs = None \/ a_force a = true) ->
  let g := a_grid a in
  let dx := domain_dx (a_k0 a) g in
  let sim := run (hw_sim b rnd g g m m) (run_cfg a) (plasma0 (grid g g (fst y0)) (grid g g (snd y0)) (grid g g phi0)) in
  let frames := map (hw_frame (args_par a false) g g dx (a_step a) y0 phi0) (recorded_its (run_cfg a) (Z.to_nat (R_trunc (a_end a / a_step a)))) in
  exists h, result_of sim fs = Ok tt /\ disk_of sim fs = Some h /\ file_frames rnd (frame_fnc a m) m m frames h /\
    forall k, In k (a_props a) -> file_prop rnd (frame_fnc a m) m m (domain_dx (a_k0 a) m) (a_c1 a) frames h k.
Proof.
  intros O F g dx sim frames.
  destruct (top_hw_run b (args_par a false) g g m m (a_k0 a) (frame_fnc a m) (run_cfg a) rnd y0 phi0 fs) as (h & R1 & R2 & R3 & R4 & _); auto.
  - apply args_hw_setup. exact O.
  - cbn. rewrite Z2Nat.id by apply O. reflexivity.
  - exists h. auto.
Qed.
Lemma args_run2 b a m rnd y0 phi0 fs n fuel : args_ok b a (effective_props a) m -> (fs = None \/ a_force a = true) ->
  (forall k, In k (effective_props a) -> prop_fits k (a_grid a) (a_grid a)) ->
  (forall j, (j < n)%nat -> t_round4 (INR j * a_step a) < a_end a) -> a_end a <= t_round4 (INR n * a_step a) -> (n < fuel)%nat ->
  a_rec a < INR n * a_step a ->
  let g := a_grid a in
  let dx := domain_dx (a_k0 a) g in
  let sim := run2 (hw_sim b rnd g g m m) (run2_cfg a) fuel (plasma0 (grid g g (fst y0)) (grid g g (snd y0)) (grid g g phi0)) in
  let frames := map (hw_frame (args_par a (a_zonal a)) g g dx (a_step a) y0 phi0) (recorded_its (run2_cfg a) n) in
  exists h, result_of sim fs = Ok tt /\ disk_of sim fs = Some h /\ file_frames rnd (frame_fnc a m) m m frames h /\
    forall k, In k (effective_props a) -> file_prop rnd (frame_fnc a m) m m (domain_dx (a_k0 a) m) (a_c1 a) frames h k /\
                                          file_fullres rnd g g dx (a_c1 a) frames h k.
Proof.
  intros O F PF T1 T2 Fu Rc g dx sim frames.
  destruct (top_hw_run2 b (args_par a (a_zonal a)) g g m m (a_k0 a) (frame_fnc a m) (run2_cfg a) rnd y0 phi0 fs n fuel) as (h & R1 & R2 & R3 & R4 & _); auto.
  - apply args_hw_setup. exact O.
  - cbn. rewrite Z2Nat.id by apply O. reflexivity.
  - cbn [run2_cfg args_cfg c_rec c_step] in R3, R4. destruct (Rlt_dec (a_rec a) (INR n * a_step a)) as [_|N]; [|contradiction].
    exists h. auto.
Qed.
