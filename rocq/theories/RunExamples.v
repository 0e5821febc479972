(** The toy simulation meets the hypotheses of the statements in PropRun, and
    the witnesses for what is refuted there. *)
From Coq Require Import Arith ZArith Bool String List Lia QArith Lqa.
Import List.
From Verif Require Import Num NdArray ModelIO ModelRun SpecIO SpecRun IOFacts RunProps RunTimes RunMisc RunWit RunTop.
Import ListNotations.
Local Close Scope Q_scope.
Local Open Scope nat_scope.
Local Open Scope string_scope.

Lemma toy_goes n : @goes Z Q TimeQ tq (qcfg (inject_Z (Z.of_nat n)) 2 2 false true ["gamma_n"]) (toy_phys 1%Q) 0%Q
    (@toy_init Q TimeQ) 14%Z toy_traj (Z.of_nat n) n (fun v => v).
Proof.
  split; [reflexivity|]. split.
  { cbn [TimeQ t_int t_num NumQ ndiv nsub qcfg toy_cfg c_end c_step].
    rewrite (Qred_Z (Z.of_nat n) (inject_Z (Z.of_nat n) - 0)) by ring.
    rewrite (Qred_Z (Z.of_nat n) (inject_Z (Z.of_nat n) / 1)) by field.
    cbn [Qnum Qden inject_Z]. now rewrite Z.quot_1_r. }
  split; [now apply toy_evolves|]. split; [intros j _; repeat split|].
  rewrite Nat2Z.id. repeat split; auto.
Qed.
Lemma toy_fine B n rec_ cont last at_ : pick at_ ["k0"; "x_save"; "c1"; "frame_dt"] = Ok rec_ ->
  @props_fine Z Q tq (qcfg n B 2 cont last ["gamma_n"]) (fun _ => True) at_ [("gamma_n", toy_value TimeQ)].
Proof.
  intros E. split; [repeat constructor; cbn; tauto|]. split; [cbn; intros k [<-|[]]; intuition discriminate|].
  split; [now exists rec_|]. split; [|repeat constructor; cbn; tauto].
  constructor; [|constructor]. split; [reflexivity|]. intros _ a b d _ _ _ _ _. reflexivity.
Qed.

Lemma toy_example_fresh n :
  let c := qcfg (inject_Z (Z.of_nat n)) 2 2 false true ["gamma_n"] in
  c_output c = true /\ 1 <= c_blen c /\ (c_snaps c =? 0)%Z = false /\ NoDup (keys (c_phys c)) /\
  @downsampled Z Q c (fun v => v) (@toy_init Q TimeQ) /\
  @goes Z Q TimeQ tq c (c_phys c) (@nofZ Q NumQ 0) (@toy_init Q TimeQ) 14%Z toy_traj (Z.of_nat n) n (fun v => v) /\
  apart1 c /\ @props_fine Z Q tq c (fun _ => True) (@save_params_of Z Q TimeQ c (c_phys c) false) [("gamma_n", toy_value TimeQ)] /\
  frames_P (fun _ => True) (fun k => map (fun tp => frame_row tq (fun v => v) (fst tp) (snd tp) k) (@fresh_log Z Q TimeQ c (@toy_init Q TimeQ) (@time1 Z Q TimeQ c) toy_traj n)).
Proof.
  intros c. split; [reflexivity|]. split; [cbn; lia|]. split; [reflexivity|]. split.
  { repeat constructor; cbn; intuition discriminate. }
  split; [repeat split|]. split; [apply toy_goes|]. split.
  { intros p [<-|[]]. cbn. intuition discriminate. }
  split; [eapply toy_fine; reflexivity|]. intros k _. apply Forall_forall. auto.
Qed.
Lemma toy_example_file : qrun (qcfg 5 2 2 false true ["gamma_n"]) None =
  Some (mkH5 [("density", Rows [RFrame 5; RFrame 7; RFrame 9]%Z); ("omega", Rows [RFrame 7; RFrame 11; RFrame 15]%Z);
       ("phi", Rows [RFrame 1; RFrame 22; RFrame 30]%Z); ("time", Rows [RNum 0; RNum 2; RNum 4]%Q);
       ("state_density", Whole 7%Z); ("state_phi", Whole 22%Z); ("state_omega", Whole 11%Z);
       ("gamma_n", Rows [RNum 5; RNum 154; RNum 270]%Q)]
      ((toy_phys 1%Q ++ [("dt", AT 1%Q); ("frame_dt", AT 2%Q); ("x", AZ 4); ("y", AZ 4); ("x_save", AZ 4); ("y_save", AZ 4);
       ("grid_pts", AZ 4); ("initial_time", AT 0%Q); ("adaptive_step_size", AB false)])%list)).
Proof. vm_compute. reflexivity. Qed.

(** C37 *)
Lemma w37 : exists f ld phys, qrun (qcfg 2 2 1 false true []) None = Some f /\
  get (Some f) "density" = vals [5; 6; 7]%Z /\ get (Some f) "time" = times [0; 1; 2]%Q /\
  continue_h5_file (Some f) = Ok (ld, phys) /\ l_age ld = 2%Q /\ l_density ld = 6%Z.
Proof. eexists. eexists. eexists. split; [vm_compute; reflexivity|]. repeat split. Qed.
(** C38 *)
Lemma w38 : get (qrun (qcfg 6 2 1 true true []) (qrun (qcfg 3 2 1 false true []) None)) "time" = times [0; 1; 2; 3; 1; 2; 3]%Q
  /\ get (qrun (qcfg 6 2 1 true true []) (qrun (qcfg 3 2 1 false true []) None)) "density" = vals [5; 6; 7; 8; 9; 10; 11]%Z.
Proof. split; vm_compute; reflexivity. Qed.
Lemma w38b : get (qrun (qcfg 9 2 1 true true []) (qrun (qcfg 6 2 1 true true []) (qrun (qcfg 3 2 1 false true []) None))) "time"
    = times [0; 1; 2; 3; 1; 2; 3; 1; 2; 3; 4; 5; 6]%Q.
Proof. vm_compute. reflexivity. Qed.
Lemma w38_run2 : get (qrun2 50 (qcfg 6 2 1 true true []) (qrun2 50 (qcfg 3 2 1 false true []) None)) "time" = times [0; 1; 2; 3; 4; 5; 6]%Q.
Proof. vm_compute. reflexivity. Qed.
(** C42 *)
Lemma w42_zonal : exists f ld phys, 
  qrun2 50 (toy_cfg (toy_phys 1%Q ++ [("zonal", AB true)])%list 1%Q 1%Q 3%Q 0%Q 2 1 false true []) None = Some f /\
  dget (attrs f) "zonal" = Some (AB true) /\ continue_h5_file (Some f) = Ok (ld, phys) /\ dget phys "zonal" = None.
Proof. eexists. eexists. eexists. split; [vm_compute; reflexivity|]. repeat split. Qed.
(** continuing with other grid arguments: the stored dx is 1, the steps use 7 *)
Lemma w42_dx : get (qrun (toy_cfg (toy_phys 7%Q) 7%Q 1%Q 6%Q 0%Q 2 1 true true []) (qrun (qcfg 3 2 1 false true []) None)) "density"
  = vals [5; 6; 7; 8; 15; 22; 29]%Z.
Proof. vm_compute. reflexivity. Qed.
(** C45 *)
Lemma w45 : len (get (frun (fcfg endF)) "time") = Some 3 /\ len (get (frun2 20 (fcfg endF)) "time") = Some 4 /\
  SpecFloat.SFltb (ndiv (Num := NumF64) endF stepF) (f64_ofZ 3) = true.
Proof. repeat split; vm_compute; reflexivity. Qed.
(** C46 *)
Lemma w46 : result_of (@run2 Z Q TimeQ bad_sim (qcfg 5 2 1 false false []) 40 (@toy_init Q TimeQ)) None = Exn OutOfFuel
  /\ result_of (@run Z Q TimeQ bad_sim (qcfg 5 2 1 false false []) (@toy_init Q TimeQ)) None = Exn ValueError.
Proof. split; vm_compute; reflexivity. Qed.
(** C62 *)
Lemma w62 : exists d, d = qrun (qcfg 3 2 1 false true ["gamma_n"]) None /\
  qres (qcfg 3 2 1 false true ["gamma_n"]) None = Ok tt /\
  qres2 50 (qcfg 6 2 1 true true ["gamma_n"]) d = Exn KeyError /\
  get (qrun2 50 (qcfg 6 2 1 true true ["gamma_n"]) d) "time" = times [0; 1; 2; 3; 4; 5]%Q /\
  get (qrun2 50 (qcfg 6 2 1 true true ["gamma_n"]) d) "gamma_n" = get d "gamma_n".
Proof. eexists. split; [reflexivity|]. repeat split; vm_compute; reflexivity. Qed.
Lemma w62_back : exists d, d = qrun (qcfg 6 2 1 true true ["gamma_n"]) (qrun2 50 (qcfg 3 2 1 false true ["gamma_n"]) None) /\
  len (get d "density") = Some 7 /\ len (get d "fullres_gamma_n") = Some 4.
Proof. eexists. split; [reflexivity|]. split; vm_compute; reflexivity. Qed.
(** C64 *)
Lemma w64 : qres2 50 (qcfg 0 2 1 false true []) None = Ok tt /\ get (qrun2 50 (qcfg 0 2 1 false true []) None) "time" = times []
  /\ get (qrun (qcfg 0 2 1 false true []) None) "time" = times [0%Q].
Proof. repeat split; vm_compute; reflexivity. Qed.
(** C66: stopped between the flush and the update of the state *)
Lemma w66 : exists j f ld phys, crash_after (@zero_like Z Q TimeQ tq) j (@run Z Q TimeQ tq (qcfg 3 2 1 false true []) (@toy_init Q TimeQ)) None = Some f /\
  continue_h5_file (Some f) = Ok (ld, phys) /\ l_age ld = 3%Q /\ l_density ld = 6%Z.
Proof. exists 46. eexists. eexists. eexists. split; [vm_compute; reflexivity|]. repeat split. Qed.
Lemma w66_torn : exists j d, crash_after (@zero_like Z Q TimeQ tq) j (@run Z Q TimeQ tq (qcfg 3 2 1 false true []) (@toy_init Q TimeQ)) None = d /\
  qres (qcfg 6 2 1 true true []) d = Ok tt /\
  len (get (qrun (qcfg 6 2 1 true true []) d) "density") = Some 9 /\ len (get (qrun (qcfg 6 2 1 true true []) d) "time") = Some 7.
Proof. exists 40. eexists. split; [reflexivity|]. repeat split; vm_compute; reflexivity. Qed.
(** C67 *)
Lemma w67 : exists d, d = qrun (qcfg 3 2 1 false false []) None /\ qres (qcfg 3 2 1 false false []) None = Ok tt /\
  qres (qcfg 6 2 1 true true []) d = Exn KeyError /\ get (qrun (qcfg 6 2 1 true true []) d) "time" = times [0; 1; 2; 3; 1; 2]%Q.
Proof. eexists. split; [reflexivity|]. repeat split; vm_compute; reflexivity. Qed.
