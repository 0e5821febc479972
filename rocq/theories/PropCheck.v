(** C91: files with NaNs or vanishing fields are not continued. *)
From Coq Require Import Arith ZArith QArith Bool String List Lia.
From Verif Require Import Num NdArray ModelIO ModelRun SpecCheck CheckFacts RunWit.
Import ListNotations.
Local Close Scope Q_scope.
Local Open Scope nat_scope.
Local Open Scope string_scope.

(** nothing is done and an error is raised *)
Theorem C91_run : forall (V T : Type) (TN : TimeNum T) (s : sim V T) (c : cfg V T) pl0 (f : h5 V T), c_force c = false -> c_continue c = true ->
  broken s f -> exists e, run s c pl0 (Some f) = (([], Some f), Exn e).
Proof. intros V T TN s c. exact (run_broken s c). Qed.
Theorem C91_run2 : forall (V T : Type) (TN : TimeNum T) (s : sim V T) (c : cfg V T) fuel pl0 (f : h5 V T), c_force c = false -> c_continue c = true ->
  broken s f -> exists e, run2 s c fuel pl0 (Some f) = (([], Some f), Exn e).
Proof. intros V T TN s c. exact (run2_broken s c). Qed.
(** the error of a file that can be read is a BaseException *)
Theorem C91_error : forall (V T : Type) (TN : TimeNum T) (s : sim V T) (c : cfg V T) pl0 (f : h5 V T) ld phys,
  c_output c = true -> c_force c = false -> c_continue c = true -> broken s f ->
  continue_h5_file (Some f) = Ok (ld, phys) -> run s c pl0 (Some f) = (([], Some f), Exn BaseException).
Proof. intros V T TN s c. exact (run_broken_base s c). Qed.
(** a readable file that is not broken is continued from the values read *)
Theorem C91_continues : forall (V T : Type) (TN : TimeNum T) (s : sim V T) (c : cfg V T) pl0 (f : h5 V T) ld phys,
  c_output c = true -> c_force c = false -> c_continue c = true ->
  ~ broken s f -> continue_h5_file (Some f) = Ok (ld, phys) ->
  run s c pl0 (Some f) = ibind (run_simulate s c (mkStart (mkPlasma (l_density ld) (l_omega ld) (l_phi ld) (l_age ld)) phys (l_age ld) (buffer0 s c) 0))
    (fun _ => run_properties_ s c) (Some f).
Proof. intros V T TN s c. exact (run_sound s c). Qed.
Print Assumptions C91_continues.
Print Assumptions C91_run.
Print Assumptions C91_run2.
Print Assumptions C91_error.
(** a simulation whose density is zero after two steps: its file is recorded
    but cannot be continued, one step earlier it can *)
Definition sink : plasma Z Q := mkPlasma (-2)%Z 7%Z 1%Z 0%Q.
Example C91_example : exists f ld phys,
  disk_of (@run Z Q TimeQ tq (qcfg 2 1 1 true true []) sink) None = Some f /\ broken tq f /\ continue_h5_file (Some f) = Ok (ld, phys) /\
  result_of (@run Z Q TimeQ tq (qcfg 5 1 1 true true []) sink) (Some f) = Exn BaseException /\
  result_of (@run Z Q TimeQ tq (qcfg 5 1 1 true true []) sink) (disk_of (@run Z Q TimeQ tq (qcfg 1 1 1 true true []) sink) None) = Ok tt.
Proof.
  eexists. do 2 eexists. split; [vm_compute; reflexivity|]. split; [|split; [vm_compute; reflexivity|split; vm_compute; reflexivity]].
  right. left. exists "density", 0%Z. split; [now left|]. split; [left; vm_compute; reflexivity|reflexivity].
Qed.
