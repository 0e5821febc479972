(** Overwriting with force_recompute, and files whose stored state is still zero. *)
From Coq Require Import Arith ZArith Bool String List Lia.
Import List.
From Verif Require Import Num NdArray ModelIO ModelRun SpecIO SpecRun IOFacts RunMisc.
Import ListNotations.
Local Open Scope string_scope.

Section Force.
Context {V T : Type} {TN : TimeNum T}.
Variables (s : sim V T) (c : cfg V T).

(** force_recompute wins over continue_file: nothing of the old file survives *)
Lemma run_forced pl0 f : c_output c = true -> c_force c = true -> run s c pl0 (Some f) = run s c pl0 None.
Proof.
  intros Ho Hf. unfold run. rewrite Ho. cbn [negb].
  unfold run_files. unfold ibind at 1 2 5 6. cbn [iget]. rewrite Hf. reflexivity.
Qed.
Lemma run2_forced fuel pl0 f q : c_output c = true -> t_int (ndiv (c_end c) (c_step c)) = Ok q -> (c_snaps c =? 0)%Z = false -> c_force c = true ->
  run2 s c fuel pl0 (Some f) = run2 s c fuel pl0 None.
Proof.
  intros Ho Ht Hs Hf. unfold run2. rewrite Ht, Hs, Ho. cbn [negb].
  unfold run2_files, ilift. unfold ibind at 1 2 3 6 7 8. cbn [iget]. rewrite Hf. reflexivity.
Qed.

(** continuing from a zero density is refused *)
Lemma run_zero_state pl1 f ld phys : c_output c = true -> c_force c = false -> c_continue c = true ->
  continue_h5_file (Some f) = Ok (ld, phys) -> s_nan s (l_density ld) = false -> s_zero s (l_density ld) = true ->
  run s c pl1 (Some f) = (([], Some f), Exn BaseException).
Proof.
  intros Ho Hf Hc Hl Hn Hz. unfold run. rewrite Ho. cbn [negb]. unfold run_files, run_continue, ibind, iget, ilift.
  rewrite Hf, Hc, Hl. destruct ld as [n o p a]. unfold check_loaded. cbn in Hn, Hz |- *. rewrite Hn, Hz. reflexivity.
Qed.
Lemma run2_zero_state fuel pl1 f ld phys q : c_output c = true -> c_force c = false -> c_continue c = true ->
  t_int (ndiv (c_end c) (c_step c)) = Ok q -> (c_snaps c =? 0)%Z = false ->
  continue_h5_file (Some f) = Ok (ld, phys) -> s_nan s (l_density ld) = false -> s_zero s (l_density ld) = true ->
  run2 s c fuel pl1 (Some f) = (([], Some f), Exn BaseException).
Proof.
  intros Ho Hf Hc Ht Hs Hl Hn Hz. unfold run2, ilift at 1. unfold ibind at 1. rewrite Ht, Hs, Ho. cbn [negb]. unfold run2_files, run_continue, ibind, iget, ilift.
  rewrite Hf, Hc, Hl. destruct ld as [n o p a]. unfold check_loaded. cbn in Hn, Hz |- *. rewrite Hn, Hz. reflexivity.
Qed.
End Force.

(** a file of six steps, then the same call with continue_file=True and the
    default force_recompute=True to time 2 *)
From Coq Require Import QArith.
From Verif Require Import RunWit.
Definition forced {V T} (c : cfg V T) : cfg V T :=
  mkCfg (c_step c) (c_end c) (c_phys c) (c_dx c) (c_c1 c) (c_x c) (c_y c) (c_xs c) (c_ys c) (c_output c) (c_rec c) (c_continue c)
    (c_blen c) (c_snaps c) (c_down c) (c_last c) true (c_adaptive c) (c_props c).
Lemma forced_witness : exists d, d = qrun (qcfg 6 2 1 false true []) None /\ len (get d "time") = Some 7%nat /\
  qres (forced (qcfg 2 2 1 true true [])) d = Ok tt /\ len (get (qrun (forced (qcfg 2 2 1 true true [])) d) "time") = Some 3%nat.
Proof. eexists. split; [reflexivity|]. vm_compute. auto. Qed.
