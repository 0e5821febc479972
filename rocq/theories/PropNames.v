(** C112: names and lists of properties. *)
From Coq Require Import Arith ZArith Bool Reals String List Lia QArith.
From Verif Require Import Num NdArray NdFacts Spec SpecHW SpecPlasma ModelHW ModelBackend ModelIO ModelRun ModelRunHW ModelPropArgs
  SpecIO SpecRun SpecRunHW SpecNames RunHWProps PropArgFacts NameHW RunWit RunExamples.
Import ListNotations.
Local Close Scope Q_scope.
Local Close Scope R_scope.
Local Open Scope nat_scope.
Local Open Scope string_scope.

(** ** The default list of run2 is shared by all calls: it keeps what it had, and
    gains the show_property of every call without a list *)
Theorem C112_default : forall calls d,
  (exists l, default_after d calls = (d ++ l)%list) /\
  (forall x, In x (default_after d calls) <-> In x d \/ In (None, x) calls) /\
  (NoDup d -> NoDup (default_after d calls)).
Proof. intros calls d. split; [apply default_grows|]. split; [apply default_in|apply default_nodup]. Qed.
Print Assumptions C112_default.
(** so a call without a list does not always use the documented one *)
Theorem C112_default_refuted : ~ (forall calls show, In show default_props ->
  fst (call_props (default_after default_props calls) None show) = Ok default_props).
Proof. intros H. specialize (H [(None, "time")] "gamma_n" (or_introl eq_refl)). discriminate H. Qed.
Print Assumptions C112_default_refuted.
(** a list or tuple that contains the plotted property is used as it is; a list
    that does not gains it; a tuple or a string raises before any file is touched *)
Theorem C112_lists : forall d l show,
  (In show l -> fst (call_props d (Some (PyList l)) show) = Ok l /\ fst (call_props d (Some (PyTuple l)) show) = Ok l) /\
  (~ In show l -> fst (call_props d (Some (PyList l)) show) = Ok (l ++ [show])%list /\ fst (call_props d (Some (PyTuple l)) show) = Exn TypeError).
Proof. exact lists_used. Qed.
Print Assumptions C112_lists.
Theorem C112_no_list : forall (V T : Type) (TN : TimeNum T) (s : sim V T) (c : cfg V T) fuel pl0 d q show fs k,
  t_int (ndiv (c_end c) (c_step c)) = Ok k -> (c_snaps c =? 0)%Z = false ->
  seq_in show q = false -> (forall l, q <> PyList l) ->
  run2_call s c fuel pl0 d (Some q) show fs = (([], fs), Exn TypeError).
Proof. intros. eapply call_type_error; eassumption. Qed.
Print Assumptions C112_no_list.
(** a string that contains the plotted property is taken apart into characters *)
Theorem C112_string : forall d before show after,
  fst (call_props d (Some (PyStr (before ++ show ++ after))) show) = Ok (chars (before ++ show ++ after)).
Proof. exact string_used. Qed.
Print Assumptions C112_string.
(** otherwise the call is [run2] with these names *)
Theorem C112_call : forall (V T : Type) (TN : TimeNum T) (s : sim V T) (c : cfg V T) fuel pl0 d arg show l k,
  t_int (ndiv (c_end c) (c_step c)) = Ok k -> (c_snaps c =? 0)%Z = false -> fst (call_props d arg show) = Ok l ->
  forall fs, run2_call s c fuel pl0 d arg show fs = run2 s (with_props c l) fuel pl0 fs.
Proof. intros. eapply call_names; eassumption. Qed.
Print Assumptions C112_call.

(** ** A property that cannot be computed ends run2 with its error at the first
    frame to record, leaving the file as created *)
Theorem C112_first_frame : forall (V T : Type) (TN : TimeNum T) (s : sim V T) (c : cfg V T), NoDup (c_props c) ->
  forall fuel pl0 ds fs q e,
  c_output c = true -> (fs = None \/ c_force c = true) -> (c_snaps c =? 0)%Z = false -> t_int (ndiv (c_end c) (c_step c)) = Ok q ->
  NoDup (keys (c_phys c)) -> truthy (c_rec c) = false -> downsampled c ds pl0 -> fullres s c (c_props c) pl0 = Exn e ->
  exists f, result_of (run2 s c fuel pl0) fs = Exn e /\ disk_of (run2 s c fuel pl0) fs = Some f /\ empty_file s c f.
Proof. intros. eapply run2_bad_first; eassumption. Qed.
Print Assumptions C112_first_frame.
(** however late that is *)
Theorem C112_late_frame : forall (V T : Type) (TN : TimeNum T) (s : sim V T) (c : cfg V T), NoDup (c_props c) ->
  forall fuel pl0 phi traj r ds fs q e,
  c_output c = true -> (fs = None \/ c_force c = true) -> (c_snaps c =? 0)%Z = false -> t_int (ndiv (c_end c) (c_step c)) = Ok q ->
  NoDup (keys (c_phys c)) -> truthy (c_rec c) = true ->
  (let* dx := dlook (c_phys c) "dx" in s_phi s (c_phys c) (p_omega pl0) dx) = Ok phi ->
  evolves s c (c_phys c) (mkPlasma (p_density pl0) (p_omega pl0) phi (p_age pl0)) traj r -> 1 <= r <= fuel ->
  (forall j, j < r -> nltb (t_round4 (time2 c (nofZ 0) j)) (c_end c) = true) ->
  (forall j, 1 <= j < r -> recorded c (time2 c (nofZ 0)) j = false) -> recorded c (time2 c (nofZ 0)) r = true ->
  downsampled c ds (traj r) -> fullres s c (c_props c) (traj r) = Exn e ->
  exists f, result_of (run2 s c fuel pl0) fs = Exn e /\ disk_of (run2 s c fuel pl0) fs = Some f /\ empty_file s c f.
Proof. intros. eapply run2_bad_later; eassumption. Qed.
Print Assumptions C112_late_frame.
(** the file left behind blocks later runs of both drivers: continuing it raises,
    and without continuing nothing is simulated and nothing reported *)
Theorem C112_stuck : forall (V T : Type) (TN : TimeNum T) (s : sim V T) (c c' : cfg V T) fuel pl f k, empty_file s c f ->
  c_output c' = true -> c_force c' = false -> t_int (ndiv (c_end c') (c_step c')) = Ok k -> (c_snaps c' =? 0)%Z = false ->
  run2 s c' fuel pl (Some f) = (([], Some f), if c_continue c' then Exn IndexError else Ok tt) /\
  run s c' pl (Some f) = (([], Some f), if c_continue c' then Exn IndexError else Ok tt).
Proof. intros. eapply empty_stuck; eassumption. Qed.
Print Assumptions C112_stuck.

(** ** HW: the first name that cannot be computed decides: TypeError for the
    entries DE, DU, dE_dt, dU_dt of the table, KeyError for all other names *)
Theorem C112_hw : forall b rnd g m dsf (c : cfg (arr R) R),
  0 < g -> Nat.even g = true -> (c_dx c <> 0)%R -> (forall f, down c (grid g g f) = Ok (grid m m (dsf f))) ->
  forall l1 bad l2 e n o ph a fuel fs q,
  c_output c = true -> (fs = None \/ c_force c = true) -> (c_snaps c =? 0)%Z = false -> t_int (TimeNum := TimeR) (ndiv (c_end c) (c_step c)) = Ok q ->
  NoDup (keys (c_phys c)) -> truthy (c_rec c) = false ->
  c_props c = (l1 ++ bad :: l2)%list -> NoDup (c_props c) -> (forall k, In k l1 -> In k computable) -> name_error bad e ->
  let call := run2 (TN := TimeR) (hw_sim b rnd g g m m) c fuel (gp g g n o ph a) in
  exists f, result_of call fs = Exn e /\ disk_of call fs = Some f /\ empty_file (TN := TimeR) (hw_sim b rnd g g m m) c f.
Proof. exact hw_bad_name. Qed.
Print Assumptions C112_hw.
(** one earlier call that plotted such a property spoils all later calls that
    rely on the default list *)
Theorem C112_poisoned : forall b rnd g m dsf (c : cfg (arr R) R) calls bad show n o ph a fuel fs q,
  0 < g -> Nat.even g = true -> (c_dx c <> 0)%R -> (forall f, down c (grid g g f) = Ok (grid m m (dsf f))) ->
  c_output c = true -> (fs = None \/ c_force c = true) -> (c_snaps c =? 0)%Z = false -> t_int (TimeNum := TimeR) (ndiv (c_end c) (c_step c)) = Ok q ->
  NoDup (keys (c_phys c)) -> truthy (c_rec c) = false ->
  In (None, bad) calls -> ~ In bad computable ->
  let S_ := hw_sim b rnd g g m m in
  let call := run2_call (TN := TimeR) S_ c fuel (gp g g n o ph a) (default_after default_props calls) None show in
  exists f e l, result_of call fs = Exn e /\ (e = KeyError \/ e = TypeError) /\ disk_of call fs = Some f /\ empty_file (TN := TimeR) S_ (with_props c l) f.
Proof. exact hw_poisoned. Qed.
Print Assumptions C112_poisoned.

(** ** run.py reports nothing: the dataset of a name without a function is full of
    zeros *)
Theorem C112_run_zeros : forall (V T : Type) (TN : TimeNum T) (s : sim V T) (c : cfg V T) P pl0 phi traj steps n ds fs tbl,
  c_output c = true -> (fs = None \/ c_force c = true) -> 1 <= c_blen c -> (c_snaps c =? 0)%Z = false -> NoDup (keys (c_phys c)) ->
  downsampled c ds pl0 -> goes s c (c_phys c) (nofZ 0) pl0 phi traj steps n ds ->
  apart1 c -> props_fine s c P (save_params_of c (c_phys c) false) tbl ->
  let l := fresh_log c pl0 (time1 c) traj n in
  frames_P P (fun k => map (fun tp => frame_row s ds (fst tp) (snd tp) k) l) ->
  exists g, result_of (run s c pl0) fs = Ok tt /\ disk_of (run s c pl0) fs = Some g /\ records s ds (fun _ => []) g l
   /\ forall k, In k (c_props c) -> dget (s_table s (save_params_of c (c_phys c) false)) k = None -> dget (dsets g) k = Some (Rows (repeat (RNum nzero) (length l))).
Proof. exact @run_zeros. Qed.
Print Assumptions C112_run_zeros.

(** ** Concrete cases *)
Example C112_default_ex : default_after default_props [(None, "gamma_n"); (Some (PyList ["energy"]), "DU"); (None, "DU"); (None, "DU"); (None, "energy")]
  = (default_props ++ ["DU"])%list.
Proof. reflexivity. Qed.
Example C112_tuple_ex : run2_call (TN := TimeQ) tq (qcfg 3%Q 2 1 false false []) 9 (toy_init TimeQ) [] (Some (PyTuple ["energy"])) "gamma_n" None = (([], None), Exn TypeError).
Proof. reflexivity. Qed.
(** a string whose characters are repeated fails on creating the second dataset
    of the same name; one without repetitions at the first character *)
Example C112_string_ex :
  result_of (run2_call (TN := TimeQ) tq (qcfg 3%Q 2 1 false false []) 9 (toy_init TimeQ) [] (Some (PyStr "gamma_n")) "gamma_n") None = Exn ValueError /\
  result_of (run2_call (TN := TimeQ) tq (qcfg 3%Q 2 1 false false []) 9 (toy_init TimeQ) [] (Some (PyStr "DE")) "DE") None = Exn KeyError.
Proof. split; reflexivity. Qed.
(** two properties, the second unknown: the file keeps empty datasets, and then
    blocks a run with good properties *)
Definition bad_names := ["gamma_n"; "gamma_m"].
Example C112_first_ex : let g := qrun2 9 (qcfg 3%Q 2 1 false false bad_names) None in
  qres2 9 (qcfg 3%Q 2 1 false false bad_names) None = Exn KeyError /\
  get g "density" = Some (Rows []) /\ get g "fullres_gamma_m" = Some (Rows []) /\
  qres2 9 (qcfg 3%Q 2 1 false false ["gamma_n"]) g = Ok tt /\ qrun2 9 (qcfg 3%Q 2 1 false false ["gamma_n"]) g = g /\
  qres2 9 (qcfg 3%Q 2 1 true false ["gamma_n"]) g = Exn IndexError /\ qrun2 9 (qcfg 3%Q 2 1 true false ["gamma_n"]) g = g.
Proof. repeat split; reflexivity. Qed.
(** recording from time 2: two steps are made first *)
Example C112_late_ex : let c := toy_cfg (toy_phys 1%Q) 1%Q 1%Q 3%Q 2%Q 2 1 false false bad_names in
  qres2 9 c None = Exn KeyError /\ get (qrun2 9 c None) "time" = Some (Rows []) /\
  recorded (TN := TimeQ) c (time2 (TN := TimeQ) c 0%Q) 1 = false /\ recorded (TN := TimeQ) c (time2 (TN := TimeQ) c 0%Q) 2 = true.
Proof. repeat split; reflexivity. Qed.
(** run with the same names *)
Example C112_run_ex : let c := qcfg 2%Q 2 1 false false bad_names in
  qres c None = Ok tt /\ get (qrun c None) "gamma_m" = Some (Rows [RNum 0%Q; RNum 0%Q; RNum 0%Q]) /\
  get (qrun c None) "gamma_n" <> get (qrun c None) "gamma_m".
Proof. cbv zeta. split; [reflexivity|]. split; [reflexivity|]. vm_compute. discriminate. Qed.
Example C112_error_ex : name_error "DU" TypeError /\ name_error "gamma" KeyError.
Proof. split; [left; cbn; tauto|right; cbn; intuition discriminate]. Qed.
