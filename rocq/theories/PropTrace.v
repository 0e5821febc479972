(** C122: the visible part of the time-trace plots, and the pictures left by the
    script. *)
From Coq Require Import Arith ZArith Bool Reals String List Lra Lia.
From Verif Require Import Num NdArray ModelIO ModelRun ModelRunHW ModelPlot ModelTrace ModelHelpers SpecPlot SpecTrace PlotProps PlotCases TraceFacts TraceWit.
Import ListNotations.
Local Open Scope string_scope.
Local Open Scope R_scope.

(** comparison plot: of the values it draws exactly the ones that are not
    negative can be seen *)
Theorem C122_comparison : forall (V : Type) auto latex (f : h5 V R) prefix props t0 t0_std xt yc v, with_margin auto -> 0 <= yc ->
  comparison_view auto latex f prefix props t0 t0_std xt yc = Ok (Some v) ->
  forall c y, shown v c -> In y (cv_y c) -> (visible (v_y v) y <-> 0 <= y).
Proof. exact @comparison_visible. Qed.
Print Assumptions C122_comparison.

(** a property whose values are all negative is drawn, and no point of it can
    be seen *)
Definition all_drawn_visible : Prop := forall auto (f : h5 unit R) dt t_in v, with_margin auto -> fixed_step f dt t_in ->
  comparison_view auto latex_format f "fullres_" ["gamma_n"] 0 300 100 100000 = Ok (Some v) ->
  forall c, shown v c -> exists y, In y (cv_y c) /\ visible (v_y v) y.
Theorem C122_negative_refuted : ~ all_drawn_visible.
Proof. exact negative_hidden. Qed.
Print Assumptions C122_negative_refuted.

(** plot_timetraces: everything can be seen as soon as some value is below
    -1e-8; else the values that are not negative; when it is cut off, the values
    from 0 to the limit *)
Theorem C122_traces : forall (V : Type) auto latex (f : h5 V R) props t0 t0_std yc v, with_margin auto -> 0 <= yc ->
  traces_view auto latex f props t0 t0_std yc = Ok (Some v) ->
  let cut := exists c, shown v c /\ all_above yc c in
  let low := exists c y, shown v c /\ In y (cv_y c) /\ y < - (1 / 100000000) in
  forall c y, shown v c -> In y (cv_y c) ->
    (cut -> (visible (v_y v) y <-> 0 <= y <= yc)) /\
    (~ cut -> low -> visible (v_y v) y) /\
    (~ cut -> ~ low -> (visible (v_y v) y <-> 0 <= y)).
Proof. exact @traces_visible. Qed.
Print Assumptions C122_traces.

(** time axis: from t0 to t0 plus the last drawn time of the last property *)
Theorem C122_time : forall (V : Type) auto latex (f : h5 V R) dt t_in ps q (data : string -> list R) t0 t0_std yc i s, fixed_step f dt t_in ->
  INR i * dt <= t0 < (INR i + 1) * dt -> INR s * dt <= t0_std - t_in < (INR s + 1) * dt ->
  (forall p, In p (ps ++ [q])%list -> holds f p (data p) /\ (i < List.length (data p))%nat) ->
  exists v, traces_view auto latex f (ps ++ [q]) t0 t0_std yc = Ok (Some v) /\
    v_x v = Some (t0, t0 + (t0 + INR (List.length (data q) - 1 - i) * dt)) /\
    map cv_x (List.concat (v_panels v)) = map (fun p => map (fun k => t0 + INR k * dt) (seq 0 (List.length (data p) - i))) (ps ++ [q])%list.
Proof. exact @traces_time. Qed.
Print Assumptions C122_time.

Theorem C122_comparison_time : forall (V : Type) auto latex (f : h5 V R) dt t_in prefix props (t0 : Z) t0_std xt yc n0 n i s, fixed_step f dt t_in -> has_rows f "density" n0 ->
  t_in <= IZR t0 -> 0 < xt -> props <> [] -> (i < n)%nat ->
  INR i * dt <= IZR t0 < (INR i + 1) * dt -> INR s * dt <= t0_std - t_in < (INR s + 1) * dt ->
  (forall p, In p props -> (exists l, holds f p l /\ List.length l = n) /\
     (dhas (dsets f) (prefix ++ p)%string = true -> exists l, holds f (prefix ++ p)%string l /\ List.length l = n)) ->
  exists v, comparison_view auto latex f prefix props t0 t0_std xt yc = Ok (Some v) /\
    v_x v = Some (IZR t0, IZR t0 + (IZR t0 + INR (n - 1 - i) * dt)) /\
    forall c, shown v c -> cv_x c = map (fun k => IZR t0 + INR k * dt) (seq 0 (n - i)).
Proof. exact @comparison_time. Qed.
Print Assumptions C122_comparison_time.

(** it does not end at the last drawn time *)
Definition ends_with_the_data : Prop := forall auto (f : h5 unit R) dt t_in (t0 : Z) v l, fixed_step f dt t_in ->
  traces_view auto latex_format f ["gamma_n"] (IZR t0) 300 100000 = Ok (Some v) -> v_x v = Some l ->
  forall c, shown v c -> snd l = last (cv_x c) 0.
Theorem C122_end_refuted : ~ ends_with_the_data.
Proof. exact end_differs. Qed.
Print Assumptions C122_end_refuted.

(** and a short last property hides the later points of the others *)
Definition all_times_visible : Prop := forall auto (f : h5 unit R) dt t_in v l, fixed_step f dt t_in ->
  traces_view auto latex_format f ["gamma_n"; "energy"] 0 300 100000 = Ok (Some v) -> v_x v = Some l ->
  forall c x, shown v c -> In x (cv_x c) -> visible l x.
Theorem C122_short_refuted : ~ all_times_visible.
Proof. exact short_hides. Qed.
Print Assumptions C122_short_refuted.

(** ** the script *)
(** comparison=False with an output path: the second figure replaces the first *)
Theorem C122_main_one_path : forall (V : Type) auto latex (f : h5 V R) fp p t0 ts d v1 v2,
  traces_view auto latex f ["gamma_c"; "gamma_n"; "gamma_n_spectral"] (IZR t0) ts 100000 = Ok (Some v1) ->
  traces_view auto latex f ["energy"; "kinetic_energy"; "thermal_energy"; "enstrophy_phi"] (IZR t0) ts 100000 = Ok (Some v2) ->
  exists d', trace_main auto latex f fp (Some p) t0 ts false d = (d', Ok tt) /\ picture d' p = Some v2 /\
    forall p', p' <> p -> picture d' p' = picture d p'.
Proof.
  intros V auto latex f fp p t0 ts d v1 v2 E1 E2. eexists. split; [exact (main_one_path auto latex f fp p t0 ts d v1 v2 E1 E2)|].
  split; [apply picture_here|]. intros p' H. now apply picture_other.
Qed.
Print Assumptions C122_main_one_path.
(** without one there are two files *)
Theorem C122_main_two_paths : forall (V : Type) auto latex (f : h5 V R) fp t0 ts d v1 v2,
  traces_view auto latex f ["gamma_c"; "gamma_n"; "gamma_n_spectral"] (IZR t0) ts 100000 = Ok (Some v1) ->
  traces_view auto latex f ["energy"; "kinetic_energy"; "thermal_energy"; "enstrophy_phi"] (IZR t0) ts 100000 = Ok (Some v2) ->
  exists d' p1 p2, trace_main auto latex f fp None t0 ts false d = (d', Ok tt) /\ p1 <> p2 /\ picture d' p1 = Some v1 /\ picture d' p2 = Some v2.
Proof.
  intros V auto latex f fp t0 ts d v1 v2 E1 E2. destruct (main_two_paths auto latex f fp t0 ts d v1 v2 E1 E2) as (d' & E & A & B).
  exists d', (default_path fp main_fluxes), (default_path fp main_energies). repeat split; trivial. apply default_paths.
Qed.
Print Assumptions C122_main_two_paths.
(** a figure that fails leaves the pictures made before it: the first figure
    is kept when the second fails, and nothing changes when the first fails *)
Theorem C122_main_fails : forall (V : Type) auto latex (f : h5 V R) fp op t0 ts d v1 e,
  (traces_view auto latex f ["gamma_c"; "gamma_n"; "gamma_n_spectral"] (IZR t0) ts 100000 = Ok (Some v1) ->
   traces_view auto latex f ["energy"; "kinetic_energy"; "thermal_energy"; "enstrophy_phi"] (IZR t0) ts 100000 = Exn e ->
   exists d' p, trace_main auto latex f fp op t0 ts false d = (d', Exn e) /\ picture d' p = Some v1 /\ forall p', p' <> p -> picture d' p' = picture d p') /\
  (traces_view auto latex f ["gamma_c"; "gamma_n"; "gamma_n_spectral"] (IZR t0) ts 100000 = Exn e ->
   trace_main auto latex f fp op t0 ts false d = (d, Exn e)).
Proof.
  intros V auto latex f fp op t0 ts d v1 e. split.
  - intros E1 E2. exists (savefig (target op fp main_fluxes) v1 d), (target op fp main_fluxes). split; [|split; [apply picture_here|intros p' H; now apply picture_other]].
    unfold trace_main. change main_fluxes with ["gamma_c"; "gamma_n"; "gamma_n_spectral"] at 1. rewrite E1. change main_energies with ["energy"; "kinetic_energy"; "thermal_energy"; "enstrophy_phi"].
    rewrite E2. reflexivity.
  - intros E1. unfold trace_main. change main_fluxes with ["gamma_c"; "gamma_n"; "gamma_n_spectral"]. now rewrite E1.
Qed.
Print Assumptions C122_main_fails.
Definition main_keeps_both : Prop := forall auto (f : h5 unit R) v1 v2 d', 
  traces_view auto latex_format f main_fluxes 0 300 100000 = Ok (Some v1) -> traces_view auto latex_format f main_energies 0 300 100000 = Ok (Some v2) ->
  trace_main auto latex_format f "a.h5" (Some "a.jpg") 0 300 false [] = (d', Ok tt) -> exists p, picture d' p = Some v1.
Theorem C122_main_refuted : ~ main_keeps_both.
Proof. exact main_loses. Qed.
Print Assumptions C122_main_refuted.

(** the default name: the file's without .h5, when .h5 occurs once *)
Theorem C122_name : forall s props, (forall a b, s <> a ++ ".h5" ++ b) -> default_path (s ++ ".h5") props = s ++ "_" ++ String.concat "-" props ++ ".jpg".
Proof. exact default_stem. Qed.
Print Assumptions C122_name.
Example C122_names : default_path "out/run.h5" main_fluxes = "out/run_gamma_c-gamma_n-gamma_n_spectral.jpg" /\
  default_path "old.h5.d/run.h5" main_fluxes = "old_gamma_c-gamma_n-gamma_n_spectral.jpg".
Proof. split; reflexivity. Qed.

(** ** concrete cases *)
(** limits with a margin *)
Example C122_margin : exists auto, with_margin auto.
Proof. exists auto1. exact auto1_margin. Qed.
Example C122_views : (exists v, comparison_view auto1 latex_format (file 0 [-2; -1] 2) "fullres_" ["gamma_n"] 0 300 100 100000 = Ok (Some v)) /\
  (exists v, traces_view auto1 latex_format (file2 [-2; -1; 3] [5; 6]) ["gamma_n"; "energy"] 0 300 100000 = Ok (Some v)) /\
  (exists v, traces_view auto1 latex_format (file8 1) main_fluxes 0 300 100000 = Ok (Some v)).
Proof.
  split; [|split]; [|destruct (view2 auto1 [-2; -1; 3] [5; 6]) as (v & E & _); [cbn; lia..|now exists v]|destruct (view8 auto1) as (v & w & E & _); now exists v].
  destruct (case_negative auto1) as (v & E & _). now exists v.
Qed.
(** a file with the fluxes and without the energies *)
Definition file9 : h5 unit R :=
  mkH5 (map (fun p => (p, Rows [RNum 1])) main_fluxes) [("frame_dt", AT 1); ("initial_time", AT 0); ("adaptive_step_size", AB false)].
Example C122_fails_case : (exists v, traces_view auto1 latex_format file9 main_fluxes 0 300 100000 = Ok (Some v)) /\
  exists e, traces_view auto1 latex_format file9 main_energies 0 300 100000 = Exn e.
Proof.
  assert (F : fixed_step file9 1 0) by (constructor; try reflexivity; lra).
  split.
  - destruct (traces_time auto1 latex_format file9 1 0 ["gamma_c"; "gamma_n"] "gamma_n_spectral" (fun _ => [1]) 0 300 100000 0 300 F b0 b300) as (v1 & E1 & _ & M1).
    { intros p [<-|[<-|[<-|[]]]]; (split; [reflexivity|cbn; lia]). }
    exists v1. exact E1.
  - eexists. unfold traces_view, plot_timetraces. rewrite (start_fixed _ _ _ _ 0 F b0). reflexivity.
Qed.
