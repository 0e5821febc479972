(** Property C142: files without the attributes of later versions. *)
From Coq Require Import Arith ZArith Bool Reals Lra Lia String List.
From Verif Require Import Num NdArray ModelIO ModelRun ModelRunHW ModelPlot SpecPlot PlotFacts PlotProps PlotCases SpecOld.
Import ListNotations.
Local Open Scope string_scope.
Local Open Scope R_scope.

Section O.
Context {V : Type} (f g : h5 V R).
Hypothesis O : older f g.
Lemma o_ad : is_adaptive f = is_adaptive g.
Proof. destruct O as (_ & A & B & _). unfold is_adaptive. now rewrite A, B. Qed.
Lemma o_in : initial_time f = initial_time g.
Proof. destruct O as (_ & _ & _ & A & B & _). unfold initial_time. now rewrite A, B. Qed.
Lemma o_look k : k <> "adaptive_step_size" -> k <> "initial_time" -> attr_look f k = attr_look g k.
Proof. intros A B. destruct O as (_ & _ & _ & _ & _ & H). unfold attr_look, dlook. now rewrite H. Qed.
Lemma o_nums k : nums f k = nums g k.
Proof. destruct O as (H & _). unfold nums. now rewrite H. Qed.
Lemma o_rows k : rows_len f k = rows_len g k.
Proof. destruct O as (H & _). unfold rows_len. now rewrite H. Qed.
Lemma o_dt : attr_look f "frame_dt" = attr_look g "frame_dt".
Proof. apply o_look; discriminate. Qed.
Lemma o_longest i props m : longest f i props m = longest g i props m.
Proof. revert m. induction props as [|p l IH]; intros m; cbn [longest]; [reflexivity|]. rewrite o_rows. destruct (rows_len g p) as [n|]; cbn [bind]; [|reflexivity]. destruct (_ <=? _)%Z; [reflexivity|apply IH]. Qed.
Lemma o_start t : start_index f t = start_index g t.
Proof. unfold start_index. now rewrite o_ad, o_nums, o_dt. Qed.
Lemma o_curve l p t i s : trace_curve f l p t i s = trace_curve g l p t i s.
Proof. unfold trace_curve, trace_x. now rewrite o_nums, o_ad, o_nums, o_dt. Qed.
Lemma o_traces la props t i s m acc : traces_loop f la props t i s m acc = traces_loop g la props t i s m acc.
Proof.
  revert m acc. induction props as [|p l IH]; intros m acc; cbn [traces_loop]; [reflexivity|]. rewrite o_curve.
  destruct (trace_curve g _ p t i s) as [[c|]|]; cbn [bind]; [|apply IH|reflexivity]. destruct (np_min (cv_y c)); cbn [bind]; [apply IH|reflexivity].
Qed.
Lemma o_plot la props t ts y : plot_timetraces f la props t ts y = plot_timetraces g la props t ts y.
Proof.
  unfold plot_timetraces. rewrite o_start. destruct (start_index g t) as [i|]; cbn [bind]; [|reflexivity]. rewrite o_longest.
  destruct (longest g i props 0) as [[ml|]|]; cbn [bind]; [|reflexivity..]. rewrite o_start, o_in. destruct (_ <? _)%Z; [reflexivity|].
  destruct (start_index g _) as [s|]; cbn [bind]; [|reflexivity]. now rewrite o_traces.
Qed.
Lemma o_comp la pre props t i s a b : comparison_loop f la pre props t i s a b = comparison_loop g la pre props t i s a b.
Proof.
  revert a b. induction props as [|p l IH]; intros a b; cbn [comparison_loop]; [reflexivity|]. rewrite !o_curve. replace (dsets f) with (dsets g) by (symmetry; apply O).
  destruct (trace_curve g _ p t i s) as [c|]; cbn [bind]; [|reflexivity].
  destruct (if dhas _ _ then _ else _) as [q|]; cbn [bind]; [apply IH|reflexivity].
Qed.
Lemma o_int t : (0 <= t)%Z -> later_is_int f t = later_is_int g t.
Proof.
  intros Ht. destruct O as (_ & _ & _ & A & B & _). unfold later_is_int. rewrite A, B. unfold Rltb. apply IZR_le in Ht. destruct (Rlt_dec (IZR t) 0); [lra|reflexivity].
Qed.
Lemma o_end : end_time f = end_time g.
Proof. unfold end_time. now rewrite o_ad, o_nums, o_rows, o_dt. Qed.
Lemma o_comparison la pre props t ts x y : (0 <= t)%Z -> plot_timetrace_comparison f la pre props t ts x y = plot_timetrace_comparison g la pre props t ts x y.
Proof.
  intros Ht. unfold plot_timetrace_comparison. rewrite (o_int t Ht), o_in, o_start, o_end. destruct (start_index g _) as [i|]; cbn [bind]; [|reflexivity].
  destruct (end_time g); cbn [bind]; [|reflexivity]. rewrite o_longest. destruct (longest g i props 0) as [[ml|]|]; cbn [bind]; [|reflexivity..]. rewrite o_start.
  destruct (start_index g _) as [s|]; cbn [bind]; [|reflexivity]. now rewrite o_comp.
Qed.
Lemma o_title : generate_title f = generate_title g.
Proof.
  unfold generate_title. replace (forallb (dhas (attrs f)) title_keys) with (forallb (dhas (attrs g)) title_keys); [reflexivity|].
  destruct O as (_ & _ & _ & _ & _ & H). unfold title_keys, dhas. cbn [forallb]. rewrite !H by discriminate. reflexivity.
Qed.
Lemma o_movie t t1 m s : create_movie_equally_spaced f t t1 m s = create_movie_equally_spaced g t t1 m s.
Proof. unfold create_movie_equally_spaced. now rewrite o_title, o_rows, o_dt, o_in. Qed.
Lemma o_image t : image_row f t = image_row g t.
Proof. unfold image_row. now rewrite o_dt, o_in, o_rows. Qed.
End O.

(** Such a file is plotted like one with fixed steps that starts at 0. *)
Theorem C142_plots : forall (V : Type) (f g : h5 V R), older f g ->
  (forall latex props t0 t0_std cut, plot_timetraces f latex props t0 t0_std cut = plot_timetraces g latex props t0 t0_std cut) /\
  (forall latex prefix props t0 t0_std xtick cut, (0 <= t0)%Z ->
    plot_timetrace_comparison f latex prefix props t0 t0_std xtick cut = plot_timetrace_comparison g latex prefix props t0 t0_std xtick cut) /\
  (forall t0 t1 min_fps speed, create_movie_equally_spaced f t0 t1 min_fps speed = create_movie_equally_spaced g t0 t1 min_fps speed) /\
  (forall t, image_row f t = image_row g t).
Proof.
  intros V f g O. split; [intros; now apply o_plot|]. split; [intros; now apply o_comparison|]. split; [intros; now apply o_movie|]. intros; now apply o_image.
Qed.
Print Assumptions C142_plots.
(** create_movie has no such default: it fails on every file without the
    attribute. *)
Theorem C142_movie_fails : forall (V : Type) (f : h5 V R) t0 t1 min_fps speed, dget (attrs f) "adaptive_step_size" = None ->
  create_movie f t0 t1 min_fps speed = Exn KeyError.
Proof. intros V f t0 t1 m s H. unfold create_movie, dlook. now rewrite H. Qed.
Print Assumptions C142_movie_fails.
Definition old_file (l : list R) (n : nat) : h5 unit R := mkH5 (dsets (file 0 l n)) (filter (fun kv => negb (existsb (String.eqb (fst kv)) ["adaptive_step_size"; "initial_time"])) (attrs (file 0 l n))).
Lemma old_older l n : older (old_file l n) (file 0 l n).
Proof.
  unfold older, old_file. cbn [dsets attrs]. split; [reflexivity|]. destruct (file_fixed 0 l n) as [_ A B _].
  split; [reflexivity|]. split; [exact B|]. split; [reflexivity|]. split; [exact A|].
  intros k K1 K2. generalize (attrs (file 0 l n)). intros d. induction d as [|[k' v] d IH]; [reflexivity|]. cbn [filter fst].
  destruct (existsb (String.eqb k') ["adaptive_step_size"; "initial_time"]) eqn:E; cbn [negb].
  - rewrite IH. cbn [dget]. destruct (String.eqb_spec k k') as [->|]; [|reflexivity]. exfalso. apply existsb_exists in E. destruct E as (q & Q & E).
    apply String.eqb_eq in E. subst q. cbn in Q. intuition congruence.
  - cbn [dget]. now rewrite IH.
Qed.
Theorem C142_movie_refuted : exists f g : h5 unit R, older f g /\ create_movie f 0 None 10 1 = Exn KeyError /\ exists shown, create_movie g 0 None 10 1 = Ok shown.
Proof.
  exists (old_file [5; 6; 7] 3), (file 0 [5; 6; 7] 3). split; [apply old_older|]. split; [now apply C142_movie_fails|].
  destruct (movie_from_start (file 0 [5; 6; 7] 3) 1 3 10 1 (file_fixed 0 _ _) (file_titled 0 _ _) (file_rows 0 _ _) ltac:(lia) ltac:(lia)) as (s & fps & shown & _ & E & _).
  exists (fps, shown). unfold create_movie, dlook. rewrite (fx_ad _ _ _ (file_fixed 0 [5; 6; 7] 3)). cbn [bind attr_bool]. exact E.
Qed.
Print Assumptions C142_movie_refuted.
(** the attributes of a file as run records them, without the two *)
Example C142_case : older (old_file [5; 6; 7] 3) (file 0 [5; 6; 7] 3) /\ plot_timetraces (old_file [5; 6; 7] 3) (fun s => s) ["gamma_n"] 1 1 9 = plot_timetraces (file 0 [5; 6; 7] 3) (fun s => s) ["gamma_n"] 1 1 9.
Proof. pose proof (old_older [5; 6; 7] 3) as O. split; [exact O|]. now apply C142_plots. Qed.
