(** Concrete files for the theorems about the axes of the time-trace plots. *)
From Coq Require Import Arith ZArith Bool Reals Lra Lia String List.
Import List.
From Verif Require Import Num NdArray ModelIO ModelRun ModelRunHW ModelPlot ModelTrace ModelHelpers SpecPlot SpecTrace PlotFacts PlotProps PlotCases TraceFacts.
Import ListNotations.
Local Open Scope string_scope.
Local Open Scope R_scope.

(** one more than the largest and one less than the smallest value (or 0) *)
Definition auto1 (cs : list curve) : R * R :=
  let ys := List.concat (map cv_y cs) in (fold_right Rmin 0 ys - 1, fold_right Rmax 0 ys + 1).
Lemma fold_min ys y : In y ys -> fold_right Rmin 0 ys <= y.
Proof. induction ys as [|a ys IH]; intros []; cbn [fold_right]; [subst; apply Rmin_l|]. eapply Rle_trans; [apply Rmin_r|now apply IH]. Qed.
Lemma fold_max ys y : In y ys -> y <= fold_right Rmax 0 ys.
Proof. induction ys as [|a ys IH]; intros []; cbn [fold_right]; [subst; apply Rmax_l|]. eapply Rle_trans; [now apply IH|apply Rmax_r]. Qed.
Lemma auto1_margin : with_margin auto1.
Proof.
  intros cs c y Hc Hy. unfold auto1. cbn [fst snd].
  assert (H : In y (List.concat (map cv_y cs))) by (apply in_concat; exists (cv_y c); split; [now apply in_map|exact Hy]).
  pose proof (fold_min _ _ H). pose proof (fold_max _ _ H). lra.
Qed.

Lemma b300 : INR 300 * 1 <= 300 - 0 < (INR 300 + 1) * 1.
Proof. rewrite INR_IZR_INZ. replace (Z.of_nat 300) with 300%Z by reflexivity. lra. Qed.
Lemma b0 : INR 0 * 1 <= 0 < (INR 0 + 1) * 1.
Proof. cbn. lra. Qed.

Lemma case_negative auto : exists v, comparison_view auto latex_format (file 0 [-2; -1] 2) "fullres_" ["gamma_n"] 0 300 100 100000 = Ok (Some v) /\
  exists c, shown v c /\ cv_y c = [-2; -1].
Proof.
  set (f := file 0 [-2; -1] 2).
  destruct (comparison_time auto latex_format f 1 0 "fullres_" ["gamma_n"] 0 300 100 100000 2 2 0 300 (file_fixed _ _ _) (file_rows _ _ _)) as (v & E & _).
  1-2, 4: cbn; lra || lia. 1: discriminate. 1: apply b0. 1: apply b300.
  { intros p [<-|[]]. split; [exists [-2; -1]; split; [apply file_holds|reflexivity]|]. intros Z. vm_compute in Z. discriminate. }
  exists v. split; [exact E|]. unfold comparison_view in E.
  destruct (plot_timetrace_comparison _ _ _ _ _ _ _ _) as [[[[top bottom] cut]|]|] eqn:Ep; cbn [bind] in E; try discriminate.
  destruct (start_index _ _); cbn [bind] in E; [|discriminate]. destruct (comparison_x_limits _ _ _ _ _ _); cbn [bind] in E; [|discriminate].
  injection E as <-.
  destruct (comparison_fixed f 1 0 latex_format "fullres_" ["gamma_n"] (fun _ => [-2; -1]) 0 300 100 100000 0 300 top bottom cut (file_fixed _ _ _)) as [-> _].
  - rewrite Rmax_left by lra. apply b0.
  - apply b300.
  - apply one_prop; [apply file_holds|cbn; lia].
  - exact Ep.
  - eexists. split; [eexists; split; [left; reflexivity|left; reflexivity]|reflexivity].
Qed.
Lemma negative_hidden : ~ (forall auto (f : h5 unit R) dt t_in v, with_margin auto -> fixed_step f dt t_in ->
  comparison_view auto latex_format f "fullres_" ["gamma_n"] 0 300 100 100000 = Ok (Some v) ->
  forall c, shown v c -> exists y, In y (cv_y c) /\ visible (v_y v) y).
Proof.
  intros H. destruct (case_negative auto1) as (v & E & c & Hc & Ey). destruct (H auto1 _ _ _ v auto1_margin (file_fixed _ _ _) E c Hc) as (y & Hy & Hv).
  assert (P : 0 <= 100000) by lra. apply (comparison_visible _ _ _ _ _ _ _ _ _ v auto1_margin P E c y Hc Hy) in Hv. rewrite Ey in Hy. destruct Hy as [<-|[<-|[]]]; lra.
Qed.

(** two properties *)
Definition file2 (g e : list R) : h5 unit R :=
  mkH5 [("density", Rows (repeat (RFrame tt) (List.length g))); ("gamma_n", Rows (map RNum g)); ("energy", Rows (map RNum e))]
    [("frame_dt", AT 1); ("initial_time", AT 0); ("adaptive_step_size", AB false)].
Lemma file2_fixed g e : fixed_step (file2 g e) 1 0.
Proof. constructor; try reflexivity. lra. Qed.
Lemma view2 auto g e : (0 < List.length g)%nat -> (0 < List.length e)%nat -> exists v, traces_view auto latex_format (file2 g e) ["gamma_n"; "energy"] 0 300 100000 = Ok (Some v) /\
  v_x v = Some (0, 0 + (0 + INR (List.length e - 1 - 0) * 1)) /\
  map cv_x (List.concat (v_panels v)) = [map (fun k => 0 + INR k * 1) (seq 0 (List.length g - 0)); map (fun k => 0 + INR k * 1) (seq 0 (List.length e - 0))].
Proof.
  intros Hg He. apply (traces_time auto latex_format (file2 g e) 1 0 ["gamma_n"] "energy" (fun p => if String.eqb p "energy" then e else g) 0 300 100000 0 300 (file2_fixed g e) b0 b300).
  intros p [<-|[<-|[]]]; (split; [reflexivity|cbn; lia]).
Qed.
Lemma in_concat_shown v c : In c (List.concat (v_panels v)) -> shown v c.
Proof. intros H. apply in_concat in H. destruct H as (p & Hp & Hc). exists p. now split. Qed.
Lemma short_hides : ~ (forall auto (f : h5 unit R) dt t_in v l, fixed_step f dt t_in ->
  traces_view auto latex_format f ["gamma_n"; "energy"] 0 300 100000 = Ok (Some v) -> v_x v = Some l ->
  forall c x, shown v c -> In x (cv_x c) -> visible l x).
Proof.
  intros H. destruct (view2 auto1 [1; 2; 3] [5; 6]) as (v & E & X & M); [cbn; lia..|]. specialize (H auto1 _ _ _ v _ (file2_fixed _ _) E X).
  destruct (List.concat (v_panels v)) as [|c cs] eqn:Ec; [discriminate|]. cbn [map] in M. injection M as M _. specialize (H c (0 + INR 2 * 1)).
  assert (K : visible (0, 0 + (0 + INR (List.length [5; 6] - 1 - 0) * 1)) (0 + INR 2 * 1)).
  { apply H; [apply in_concat_shown; rewrite Ec; now left|]. rewrite M. cbn. tauto. }
  unfold visible in K. cbn in K. rewrite Rmax_right in K by lra. lra.
Qed.
Lemma end_differs : ~ (forall auto (f : h5 unit R) dt t_in (t0 : Z) v l, fixed_step f dt t_in ->
  traces_view auto latex_format f ["gamma_n"] (IZR t0) 300 100000 = Ok (Some v) -> v_x v = Some l ->
  forall c, shown v c -> snd l = last (cv_x c) 0).
Proof.
  intros H. destruct (traces_time auto1 latex_format (file 0 [1; 2; 3] 3) 1 0 [] "gamma_n" (fun _ => [1; 2; 3]) 1 300 100000 1 300 (file_fixed _ _ _)) as (v & E & X & M).
  - cbn. lra.
  - apply b300.
  - apply one_prop; [apply file_holds|cbn; lia].
  - specialize (H auto1 _ _ _ 1%Z v _ (file_fixed _ _ _) E X). cbn [app map] in M.
    destruct (List.concat (v_panels v)) as [|c cs] eqn:Ec; [discriminate|]. cbn [map] in M. injection M as M _. specialize (H c ltac:(apply in_concat_shown; rewrite Ec; now left)).
    rewrite M in H. cbn in H. lra.
Qed.

(** all properties of the script *)
Definition file8 (x : R) : h5 unit R :=
  mkH5 (map (fun p => (p, Rows [RNum x])) main_props) [("frame_dt", AT 1); ("initial_time", AT 0); ("adaptive_step_size", AB false)].
Lemma view8 auto : exists v1 v2, traces_view auto latex_format (file8 1) main_fluxes 0 300 100000 = Ok (Some v1) /\
  traces_view auto latex_format (file8 1) main_energies 0 300 100000 = Ok (Some v2) /\
  List.length (List.concat (v_panels v1)) = 3%nat /\ List.length (List.concat (v_panels v2)) = 4%nat.
Proof.
  assert (F : fixed_step (file8 1) 1 0) by (constructor; try reflexivity; lra).
  destruct (traces_time auto latex_format (file8 1) 1 0 ["gamma_c"; "gamma_n"] "gamma_n_spectral" (fun _ => [1]) 0 300 100000 0 300 F b0 b300) as (v1 & E1 & _ & M1).
  { intros p [<-|[<-|[<-|[]]]]; (split; [reflexivity|cbn; lia]). }
  destruct (traces_time auto latex_format (file8 1) 1 0 ["energy"; "kinetic_energy"; "thermal_energy"] "enstrophy_phi" (fun _ => [1]) 0 300 100000 0 300 F b0 b300) as (v2 & E2 & _ & M2).
  { intros p [<-|[<-|[<-|[<-|[]]]]]; (split; [reflexivity|cbn; lia]). }
  exists v1, v2. split; [exact E1|]. split; [exact E2|]. apply (f_equal (@List.length _)) in M1, M2. rewrite !map_length in M1, M2. split; assumption.
Qed.
Lemma main_loses : ~ (forall auto (f : h5 unit R) v1 v2 d', 
  traces_view auto latex_format f main_fluxes 0 300 100000 = Ok (Some v1) -> traces_view auto latex_format f main_energies 0 300 100000 = Ok (Some v2) ->
  trace_main auto latex_format f "a.h5" (Some "a.jpg") 0 300 false [] = (d', Ok tt) -> exists p, picture d' p = Some v1).
Proof.
  intros H. destruct (view8 auto1) as (v1 & v2 & E1 & E2 & L1 & L2).
  destruct (H auto1 (file8 1) v1 v2 _ E1 E2 (main_one_path auto1 latex_format (file8 1) "a.h5" "a.jpg" 0 300 [] v1 v2 E1 E2)) as (p & E).
  unfold picture, savefig in E. cbn [filter find fst] in E. destruct (String.eqb "a.jpg" p); [|discriminate]. cbn [snd] in E. injection E as E. rewrite E in L2. lia.
Qed.
