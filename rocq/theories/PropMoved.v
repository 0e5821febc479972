(** No preferred origin: runs from fields moved by a symmetry of the domain. *)
From Coq Require Import Arith ZArith Bool Reals String List Lia Lra.
Import List.
From Verif Require Import Num NdArray NdFacts Spec SumFacts Cplx DftFacts SpecFourier SpecHW SpecPlasma SpecDiag ModelHW ModelBackend ModelIO ModelRun ModelRunHW SpecIO SpecRun SpecRunHW RunHWWit
  ModelDownsample ModelArgs SpecArgs DsFourier DsField DsTop SpecMoved MovedFacts MovedRun.
Import ListNotations.
Local Open Scope R_scope.
Local Open Scope string_scope.
#[local] Existing Instance TimeR.

(** ** C125 *)
(** initial fields shifted by (sy, sx) cells: same times and properties, every
    frame shifted by the same distance, (ty, tx) cells of the saved grid *)
Theorem C125_shift : forall b a m rnd sy sx ty tx n o q fs fs', args_ok b a (a_props a) m ->
  (sy * Z.of_nat m = ty * Z.of_nat (a_grid a))%Z -> (sx * Z.of_nat m = tx * Z.of_nat (a_grid a))%Z ->
  (fs = None \/ a_force a = true) -> (fs' = None \/ a_force a = true) ->
  let g := a_grid a in
  let T := ftrans g g sy sx in
  let sim n o q := run (hw_sim b rnd g g m m) (run_cfg a) (plasma0 (grid g g n) (grid g g o) (grid g g q)) in
  exists h h', disk_of (sim n o q) fs = Some h /\ disk_of (sim (T n) (T o) (T q)) fs' = Some h' /\
    file_moved m m (ftrans m m ty tx) (a_props a) h h' /\ (add_last (run_cfg a) = true -> state_moved g g T h h').
Proof.
  intros b a m rnd sy sx ty tx n o q fs fs' A Ey Ex Hf Hf' g T sim.
  apply (args_moved b a m rnd T (ftrans m m ty tx) (n, o) q fs fs' A); try assumption.
  - apply eq_sym_tr; try apply A. apply dx_ne0; apply A.
  - apply prop_sym_tr; apply A.
  - apply frame_fnc_shift; try assumption; apply A.
  - intros f i j _ _. reflexivity.
Qed.
Theorem C125_shift2 : forall b a m rnd sy sx ty tx n o q fs fs' N fuel, args_ok b a (effective_props a) m ->
  (sy * Z.of_nat m = ty * Z.of_nat (a_grid a))%Z -> (sx * Z.of_nat m = tx * Z.of_nat (a_grid a))%Z ->
  (fs = None \/ a_force a = true) -> (fs' = None \/ a_force a = true) ->
  (forall k, In k (effective_props a) -> prop_fits k (a_grid a) (a_grid a)) ->
  (forall j, (j < N)%nat -> t_round4 (INR j * a_step a) < a_end a) -> a_end a <= t_round4 (INR N * a_step a) -> (N < fuel)%nat ->
  let g := a_grid a in
  let T := ftrans g g sy sx in
  let sim n o q := run2 (hw_sim b rnd g g m m) (run2_cfg a) fuel (plasma0 (grid g g n) (grid g g o) (grid g g q)) in
  exists h h', disk_of (sim n o q) fs = Some h /\ disk_of (sim (T n) (T o) (T q)) fs' = Some h' /\
    file_moved m m (ftrans m m ty tx) (effective_props a ++ map (String.append "fullres_") (effective_props a))%list h h' /\
    (add_last (run2_cfg a) = true -> state_moved g g T h h').
Proof.
  intros b a m rnd sy sx ty tx n o q fs fs' N fuel A Ey Ex Hf Hf' Hfit H1 H2 Hfu g T sim.
  apply (args_moved2 b a m rnd T (ftrans m m ty tx) (n, o) q fs fs' N fuel A); try assumption.
  - apply eq_sym_tr; try apply A. apply dx_ne0; apply A.
  - apply prop_sym_tr; apply A.
  - apply prop_sym_tr; apply A.
  - apply frame_fnc_shift; try assumption; apply A.
  - intros f i j _ _. reflexivity.
Qed.
(** the same for the reflection of x together with a change of sign, when
    storing rounds a number and its negative alike *)
Theorem C125_mirror : forall b a m rnd n o q fs fs', args_ok b a (a_props a) m -> (forall x, rnd (- x) = - rnd x) ->
  (fs = None \/ a_force a = true) -> (fs' = None \/ a_force a = true) ->
  let g := a_grid a in
  let T := fmirror g in
  let sim n o q := run (hw_sim b rnd g g m m) (run_cfg a) (plasma0 (grid g g n) (grid g g o) (grid g g q)) in
  exists h h', disk_of (sim n o q) fs = Some h /\ disk_of (sim (T n) (T o) (T q)) fs' = Some h' /\
    file_moved m m (fmirror m) (a_props a) h h' /\ (add_last (run_cfg a) = true -> state_moved g g T h h').
Proof.
  intros b a m rnd n o q fs fs' A Hr Hf Hf' g T sim.
  apply (args_moved b a m rnd T (fmirror m) (n, o) q fs fs' A); try assumption.
  - apply eq_sym_mir; try apply A. apply dx_ne0; apply A.
  - apply prop_sym_mir; apply A.
  - apply frame_fnc_mirror; try assumption; apply A.
  - now apply rnd_mir.
Qed.
Theorem C125_mirror2 : forall b a m rnd n o q fs fs' N fuel, args_ok b a (effective_props a) m -> (forall x, rnd (- x) = - rnd x) ->
  (fs = None \/ a_force a = true) -> (fs' = None \/ a_force a = true) ->
  (forall k, In k (effective_props a) -> prop_fits k (a_grid a) (a_grid a)) ->
  (forall j, (j < N)%nat -> t_round4 (INR j * a_step a) < a_end a) -> a_end a <= t_round4 (INR N * a_step a) -> (N < fuel)%nat ->
  let g := a_grid a in
  let T := fmirror g in
  let sim n o q := run2 (hw_sim b rnd g g m m) (run2_cfg a) fuel (plasma0 (grid g g n) (grid g g o) (grid g g q)) in
  exists h h', disk_of (sim n o q) fs = Some h /\ disk_of (sim (T n) (T o) (T q)) fs' = Some h' /\
    file_moved m m (fmirror m) (effective_props a ++ map (String.append "fullres_") (effective_props a))%list h h' /\
    (add_last (run2_cfg a) = true -> state_moved g g T h h').
Proof.
  intros b a m rnd n o q fs fs' N fuel A Hr Hf Hf' Hfit H1 H2 Hfu g T sim.
  apply (args_moved2 b a m rnd T (fmirror m) (n, o) q fs fs' N fuel A); try assumption.
  - apply eq_sym_mir; try apply A. apply dx_ne0; apply A.
  - apply prop_sym_mir; apply A.
  - apply prop_sym_mir; apply A.
  - apply frame_fnc_mirror; try assumption; apply A.
  - now apply rnd_mir.
Qed.

(** a grid of 4 x 4 cells saved as frames of 2 x 2 *)
Definition args4 : run_args := mkArgs 1 false 2 4 1 1 0 1 0 0 true "gamma_n" 0 false 1 1 2 false ["energy"; "kinetic_energy"] true.
Definition wave4 : field := fun _ j => match j with 0%nat => 1 | 2%nat => -1 | _ => 0 end.
Lemma size4 : save_size args4 = 2%Z.
Proof.
  unfold save_size. cbn [a_factor a_grid args4]. destruct (Req_EM_T 2 1); [lra|]. unfold round_div.
  apply (nearest_unique _ _ (INR 4 / 2) (round_nearest _)). left. cbn. replace ((1 + 1 + 1 + 1) / 2 - 2) with 0 by lra. rewrite Rabs_R0. lra.
Qed.
Lemma fits4 n k : In k (effective_props args4) -> prop_fits k n n.
Proof. intros H. cbn in H. unfold prop_fits. destruct H as [<-|[<-|[<-|[]]]]; cbn; tauto. Qed.
Lemma ok4 : args_ok np_backend args4 (a_props args4) 2.
Proof.
  constructor; try (cbn; lia || lra || now left).
  - exact size4.
  - cbn. repeat constructor; cbn; intuition discriminate.
  - intros k H. apply fits4. cbn in H |- *. tauto.
Qed.
Lemma ok4' : args_ok np_backend args4 (effective_props args4) 2.
Proof.
  constructor; try (cbn; lia || lra || now left).
  - exact size4.
  - cbn. repeat constructor; cbn; intuition discriminate.
  - intros k H. now apply fits4.
Qed.
Lemma wave_fft k : rfft1 4 (wave4 0%nat) k = Cadd C1 (Cscal (-1) (wn 4 (- (Z.of_nat k * 2)))).
Proof.
  unfold rfft1. cbn [csum wave4]. change (Z.of_nat 0) with 0%Z. change (Z.of_nat 2) with 2%Z. rewrite Z.mul_0_r. cbn [Z.opp]. rewrite wn_0.
  apply C_eq; cbn [re im Cadd Cscal C0 C1]; ring.
Qed.
Lemma wave_resampled : resample2 2 2 4 4 wave4 0 0 = 1.
Proof.
  unfold resample2. change (resample1 2 4 (fun _ => resample1 2 4 (wave4 0%nat) 0) 0 = 1). rewrite resample1_const by lia.
  rewrite resample1_eq by lia. change (2 / 2 + 1)%nat with 2%nat. cbn [rsum].
  change (rY 2 4 (wave4 0%nat) 0) with (rfft1 4 (wave4 0%nat) 0). change (rY 2 4 (wave4 0%nat) 1) with (Cscal 2 (rfft1 4 (wave4 0%nat) 1)).
  change (Z.of_nat 0) with 0%Z. change (Z.of_nat 1) with 1%Z. rewrite Z.mul_0_r. change (0 * 0)%Z with 0%Z. rewrite !wave_fft, wn_0.
  change (- (Z.of_nat 0 * 2))%Z with 0%Z. change (- (Z.of_nat 1 * 2))%Z with (-2)%Z. rewrite ?wn_0.
  assert (W : wn 4 (-2) = mkC (-1) 0).
  { unfold wn. replace (2 * PI * -2 / INR 4) with (- PI) by (cbn; field). unfold cis. now rewrite cos_neg, sin_neg, cos_PI, sin_PI, Ropp_0. }
  rewrite W. unfold cw. cbn. lra.
Qed.
Lemma wave_lost i j : (i < 2)%nat -> (j < 2)%nat -> resample2 2 2 4 4 (ftrans 4 4 0 1 wave4) i j = 0.
Proof.
  intros Hi Hj. unfold resample2.
  assert (E : forall a, resample1 2 4 (ftrans 4 4 0 1 wave4 a) j = 0).
  { intros a. pose proof (resample1_mirror 2 4 (ftrans 4 4 0 1 wave4 a) j ltac:(lia) ltac:(lia)) as K.
    replace (pidx 2 (- Z.of_nat j)) with j in K by (destruct j as [|[|]]; [reflexivity|reflexivity|lia]).
    rewrite (resample1_ext 2 4 _ (fun i => -1 * ftrans 4 4 0 1 wave4 a i)) in K; [|lia|lia|].
    - rewrite resample1_scal in K by lia. lra.
    - intros c Hc. destruct c as [|[|[|[|]]]]; [..|lia]; unfold ftrans, wave4, sh, pidx; vm_compute Z.to_nat; cbv iota; try lra. }
  rewrite (resample1_ext 2 4 _ (fun _ => 0)); [|lia|lia|intros; apply E]. apply resample1_const; lia.
Qed.
(** a shift that is not a whole number of saved cells: frame 0 is not the
    shifted frame 0, whatever the shift *)
Theorem C125_between_refuted : ~ (forall b a m rnd sy sx n o q, args_ok b a (a_props a) m ->
  let g := a_grid a in
  let T := ftrans g g sy sx in
  let sim n o q := run (hw_sim b rnd g g m m) (run_cfg a) (plasma0 (grid g g n) (grid g g o) (grid g g q)) in
  exists ty tx h h', disk_of (sim n o q) None = Some h /\ disk_of (sim (T n) (T o) (T q)) None = Some h' /\
    file_moved m m (ftrans m m ty tx) (a_props a) h h').
Proof.
  intros H. specialize (H np_backend args4 2%nat (fun x => x) 0%Z 1%Z wave4 wave4 wave4 ok4).
  destruct H as (ty & tx & h & h' & Dh & Dh' & (M & _)).
  destruct (args_run np_backend args4 2 (fun x => x) (wave4, wave4) wave4 None ok4 (or_introl eq_refl)) as (g & _ & Dg & (Fg & _) & _).
  destruct (args_run np_backend args4 2 (fun x => x) (ftrans 4 4 0 1 wave4, ftrans 4 4 0 1 wave4) (ftrans 4 4 0 1 wave4) None ok4 (or_introl eq_refl)) as (g' & _ & Dg' & (Fg' & _) & _).
  cbn [fst snd a_grid args4] in Dg, Dg', Dh, Dh'. 
  assert (h = g) by (rewrite Dh in Dg; now injection Dg). assert (h' = g') by (rewrite Dh' in Dg'; now injection Dg'). subst h h'.
  destruct (M "density" (or_introl eq_refl)) as (l & l' & El & El' & F).
  rewrite Fg in El. rewrite Fg' in El'. injection El as El. injection El' as El'.
  cbn [run_cfg args_cfg recorded_its c_rec a_rec args4] in El, El'. unfold recorded_its in El, El'. cbn [run_cfg args_cfg c_rec a_rec args4] in El, El'.
  destruct (Req_EM_T 0 0) as [_|N]; [|now apply N]. cbn [app map] in El, El'. subst l l'. inversion F as [|x x' r r' (f & E & E') _]; subst.
  cbn [hw_frame hw_states iter_step f_n fst Nat.eqb] in E, E'.
  assert (U : forall u v : arr R, @RFrame (arr R) R u = RFrame v -> u = v) by (intros u v K; now injection K).
  pose proof (U _ _ E) as G. pose proof (U _ _ E') as G'.
  pose proof (grid_inj 2 2 _ _ G 0%nat 0%nat ltac:(lia) ltac:(lia)) as V.
  pose proof (grid_inj 2 2 _ _ G' (pidx 2 (- ty)) (pidx 2 (- tx)) ltac:(apply pidx_lt; lia) ltac:(apply pidx_lt; lia)) as V'.
  unfold frame_fnc in V, V'. cbn [a_factor a_grid args4] in V, V'. destruct (Req_EM_T 2 1); [lra|].
  rewrite wave_resampled in V. rewrite wave_lost in V' by (apply pidx_lt; lia). unfold ftrans, sh in V'.
  replace (pidx 2 (Z.of_nat (pidx 2 (- ty)) + ty)) with 0%nat in V' by (rewrite pidx_add by lia; now rewrite Z.add_opp_diag_l).
  replace (pidx 2 (Z.of_nat (pidx 2 (- tx)) + tx)) with 0%nat in V' by (rewrite pidx_add by lia; now rewrite Z.add_opp_diag_l).
  lra.
Qed.
(** the hypotheses of the theorems on the 4 x 4 grid, with a shift by two
    cells: one cell of the saved frames *)
Example C125_nonvacuous : args_ok np_backend args4 (a_props args4) 2 /\ args_ok np_backend args4 (effective_props args4) 2 /\
  (2 * Z.of_nat 2 = 1 * Z.of_nat (a_grid args4))%Z /\ (forall k, In k (effective_props args4) -> prop_fits k 4 4) /\
  (forall j, (j < 2)%nat -> t_round4 (INR j * a_step args4) < a_end args4) /\ a_end args4 <= t_round4 (INR 2 * a_step args4) /\
  add_last (run_cfg args4) = true /\ ~ agree 4 4 (ftrans 4 4 0 2 wave4) wave4 /\ ~ agree 4 4 (fmirror 4 wave4) wave4.
Proof.
  split; [exact ok4|]. split; [exact ok4'|]. split; [reflexivity|]. split; [intros k; apply fits4|]. split; [exact wit_times2|].
  split; [apply (wit_end 2); cbn; ring|]. split; [|split].
  - unfold add_last, run_cfg, args_cfg, down_fnc. cbn [c_down a_factor args4]. destruct (Req_EM_T 2 1); [lra|reflexivity].
  - intros H. pose proof (H 0%nat 0%nat ltac:(lia) ltac:(lia)) as K. unfold ftrans, wave4, sh, pidx in K. vm_compute Z.to_nat in K. cbv iota in K. lra.
  - intros H. pose proof (H 0%nat 0%nat ltac:(lia) ltac:(lia)) as K. unfold fmirror, wave4, pidx in K. vm_compute Z.to_nat in K. cbv iota in K. lra.
Qed.
Print Assumptions C125_shift.
Print Assumptions C125_shift2.
Print Assumptions C125_mirror.
Print Assumptions C125_mirror2.
Print Assumptions C125_between_refuted.
