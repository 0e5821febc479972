(** Continued HW simulations. *)
From Coq Require Import Arith ZArith Bool Reals String List Lia Lra Permutation.
Import List.
From Verif Require Import Num NdArray NdFacts Spec GradFacts SumFacts LapFacts Cplx DftFacts SpecFourier SpecHW SpecPlasma SpecDiag
  ModelGradients ModelPoisson ModelProperties ModelHW ModelBackend HWFacts StepFacts ModelSpectral DiagFacts DiagProps
  ModelIO ModelRun ModelRunHW SpecIO SpecRun SpecRunHW IOFacts PropsFacts RunFull Run2Props RunTop RunTop2 RunHWFacts RunHWProps.
Import ListNotations.
Local Open Scope R_scope.
Local Open Scope string_scope.
#[local] Existing Instance TimeR.

Lemma all_zero_false ny nx f : nonzero_on ny nx f -> all_zero (grid ny nx f) = false.
Proof.
  intros (i & j & Hi & Hj & H). unfold all_zero. apply not_true_is_false. intros E. rewrite forallb_forall in E.
  assert (Hin : In (f i j) (data (grid ny nx f))).
  { unfold grid, stack, build. cbn [data]. apply in_map_iff. exists [j; i]. split; [reflexivity|]. apply in_indices. repeat constructor; assumption. }
  apply E in Hin. destruct (Req_EM_T (f i j) 0); [contradiction|discriminate].
Qed.

Section Cont.
Variables (b : backend R) (p : par) (ny nx ys xs : nat) (k0 : R) (dsf : field -> field) (c : cfg (arr R) R) (rnd : R -> R).
Hypothesis HS : hw_setup b p ny nx ys xs k0 dsf c.
Variable phys : physics (T := R).
Hypothesis Hphys : hw_of_phys b phys = Ok (hw_of b p (c_dx c) true).
Hypothesis Hpdx : dget phys "dx" = Some (AT (c_dx c)).
Hypothesis Hfit : forall k, In k (c_props c) -> prop_fits k ny nx.
Notation HW_ := (hw_sim b rnd ny nx ys xs).
Notation dx := (c_dx c).
Notation dt := (c_step c).
Notation dxs := (domain_dx k0 xs).
Notation ds := (ds c).
Notation gp := (gp ny nx).
Notation traj := (traj p ny nx c).
Notation to_log := (to_log ny nx).

Definition cfrs (y0 : field * field) (a : R) (js : list nat) : list (frame * R) :=
  map (fun j => (cont_frame p ny nx dx dt y0 a j, a + INR j * dt)) js.
Lemma cfrs_fst y0 a js : map fst (cfrs y0 a js) = map (cont_frame p ny nx dx dt y0 a) js.
Proof. unfold cfrs. now rewrite map_map. Qed.
Lemma loop_log_cfrs y0 a n : loop_log c (time2 c a) (traj y0 a) n = to_log (cfrs y0 a (cont_its c a n)).
Proof.
  unfold loop_log, SpecRun.frames, RunHWProps.to_log, cfrs, cont_its. rewrite map_map.
  rewrite (filter_ext (recorded c (time2 c a)) (fun j => (if Rle_dec (c_rec c) (a + INR j * c_step c) then true else false) && (Z.of_nat j mod c_snaps c =? 0)%Z)).
  - apply map_ext. intros j. rewrite time2_R. reflexivity.
  - intros j. unfold recorded. now rewrite time2_R.
Qed.

Definition oldrows (f : h5 (arr R) R) (k : string) : list (row (arr R) R) := match dget (dsets f) k with Some (Rows l) => l | _ => [] end.

Lemma hw_run2_continued pl0 f frames0 y0 phiS a n fuel :
  c_force c = false -> c_continue c = true ->
  continue_h5_file (Some f) = Ok (mkLoaded (grid ny nx (fst y0)) (grid ny nx (snd y0)) (grid ny nx phiS) a, phys) ->
  nonzero_on ny nx (fst y0) -> nonzero_on ny nx (snd y0) ->
  file_frames rnd dsf ys xs frames0 f ->
  (forall k, In k (c_props c) -> file_fullres rnd ny nx dx (pc1 p) frames0 f k) ->
  (add_last c = true -> forall k, In k state_keys -> exists v, dget (dsets f) k = Some (Whole v)) ->
  (exists fdt, dget (attrs f) "x_save" = Some (AZ (Z.of_nat xs)) /\ dget (attrs f) "y_save" = Some (AZ (Z.of_nat ys)) /\
   dget (attrs f) "k0" = Some (AT k0) /\ dget (attrs f) "c1" = Some (AT (pc1 p)) /\ dget (attrs f) "frame_dt" = Some fdt) ->
  (forall j, (j < n)%nat -> t_round4 (a + INR j * dt) < c_end c) -> c_end c <= t_round4 (a + INR n * dt) -> (n < fuel)%nat ->
  let all := map (cont_frame p ny nx dx dt y0 a) (cont_its c a n) in
  let frames := if Rlt_dec (c_rec c) (a + INR n * dt) then all else firstn (c_blen c * (length all / c_blen c)) all in
  exists g, result_of (run2 HW_ c fuel pl0) (Some f) = Ok tt
    /\ disk_of (run2 HW_ c fuel pl0) (Some f) = Some g
    /\ attrs g = attrs f
    /\ file_frames rnd dsf ys xs (frames0 ++ frames) g
    /\ forall k, In k (c_props c) -> file_prop rnd dsf ys xs dxs (pc1 p) (frames0 ++ frames) g k
                                  /\ file_fullres rnd ny nx dx (pc1 p) (frames0 ++ frames) g k.
Proof.
  intros Hfo Hc Hld Zn Zo FF FR Hst (fdt & Ex & Ey & Ek & Ec & Ef) H1 H2 Hfu all frames.
  pose proof (goes2_ok b p ny nx ys xs k0 dsf c rnd HS phys Hphys Hpdx Hfit y0 phiS a n H1 H2) as G.
  assert (HC : continues HW_ f phys (gp (fst y0) (snd y0) phiS a)).
  { eexists. split; [exact Hld|]. split; [reflexivity|]. unfold check_loaded.
    cbn [hw_sim s_nan s_zero s_nanT RunHWProps.gp p_density p_omega p_phi p_age l_density l_omega l_phi l_age].
    rewrite !all_zero_false by assumption. reflexivity. }
  destruct FF as (Fn & Fo & Fp & Ft).
  assert (EL : forall m, firstn m (to_log (cfrs y0 a (cont_its c a n))) = to_log (firstn m (cfrs y0 a (cont_its c a n))))
    by (intros; unfold RunHWProps.to_log; apply firstn_map).
  assert (El : length (to_log (cfrs y0 a (cont_its c a n))) = length all) by (unfold RunHWProps.to_log, cfrs, all; now rewrite !map_length).
  edestruct (run2_continued HW_ c (hs_nodup _ _ _ _ _ _ _ _ _ HS) (is_frame ys xs) pl0 f phys (gp (fst y0) (snd y0) phiS a)
     (grid ny nx (invlap ny nx dx (snd y0))) (traj y0 a) n ds (pv p ny nx c) fuel (oldrows f)) as (g & R1 & D1 & Rec & A1 & S1 & PR).
  - apply HS.
  - exact Hfo.
  - exact Hc.
  - apply HS.
  - pose proof (hs_snaps _ _ _ _ _ _ _ _ _ HS). apply Z.eqb_neq. lia.
  - reflexivity.
  - exact HC.
  - intros k Hk. unfold ks2 in Hk. apply in_app_iff in Hk. unfold oldrows. destruct Hk as [Hk|Hk].
    + cbn in Hk. destruct Hk as [<-|[<-|[<-|[<-|[]]]]]; [rewrite Fn|rewrite Fo|rewrite Fp|rewrite Ft]; reflexivity.
    + apply in_map_iff in Hk. destruct Hk as (q & <- & Hq). unfold fr. rewrite (FR q Hq). reflexivity.
  - assert (E : forall k, In k field_keys -> length (oldrows f k) = length frames0).
    { intros k Hk. unfold oldrows. cbn in Hk. destruct Hk as [<-|[<-|[<-|[<-|[]]]]]; [rewrite Fn|rewrite Fo|rewrite Fp|rewrite Ft]; apply map_length. }
    intros k k' Hk Hk'. now rewrite !E.
  - exact Hst.
  - exact (props_apart_ok b p ny nx ys xs k0 dsf c rnd HS).
  - eapply (props_ok b p ny nx ys xs k0 dsf c rnd HS); eassumption.
  - exact G.
  - exact Hfu.
  - cbn [p_age RunHWProps.gp]. rewrite loop_log_cfrs, EL.
    apply (rows_frames b p ny nx ys xs k0 dsf c rnd HS). intros k Hk. apply Forall_forall. intros r Hr. unfold oldrows in Hr.
    cbn in Hk. destruct Hk as [<-|[<-|[<-|[]]]]; [rewrite Fn in Hr|rewrite Fp in Hr|rewrite Fo in Hr];
      apply in_map_iff in Hr; destruct Hr as (x & <- & _); apply is_frame_grid.
  - cbn [p_age RunHWProps.gp] in Rec, PR. rewrite loop_log_cfrs, EL, El in Rec, PR. rewrite time2_R in Rec, PR.
    assert (Emf : forall m, map fst (firstn m (cfrs y0 a (cont_its c a n))) = firstn m all).
    { intros m. rewrite <- firstn_map, cfrs_fst. reflexivity. }
    set (m := if nltb (c_rec c) (a + INR n * dt) then length all else (c_blen c * (length all / c_blen c))%nat) in *.
    assert (EF : firstn m all = frames).
    { unfold m, frames. cbn [nltb TimeR t_num NumR]. destruct (Rlt_dec (c_rec c) (a + INR n * dt)); [apply firstn_all|reflexivity]. }
    exists g. split; [exact R1|]. split; [exact D1|]. split; [exact A1|].
    destruct Rec as [Rec Rec2].
    assert (En : oldrows f "density" = rsn ys xs dsf rnd frames0) by (unfold oldrows; rewrite Fn; reflexivity).
    assert (Eo : oldrows f "omega" = rso ys xs dsf rnd frames0) by (unfold oldrows; rewrite Fo; reflexivity).
    assert (Epp : oldrows f "phi" = rsp ys xs dsf rnd frames0) by (unfold oldrows; rewrite Fp; reflexivity).
    assert (Et : oldrows f "time" = rst rnd frames0) by (unfold oldrows; rewrite Ft; reflexivity).
    split.
    + pose proof (Rec "density" ltac:(cbn; tauto)) as Gn. pose proof (Rec "omega" ltac:(cbn; tauto)) as Go.
      pose proof (Rec "phi" ltac:(cbn; tauto)) as Gp. pose proof (Rec "time" ltac:(cbn; tauto)) as Gt.
      rewrite (rows_n b p ny nx ys xs k0 dsf c rnd HS), En, Emf, EF in Gn. rewrite (rows_o b p ny nx ys xs k0 dsf c rnd HS), Eo, Emf, EF in Go.
      rewrite (rows_p b p ny nx ys xs k0 dsf c rnd HS), Epp, Emf, EF in Gp. rewrite (rows_t b ny nx ys xs c rnd), Et, Emf, EF in Gt.
      unfold file_frames. rewrite Gn, Go, Gp, Gt. unfold rsn, rso, rsp, rst. rewrite <- !map_app. auto.
    + intros k Hk. split.
      * unfold file_prop. rewrite (PR k Hk). rewrite (rows_n b p ny nx ys xs k0 dsf c rnd HS), (rows_p b p ny nx ys xs k0 dsf c rnd HS), (rows_o b p ny nx ys xs k0 dsf c rnd HS), Emf, EF, En, Eo, Epp.
        replace (rsn ys xs dsf rnd frames0 ++ rsn ys xs dsf rnd frames)%list with (rsn ys xs dsf rnd (frames0 ++ frames)) by apply map_app.
        replace (rsp ys xs dsf rnd frames0 ++ rsp ys xs dsf rnd frames)%list with (rsp ys xs dsf rnd (frames0 ++ frames)) by apply map_app.
        replace (rso ys xs dsf rnd frames0 ++ rso ys xs dsf rnd frames)%list with (rso ys xs dsf rnd (frames0 ++ frames)) by apply map_app.
        do 2 f_equal. now apply (prop_rows_ok b p ny nx ys xs k0 dsf c rnd HS).
      * specialize (Rec2 k Hk). unfold file_fullres. unfold fr in Rec2. rewrite Rec2. do 2 f_equal.
        rewrite map_app. f_equal. { unfold oldrows. now rewrite (FR k Hk). }
        rewrite <- EF, <- Emf. unfold RunHWProps.to_log. rewrite !map_map. apply map_ext. intros x. cbn [snd fst hw_sim s_f32T].
        now rewrite (pv_gp b p ny nx ys xs k0 dsf c rnd HS Hfit).
Qed.

(** run.py: the recorded times start again at dt *)
Definition cfrs1 (y0 : field * field) (a : R) (js : list nat) : list (frame * R) :=
  map (fun j => (cont_frame p ny nx dx dt y0 0 j, a + INR j * dt)) js.
Lemma cfrs1_fst y0 a js : map fst (cfrs1 y0 a js) = map (cont_frame p ny nx dx dt y0 0) js.
Proof. unfold cfrs1. now rewrite map_map. Qed.
Lemma loop_log_cfrs1 y0 a n : loop_log c (time1 c) (traj y0 a) n = to_log (cfrs1 y0 a (cont_its c 0 n)).
Proof.
  unfold loop_log, SpecRun.frames, RunHWProps.to_log, cfrs1, cont_its. rewrite map_map.
  rewrite (filter_ext (recorded c (time1 c)) (fun j => (if Rle_dec (c_rec c) (0 + INR j * c_step c) then true else false) && (Z.of_nat j mod c_snaps c =? 0)%Z)).
  - apply map_ext. intros j. rewrite time1_R. cbn [fst snd cont_frame f_t f_n f_o f_p]. rewrite Rplus_0_l. reflexivity.
  - intros j. unfold recorded. rewrite time1_R, Rplus_0_l. reflexivity.
Qed.
Lemma hw_run_continued pl0 f frames0 y0 phiS a :
  c_force c = false -> c_continue c = true ->
  continue_h5_file (Some f) = Ok (mkLoaded (grid ny nx (fst y0)) (grid ny nx (snd y0)) (grid ny nx phiS) a, phys) ->
  nonzero_on ny nx (fst y0) -> nonzero_on ny nx (snd y0) ->
  file_frames rnd dsf ys xs frames0 f ->
  (add_last c = true -> forall k, In k state_keys -> exists v, dget (dsets f) k = Some (Whole v)) ->
  (exists fdt, dget (attrs f) "x_save" = Some (AZ (Z.of_nat xs)) /\ dget (attrs f) "y_save" = Some (AZ (Z.of_nat ys)) /\
   dget (attrs f) "k0" = Some (AT k0) /\ dget (attrs f) "c1" = Some (AT (pc1 p)) /\ dget (attrs f) "frame_dt" = Some fdt) ->
  let frames := map (cont_frame p ny nx dx dt y0 0) (cont_its c 0 (Z.to_nat (R_trunc ((c_end c - a) / dt)))) in
  exists g, result_of (run HW_ c pl0) (Some f) = Ok tt
    /\ disk_of (run HW_ c pl0) (Some f) = Some g
    /\ attrs g = attrs f
    /\ file_frames rnd dsf ys xs (frames0 ++ frames) g
    /\ forall k, In k (c_props c) -> file_prop rnd dsf ys xs dxs (pc1 p) (frames0 ++ frames) g k.
Proof.
  intros Hfo Hc Hld Zn Zo FF Hst (fdt & Ex & Ey & Ek & Ec & Ef) frames.
  pose proof (goes_ok b p ny nx ys xs k0 dsf c rnd HS phys Hphys Hpdx y0 phiS a) as G.
  assert (HC : continues HW_ f phys (gp (fst y0) (snd y0) phiS a)).
  { eexists. split; [exact Hld|]. split; [reflexivity|]. unfold check_loaded.
    cbn [hw_sim s_nan s_zero s_nanT RunHWProps.gp p_density p_omega p_phi p_age l_density l_omega l_phi l_age].
    rewrite !all_zero_false by assumption. reflexivity. }
  destruct FF as (Fn & Fo & Fp & Ft).
  edestruct (run_continued_full HW_ c (is_frame ys xs) pl0 f phys (gp (fst y0) (snd y0) phiS a)
     (grid ny nx (invlap ny nx dx (snd y0))) (traj y0 a)) with (ds := ds) (old := oldrows f) as (g & R1 & D1 & Rec & A1 & S1 & PR & _).
  - apply HS.
  - exact Hfo.
  - exact Hc.
  - apply HS.
  - pose proof (hs_snaps _ _ _ _ _ _ _ _ _ HS). apply Z.eqb_neq. lia.
  - exact HC.
  - intros k Hk. unfold oldrows. cbn in Hk. destruct Hk as [<-|[<-|[<-|[<-|[]]]]]; [rewrite Fn|rewrite Fo|rewrite Fp|rewrite Ft]; reflexivity.
  - assert (E : forall k, In k field_keys -> length (oldrows f k) = length frames0).
    { intros k Hk. unfold oldrows. cbn in Hk. destruct Hk as [<-|[<-|[<-|[<-|[]]]]]; [rewrite Fn|rewrite Fo|rewrite Fp|rewrite Ft]; apply map_length. }
    intros k k' Hk Hk'. now rewrite !E.
  - exact Hst.
  - exact G.
  - exact (apart1_ok b p ny nx ys xs k0 dsf c rnd HS).
  - eapply (props_ok b p ny nx ys xs k0 dsf c rnd HS); eassumption.
  - cbn [p_age RunHWProps.gp]. rewrite loop_log_cfrs1.
    apply (rows_frames b p ny nx ys xs k0 dsf c rnd HS). intros k Hk. apply Forall_forall. intros r Hr. unfold oldrows in Hr.
    cbn in Hk. destruct Hk as [<-|[<-|[<-|[]]]]; [rewrite Fn in Hr|rewrite Fp in Hr|rewrite Fo in Hr];
      apply in_map_iff in Hr; destruct Hr as (x & <- & _); apply is_frame_grid.
  - cbn [p_age RunHWProps.gp] in Rec, PR. rewrite loop_log_cfrs1 in Rec, PR.
    exists g. split; [exact R1|]. split; [exact D1|]. split; [exact A1|].
    assert (En : oldrows f "density" = rsn ys xs dsf rnd frames0) by (unfold oldrows; rewrite Fn; reflexivity).
    assert (Eo : oldrows f "omega" = rso ys xs dsf rnd frames0) by (unfold oldrows; rewrite Fo; reflexivity).
    assert (Epp : oldrows f "phi" = rsp ys xs dsf rnd frames0) by (unfold oldrows; rewrite Fp; reflexivity).
    assert (Et : oldrows f "time" = rst rnd frames0) by (unfold oldrows; rewrite Ft; reflexivity).
    split.
    + pose proof (Rec "density" ltac:(cbn; tauto)) as Gn. pose proof (Rec "omega" ltac:(cbn; tauto)) as Go.
      pose proof (Rec "phi" ltac:(cbn; tauto)) as Gp. pose proof (Rec "time" ltac:(cbn; tauto)) as Gt.
      rewrite (rows_n b p ny nx ys xs k0 dsf c rnd HS), En, cfrs1_fst in Gn. rewrite (rows_o b p ny nx ys xs k0 dsf c rnd HS), Eo, cfrs1_fst in Go.
      rewrite (rows_p b p ny nx ys xs k0 dsf c rnd HS), Epp, cfrs1_fst in Gp. rewrite (rows_t b ny nx ys xs c rnd), Et, cfrs1_fst in Gt.
      unfold file_frames. rewrite Gn, Go, Gp, Gt. unfold rsn, rso, rsp, rst. rewrite <- !map_app. auto.
    + intros k Hk. unfold file_prop. rewrite (PR k Hk). rewrite (rows_n b p ny nx ys xs k0 dsf c rnd HS), (rows_p b p ny nx ys xs k0 dsf c rnd HS), (rows_o b p ny nx ys xs k0 dsf c rnd HS), cfrs1_fst, En, Eo, Epp.
      fold frames.
      replace (rsn ys xs dsf rnd frames0 ++ rsn ys xs dsf rnd frames)%list with (rsn ys xs dsf rnd (frames0 ++ frames)) by apply map_app.
      replace (rsp ys xs dsf rnd frames0 ++ rsp ys xs dsf rnd frames)%list with (rsp ys xs dsf rnd (frames0 ++ frames)) by apply map_app.
      replace (rso ys xs dsf rnd frames0 ++ rso ys xs dsf rnd frames)%list with (rso ys xs dsf rnd (frames0 ++ frames)) by apply map_app.
      do 2 f_equal. now apply (prop_rows_ok b p ny nx ys xs k0 dsf c rnd HS).
Qed.
End Cont.
