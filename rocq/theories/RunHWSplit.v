(** A simulation done in two runs. *)
From Coq Require Import Arith ZArith Bool Reals String List Lia Lra Permutation.
Import List.
From Verif Require Import Num NdArray NdFacts Spec GradFacts SumFacts LapFacts Cplx DftFacts SpecFourier SpecHW SpecPlasma SpecDiag
  ModelGradients ModelPoisson ModelProperties ModelHW ModelBackend HWFacts StepFacts ModelSpectral DiagFacts DiagProps
  ModelIO ModelRun ModelRunHW SpecIO SpecRun SpecRunHW IOFacts PropsFacts RunFull Run2Props RunTop RunTop2 RunHWFacts RunHWProps RunHWCont.
Import ListNotations.
Local Open Scope R_scope.
Local Open Scope string_scope.
#[local] Existing Instance TimeR.

Lemma setup_end b p ny nx ys xs k0 dsf c T : hw_setup b p ny nx ys xs k0 dsf c -> hw_setup b p ny nx ys xs k0 dsf (with_end c T).
Proof. intros []. constructor; assumption. Qed.
Lemma setup_zonal b p ny nx ys xs k0 dsf c : hw_setup b p ny nx ys xs k0 dsf c -> hw_setup b (no_zonal p) ny nx ys xs k0 dsf c.
Proof. intros []. constructor; assumption. Qed.

(** attributes of a fresh file *)
Lemma params_attrs (c : cfg (arr R) R) dx N c1 nu k0 pb kap ad : exists fdt,
  let at_ := save_params_of c (physics_params dx N c1 nu k0 pb kap) ad in
  dget at_ "x_save" = Some (AZ (c_xs c)) /\ dget at_ "y_save" = Some (AZ (c_ys c)) /\
  dget at_ "k0" = Some (AT k0) /\ dget at_ "c1" = Some (AT c1) /\ dget at_ "frame_dt" = Some fdt /\
  pick at_ physics_keys = Ok (physics_params dx N c1 nu k0 pb kap).
Proof. eexists. repeat split. Qed.
Lemma params2_attrs (c : cfg (arr R) R) dx N c1 nu k0 pb kap z ad : exists fdt,
  let at_ := save_params_of c (physics_params2 dx N c1 nu k0 pb kap z) ad in
  dget at_ "x_save" = Some (AZ (c_xs c)) /\ dget at_ "y_save" = Some (AZ (c_ys c)) /\
  dget at_ "k0" = Some (AT k0) /\ dget at_ "c1" = Some (AT c1) /\ dget at_ "frame_dt" = Some fdt /\
  pick at_ physics_keys = Ok (physics_params dx N c1 nu k0 pb kap).
Proof. eexists. repeat split. Qed.
Lemma params_nodup dx N c1 nu k0 pb kap : NoDup (keys (physics_params dx N c1 nu k0 pb kap)).
Proof. cbn. repeat constructor; cbn; intuition discriminate. Qed.
Lemma params2_nodup dx N c1 nu k0 pb kap z : NoDup (keys (physics_params2 dx N c1 nu k0 pb kap z)).
Proof. cbn. repeat constructor; cbn; intuition discriminate. Qed.

Lemma continue_ok ny nx ys xs rnd dsf f x l x' phys :
  file_state ny nx x f -> file_frames rnd dsf ys xs (l ++ [x']) f -> pick (attrs f) physics_keys = Ok phys ->
  continue_h5_file (Some f) = Ok (mkLoaded (grid ny nx (f_n x)) (grid ny nx (f_o x)) (grid ny nx (f_p x)) (rnd (f_t x')), phys).
Proof.
  intros (Sn & So & Sp) (Fn & Fo & Fp & Ft) Hp. unfold continue_h5_file, load_field. cbn [String.append].
  rewrite Sn, So, Sp. cbn [bind]. unfold dlook. rewrite Fn, Fo, Fp, Ft. cbn [bind last_row].
  rewrite map_app, rev_app_distr. cbn [map rev app bind as_num]. rewrite Hp. reflexivity.
Qed.

(** recorded iterations *)
Lemma dec_true {P : Prop} (d : {P} + {~ P}) : P -> (if d then true else false) = true.
Proof. now destruct d. Qed.
Lemma snaps_shift s n j : (1 <= s)%Z -> (Z.of_nat n mod s = 0)%Z -> (Z.of_nat (n + j) mod s =? 0)%Z = (Z.of_nat j mod s =? 0)%Z.
Proof.
  intros Hs Hn. f_equal. rewrite Nat2Z.inj_add, Z.add_mod, Hn by lia. cbn [Z.add]. apply Z.mod_mod. lia.
Qed.
Lemma map_add_seq n m k : map (Nat.add n) (seq k m) = seq (k + n) m.
Proof. revert k. induction m as [|m IH]; intros k; [reflexivity|]. cbn [seq map]. rewrite IH. now rewrite (Nat.add_comm n k). Qed.
Section Its.
Variable c : cfg (arr R) R.
Hypothesis Hs : (1 <= c_snaps c)%Z.
Hypothesis Hr : c_rec c = 0.
Hypothesis Hd : 0 < c_step c.
Definition snap_its (n : nat) : list nat := filter (fun j => (Z.of_nat j mod c_snaps c =? 0)%Z) (seq 1 n).
Lemma time_pos j : 0 <= INR j * c_step c.
Proof. apply Rmult_le_pos; [apply pos_INR|lra]. Qed.
Lemma its_eq n : recorded_its c n = (0%nat :: snap_its n)%list.
Proof.
  unfold recorded_its. rewrite Hr. destruct (Req_EM_T 0 0); [|contradiction]. cbn [app]. f_equal. apply filter_ext. intros j.
  now rewrite dec_true by apply time_pos.
Qed.
Lemma cont_its_eq m n : cont_its c (INR m * c_step c) n = snap_its n.
Proof.
  unfold cont_its. apply filter_ext. intros j. rewrite dec_true; [reflexivity|].
  rewrite Hr. pose proof (time_pos m). pose proof (time_pos j). lra.
Qed.
Lemma its_split n m : (Z.of_nat n mod c_snaps c = 0)%Z -> recorded_its c (n + m) = (recorded_its c n ++ map (Nat.add n) (snap_its m))%list.
Proof.
  intros Hn. rewrite !its_eq. cbn [app]. f_equal. unfold snap_its. rewrite seq_app, filter_app. f_equal.
  replace (seq (1 + n) m) with (map (Nat.add n) (seq 1 m)).
  - induction (seq 1 m) as [|j l IH]; [reflexivity|]. cbn [map filter]. rewrite snaps_shift by assumption.
    destruct (Z.of_nat j mod c_snaps c =? 0)%Z; cbn [map]; now rewrite IH.
  - apply map_add_seq.
Qed.
Lemma its_last n : (1 <= n)%nat -> (Z.of_nat n mod c_snaps c = 0)%Z -> exists l, recorded_its c n = (l ++ [n])%list.
Proof.
  intros H1 Hn. destruct n as [|n]; [lia|]. rewrite its_eq. exists (0%nat :: snap_its n). cbn [app]. f_equal. unfold snap_its.
  rewrite seq_S, filter_app. cbn [Nat.add filter]. rewrite Hn. cbn [Z.eqb]. reflexivity.
Qed.
End Its.

Lemma no_zonal_eq p : pzon p = false -> no_zonal p = p.
Proof. destruct p; cbn; intros ->; reflexivity. Qed.

Section Split.
Variables (b : backend R) (p : par) (ny nx ys xs : nat) (k0 : R) (dsf : field -> field) (c : cfg (arr R) R) (rnd : R -> R).
Hypothesis HS : hw_setup b p ny nx ys xs k0 dsf c.
Notation HW_ := (hw_sim b rnd ny nx ys xs).
Notation dx := (c_dx c).
Notation dt := (c_step c).
Notation dxs := (domain_dx k0 xs).
Hypothesis Hfo : c_force c = false.
Hypothesis Hco : c_continue c = true.
Hypothesis Hla : add_last c = true.
Hypothesis Hr : c_rec c = 0.
Hypothesis Hdt : 0 < dt.
Variables (T1 : R) (n1 : nat).
Hypothesis Hn1 : (1 <= n1)%nat.
Hypothesis Hsn : (Z.of_nat n1 mod c_snaps c = 0)%Z.
Hypothesis Hbl : (length (recorded_its c n1) mod c_blen c = 0)%nat.
Hypothesis Hrt : rnd (INR n1 * dt) = INR n1 * dt.
Variables (y0 : field * field) (phi0 : field).
Notation Y := (hw_states p ny nx dx dt y0).
Hypothesis Zn : nonzero_on ny nx (fst (Y n1)).
Hypothesis Zo : nonzero_on ny nx (snd (Y n1)).
Notation pl0 := (plasma0 (grid ny nx (fst y0)) (grid ny nx (snd y0)) (grid ny nx phi0)).

(** what the first run leaves is enough to start from iterate n1 *)
Lemma loaded_state frames g : frames = map (hw_frame p ny nx dx dt y0 phi0) (recorded_its c n1) ->
  file_frames rnd dsf ys xs frames g -> file_last_state ny nx (c_blen c) frames g ->
  pick (attrs g) physics_keys = Ok (physics_params dx (Z.of_nat (pN p)) (pc1 p) (pnu p) k0 (ppb p) (pkap p)) ->
  continue_h5_file (Some g) = Ok (mkLoaded (grid ny nx (fst (Y n1))) (grid ny nx (snd (Y n1))) (grid ny nx (invlap ny nx dx (snd (Y n1)))) (INR n1 * dt),
    physics_params dx (Z.of_nat (pN p)) (pc1 p) (pnu p) k0 (ppb p) (pkap p)).
Proof.
  intros Ef FF FS Hp. destruct (its_last c Hr Hdt n1 Hn1 Hsn) as [l El].
  assert (Efr : frames = (map (hw_frame p ny nx dx dt y0 phi0) l ++ [hw_frame p ny nx dx dt y0 phi0 n1])%list) by (rewrite Ef, El, map_app; reflexivity).
  assert (Elen : length frames = length (recorded_its c n1)) by (rewrite Ef; apply map_length).
  assert (Est : file_state ny nx (hw_frame p ny nx dx dt y0 phi0 n1) g).
  { unfold file_last_state in FS. rewrite Elen in FS. pose proof (hs_blen _ _ _ _ _ _ _ _ _ HS) as HB.
    pose proof (Nat.div_mod (length (recorded_its c n1)) (c_blen c) ltac:(lia)) as E. rewrite Hbl, Nat.add_0_r in E.
    rewrite <- E, <- Elen, firstn_all, Efr, last_last in FS. exact FS. }
  rewrite Efr in FF. rewrite (continue_ok _ _ _ _ _ _ _ _ _ _ _ Est FF Hp). unfold hw_frame. cbn [f_t f_n f_o f_p].
  rewrite Hrt. destruct (Nat.eqb_spec n1 0); [lia|]. reflexivity.
Qed.

Section Run2.
Variables (n2 fuel1 fuel2 : nat).
Hypothesis Hph : c_phys c = physics_params2 dx (Z.of_nat (pN p)) (pc1 p) (pnu p) k0 (ppb p) (pkap p) (pzon p).
Hypothesis Hfit : forall k, In k (c_props c) -> prop_fits k ny nx.
Hypothesis A1 : forall j, (j < n1)%nat -> t_round4 (INR j * dt) < T1.
Hypothesis A2 : T1 <= t_round4 (INR n1 * dt).
Hypothesis B1 : forall j, (j < n1 + n2)%nat -> t_round4 (INR j * dt) < c_end c.
Hypothesis B2 : c_end c <= t_round4 (INR (n1 + n2) * dt).
Hypothesis F1 : (n1 < fuel1)%nat.
Hypothesis F2 : (n2 < fuel2)%nat.

Lemma split2_any pl1 :
  let frames := (map (hw_frame p ny nx dx dt y0 phi0) (recorded_its c n1)
     ++ map (cont_frame (no_zonal p) ny nx dx dt (Y n1) (INR n1 * dt)) (cont_its c (INR n1 * dt) n2))%list in
  exists f g, result_of (run2 HW_ (with_end c T1) fuel1 pl0) None = Ok tt /\ disk_of (run2 HW_ (with_end c T1) fuel1 pl0) None = Some f /\
    result_of (run2 HW_ c fuel2 pl1) (Some f) = Ok tt /\ disk_of (run2 HW_ c fuel2 pl1) (Some f) = Some g /\
    file_frames rnd dsf ys xs frames g /\
    forall k, In k (c_props c) -> file_prop rnd dsf ys xs dxs (pc1 p) frames g k /\ file_fullres rnd ny nx dx (pc1 p) frames g k.
Proof.
  intros frames.
  pose proof (hs_k0 _ _ _ _ _ _ _ _ _ HS) as Hk0.
  assert (Npos : 0 < INR n1 * dt) by (apply Rmult_lt_0_compat; [apply lt_0_INR; lia|exact Hdt]).
  destruct (params2_attrs c dx (Z.of_nat (pN p)) (pc1 p) (pnu p) k0 (ppb p) (pkap p) (pzon p) (c_adaptive c)) as (fdt & Ex & Ey & Ek & Ec & Ef & Ep).
  rewrite (hs_x _ _ _ _ _ _ _ _ _ HS) in Ex. rewrite (hs_y _ _ _ _ _ _ _ _ _ HS) in Ey.
  destruct (hw_run2_fresh b p ny nx ys xs k0 dsf (with_end c T1) rnd (setup_end _ _ _ _ _ _ _ _ _ T1 HS)
    (physics_params2 dx (Z.of_nat (pN p)) (pc1 p) (pnu p) k0 (ppb p) (pkap p) (pzon p)) (hw_of_params2 b p dx k0 Hk0) eq_refl Hfit
    y0 phi0 None n1 fuel1 Hph (params2_nodup _ _ _ _ _ _ _ _) (or_introl eq_refl)) as (f & Rf & Df & Af & FF & FP & FS).
  { exists fdt. change (save_params_of (with_end c T1)) with (save_params_of c). auto. }
  { exact A1. } { exact A2. } { exact F1. }
  change (c_dx (with_end c T1)) with dx in *. change (c_step (with_end c T1)) with dt in *. change (c_rec (with_end c T1)) with (c_rec c) in *.
  change (recorded_its (with_end c T1)) with (recorded_its c) in *. change (c_blen (with_end c T1)) with (c_blen c) in *.
  change (c_props (with_end c T1)) with (c_props c) in *. change (add_last (with_end c T1)) with (add_last c) in *.
  change (save_params_of (with_end c T1)) with (save_params_of c) in *. change (c_adaptive (with_end c T1)) with (c_adaptive c) in *.
  destruct (Rlt_dec (c_rec c) (INR n1 * dt)) as [_|N]; [|rewrite Hr in N; contradiction].
  destruct (FS Hla) as [FS1 FS2].
  pose proof (loaded_state _ f eq_refl FF FS1 ltac:(rewrite Af; exact Ep)) as HL.
  destruct (hw_run2_continued b (no_zonal p) ny nx ys xs k0 dsf c rnd (setup_zonal _ _ _ _ _ _ _ _ _ HS)
    (physics_params dx (Z.of_nat (pN p)) (pc1 p) (pnu p) k0 (ppb p) (pkap p)) (hw_of_params b p dx k0 Hk0) eq_refl Hfit
    pl1 f _ (Y n1) _ (INR n1 * dt) n2 fuel2 Hfo Hco HL Zn Zo FF) as (g & Rg & Dg & Ag & GF & GP).
  { intros k Hk. apply (proj2 (FP k Hk)). }
  { intros _. exact FS2. }
  { exists fdt. rewrite Af. auto. }
  { intros j Hj. replace (INR n1 * dt + INR j * dt) with (INR (n1 + j) * dt) by (rewrite plus_INR; ring). apply B1. lia. }
  { replace (INR n1 * dt + INR n2 * dt) with (INR (n1 + n2) * dt) by (rewrite plus_INR; ring). exact B2. }
  { exact F2. }
  destruct (Rlt_dec (c_rec c) (INR n1 * dt + INR n2 * dt)) as [_|N].
  2:{ exfalso. apply N. rewrite Hr. pose proof (time_pos c Hdt n2). lra. }
  exists f, g. repeat (split; [assumption|]). exact GP.
Qed.

(** without zonal averaging the two runs do what one run does *)
Lemma split2_same pl1 fuel : pzon p = false -> (n1 + n2 < fuel)%nat ->
  exists f g h, disk_of (run2 HW_ (with_end c T1) fuel1 pl0) None = Some f /\
    result_of (run2 HW_ c fuel2 pl1) (Some f) = Ok tt /\ disk_of (run2 HW_ c fuel2 pl1) (Some f) = Some g /\
    result_of (run2 HW_ c fuel pl0) None = Ok tt /\ disk_of (run2 HW_ c fuel pl0) None = Some h /\
    forall k, In k (field_keys ++ c_props c ++ map (String.append "fullres_") (c_props c))%list -> dget (dsets g) k = dget (dsets h) k.
Proof.
  intros Hz Hfu. destruct (split2_any pl1) as (f & g & Rf & Df & Rg & Dg & GF & GP).
  pose proof (hs_k0 _ _ _ _ _ _ _ _ _ HS) as Hk0.
  destruct (params2_attrs c dx (Z.of_nat (pN p)) (pc1 p) (pnu p) k0 (ppb p) (pkap p) (pzon p) (c_adaptive c)) as (fdt & Ex & Ey & Ek & Ec & Ef & Ep).
  rewrite (hs_x _ _ _ _ _ _ _ _ _ HS) in Ex. rewrite (hs_y _ _ _ _ _ _ _ _ _ HS) in Ey.
  destruct (hw_run2_fresh b p ny nx ys xs k0 dsf c rnd HS
    (physics_params2 dx (Z.of_nat (pN p)) (pc1 p) (pnu p) k0 (ppb p) (pkap p) (pzon p)) (hw_of_params2 b p dx k0 Hk0) eq_refl Hfit
    y0 phi0 None (n1 + n2) fuel Hph (params2_nodup _ _ _ _ _ _ _ _) (or_introl eq_refl)) as (h & Rh & Dh & Ah & HF & HP & _).
  { exists fdt. auto. } { exact B1. } { exact B2. } { exact Hfu. }
  destruct (Rlt_dec (c_rec c) (INR (n1 + n2) * dt)) as [_|N].
  2:{ exfalso. apply N. rewrite Hr, plus_INR. pose proof (time_pos c Hdt n2).
      assert (0 < INR n1 * dt) by (apply Rmult_lt_0_compat; [apply lt_0_INR; lia|exact Hdt]). lra. }
  assert (E : (map (hw_frame p ny nx dx dt y0 phi0) (recorded_its c n1)
     ++ map (cont_frame (no_zonal p) ny nx dx dt (Y n1) (INR n1 * dt)) (cont_its c (INR n1 * dt) n2))%list
     = map (hw_frame p ny nx dx dt y0 phi0) (recorded_its c (n1 + n2))).
  { rewrite (its_split c (hs_snaps _ _ _ _ _ _ _ _ _ HS) Hr Hdt) by assumption. rewrite map_app, cont_its_eq by assumption. f_equal.
    rewrite map_map. apply map_ext. intros j. unfold cont_frame, hw_frame.
    replace (no_zonal p) with p by (destruct p; cbn in Hz; subst; reflexivity).
    destruct (Nat.eqb_spec (n1 + j) 0); [lia|].
    replace (hw_states p ny nx dx dt (Y n1) j) with (Y (n1 + j)).
    - f_equal. rewrite plus_INR. ring.
    - unfold hw_states. rewrite (Nat.add_comm n1 j). apply iter_step_plus. }
  rewrite E in GF, GP. exists f, g, h. repeat (split; [assumption|]).
  intros k Hk. apply in_app_iff in Hk. destruct Hk as [Hk|Hk].
  - destruct GF as (G1 & G2 & G3 & G4), HF as (H1 & H2 & H3 & H4).
    cbn in Hk. destruct Hk as [<-|[<-|[<-|[<-|[]]]]]; congruence.
  - apply in_app_iff in Hk. destruct Hk as [Hk|Hk].
    + destruct (GP k Hk) as [G1 _], (HP k Hk) as [H1 _]. unfold file_prop in *. congruence.
    + apply in_map_iff in Hk. destruct Hk as (q & <- & Hq). destruct (GP q Hq) as [_ G1], (HP q Hq) as [_ H1]. unfold file_fullres in *. congruence.
Qed.
End Run2.

Section Run1.
Hypothesis Hph : c_phys c = physics_params dx (Z.of_nat (pN p)) (pc1 p) (pnu p) k0 (ppb p) (pkap p).
Hypothesis Hz : pzon p = false.
Hypothesis En1 : Z.to_nat (R_trunc (T1 / dt)) = n1.
Notation n2 := (Z.to_nat (R_trunc ((c_end c - INR n1 * dt) / dt))).

Lemma no_zonal_id : no_zonal p = p.
Proof using Hz. now apply no_zonal_eq. Qed.

Lemma split1_any pl1 :
  let frames := (map (hw_frame p ny nx dx dt y0 phi0) (recorded_its c n1)
     ++ map (cont_frame p ny nx dx dt (Y n1) 0) (cont_its c 0 n2))%list in
  exists f g, result_of (run HW_ (with_end c T1) pl0) None = Ok tt /\ disk_of (run HW_ (with_end c T1) pl0) None = Some f /\
    result_of (run HW_ c pl1) (Some f) = Ok tt /\ disk_of (run HW_ c pl1) (Some f) = Some g /\
    file_frames rnd dsf ys xs frames g /\
    forall k, In k (c_props c) -> file_prop rnd dsf ys xs dxs (pc1 p) frames g k.
Proof.
  intros frames.
  pose proof (hs_k0 _ _ _ _ _ _ _ _ _ HS) as Hk0.
  destruct (params_attrs c dx (Z.of_nat (pN p)) (pc1 p) (pnu p) k0 (ppb p) (pkap p) false) as (fdt & Ex & Ey & Ek & Ec & Ef & Ep).
  rewrite (hs_x _ _ _ _ _ _ _ _ _ HS) in Ex. rewrite (hs_y _ _ _ _ _ _ _ _ _ HS) in Ey.
  pose proof (hw_of_params b p dx k0 Hk0) as Hhw. fold (no_zonal p) in Hhw. rewrite no_zonal_id in Hhw.
  destruct (hw_run_fresh b p ny nx ys xs k0 dsf (with_end c T1) rnd (setup_end _ _ _ _ _ _ _ _ _ T1 HS)
    (physics_params dx (Z.of_nat (pN p)) (pc1 p) (pnu p) k0 (ppb p) (pkap p)) Hhw eq_refl
    y0 phi0 None Hph (params_nodup _ _ _ _ _ _ _) (or_introl eq_refl)) as (f & Rf & Df & Af & FF & FP & FS).
  { exists fdt. change (save_params_of (with_end c T1)) with (save_params_of c). auto. }
  change (c_end (with_end c T1)) with T1 in *.
  change (c_dx (with_end c T1)) with dx in *. change (c_step (with_end c T1)) with dt in *. rewrite En1 in *.
  change (recorded_its (with_end c T1)) with (recorded_its c) in *. change (c_blen (with_end c T1)) with (c_blen c) in *.
  change (c_props (with_end c T1)) with (c_props c) in *. change (add_last (with_end c T1)) with (add_last c) in *.
  change (save_params_of (with_end c T1)) with (save_params_of c) in *.
  destruct (FS Hla) as [FS1 FS2].
  pose proof (loaded_state _ f eq_refl FF FS1 ltac:(rewrite Af; exact Ep)) as HL.
  destruct (hw_run_continued b p ny nx ys xs k0 dsf c rnd HS
    (physics_params dx (Z.of_nat (pN p)) (pc1 p) (pnu p) k0 (ppb p) (pkap p)) Hhw eq_refl
    pl1 f _ (Y n1) _ (INR n1 * dt) Hfo Hco HL Zn Zo FF) as (g & Rg & Dg & Ag & GF & GP).
  { intros _. exact FS2. }
  { exists fdt. rewrite Af. auto. }
  exists f, g. repeat (split; [assumption|]). exact GP.
Qed.

Lemma cont_its_0 n : cont_its c 0 n = snap_its c n.
Proof using Hr Hdt. pose proof (cont_its_eq c Hr Hdt 0 n) as E. cbn [INR] in E. now rewrite Rmult_0_l in E. Qed.

(** same fields and properties as one run, but the times of the second part
    start again *)
Lemma split1_same pl1 : (Z.to_nat (R_trunc (c_end c / dt)) = n1 + n2)%nat ->
  exists f g h, disk_of (run HW_ (with_end c T1) pl0) None = Some f /\
    result_of (run HW_ c pl1) (Some f) = Ok tt /\ disk_of (run HW_ c pl1) (Some f) = Some g /\
    result_of (run HW_ c pl0) None = Ok tt /\ disk_of (run HW_ c pl0) None = Some h /\
    (forall k, In k (["density"; "omega"; "phi"] ++ c_props c)%list -> dget (dsets g) k = dget (dsets h) k) /\
    dget (dsets h) "time" = Some (Rows (map (fun j => RNum (rnd (INR j * dt))) (0%nat :: snap_its c (n1 + n2)))) /\
    dget (dsets g) "time" = Some (Rows (map (fun j => RNum (rnd (INR j * dt))) (0%nat :: snap_its c n1 ++ snap_its c n2))).
Proof.
  intros En. destruct (split1_any pl1) as (f & g & Rf & Df & Rg & Dg & GF & GP).
  pose proof (hs_k0 _ _ _ _ _ _ _ _ _ HS) as Hk0.
  destruct (params_attrs c dx (Z.of_nat (pN p)) (pc1 p) (pnu p) k0 (ppb p) (pkap p) false) as (fdt & Ex & Ey & Ek & Ec & Ef & Ep).
  rewrite (hs_x _ _ _ _ _ _ _ _ _ HS) in Ex. rewrite (hs_y _ _ _ _ _ _ _ _ _ HS) in Ey.
  pose proof (hw_of_params b p dx k0 Hk0) as Hhw. fold (no_zonal p) in Hhw. rewrite no_zonal_id in Hhw.
  destruct (hw_run_fresh b p ny nx ys xs k0 dsf c rnd HS
    (physics_params dx (Z.of_nat (pN p)) (pc1 p) (pnu p) k0 (ppb p) (pkap p)) Hhw eq_refl
    y0 phi0 None Hph (params_nodup _ _ _ _ _ _ _) (or_introl eq_refl)) as (h & Rh & Dh & Ah & HF & HP & _).
  { exists fdt. auto. }
  rewrite En in HF, HP.
  assert (Eo : map (cont_frame p ny nx dx dt (Y n1) (INR n1 * dt)) (snap_its c n2) = map (hw_frame p ny nx dx dt y0 phi0) (map (Nat.add n1) (snap_its c n2))).
  { rewrite map_map. apply map_ext. intros j. unfold cont_frame, hw_frame. destruct (Nat.eqb_spec (n1 + j) 0); [lia|].
    replace (hw_states p ny nx dx dt (Y n1) j) with (Y (n1 + j)).
    - f_equal. rewrite plus_INR. ring.
    - unfold hw_states. rewrite (Nat.add_comm n1 j). apply iter_step_plus. }
  rewrite cont_its_0 in GF, GP.
  set (A := map (hw_frame p ny nx dx dt y0 phi0) (recorded_its c n1)) in *.
  assert (EH : map (hw_frame p ny nx dx dt y0 phi0) (recorded_its c (n1 + n2)) = (A ++ map (cont_frame p ny nx dx dt (Y n1) (INR n1 * dt)) (snap_its c n2))%list).
  { rewrite Eo, (its_split c (hs_snaps _ _ _ _ _ _ _ _ _ HS) Hr Hdt) by assumption. now rewrite map_app. }
  assert (EM : forall {X} (F : frame -> X), (forall t t' a b d, F (mkFrame t a b d) = F (mkFrame t' a b d)) ->
    map F (A ++ map (cont_frame p ny nx dx dt (Y n1) 0) (snap_its c n2)) = map F (map (hw_frame p ny nx dx dt y0 phi0) (recorded_its c (n1 + n2)))).
  { intros X F HFr. rewrite EH, !map_app. f_equal. rewrite !map_map. apply map_ext. intros j. unfold cont_frame. apply HFr. }
  exists f, g, h. repeat (split; [assumption|]). split; [|split].
  - intros k Hk. apply in_app_iff in Hk. destruct Hk as [Hk|Hk].
    + destruct GF as (G1 & G2 & G3 & G4), HF as (H1 & H2 & H3 & H4).
      cbn in Hk. destruct Hk as [<-|[<-|[<-|[]]]]; [rewrite G1, H1|rewrite G2, H2|rewrite G3, H3]; do 2 f_equal; apply EM; reflexivity.
    + pose proof (GP k Hk) as G1. pose proof (HP k Hk) as H1. unfold file_prop in *. rewrite G1, H1. do 2 f_equal. apply EM. reflexivity.
  - destruct HF as (_ & _ & _ & H4). rewrite H4. rewrite its_eq by assumption. rewrite !map_map. reflexivity.
  - destruct GF as (_ & _ & _ & G4). rewrite G4. unfold A. rewrite its_eq by assumption. rewrite map_app, !map_map. cbn [map]. rewrite map_app. cbn [app]. do 4 f_equal.
    apply map_ext. intros j. cbn [cont_frame f_t]. now rewrite Rplus_0_l.
Qed.
End Run1.
End Split.
