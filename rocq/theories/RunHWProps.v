(** What HW simulations record. *)
From Coq Require Import Arith ZArith Bool Reals String List Lia Lra Permutation.
Import List.
From Verif Require Import Num NdArray NdFacts Spec GradFacts SumFacts LapFacts Cplx DftFacts SpecFourier SpecHW SpecPlasma SpecDiag
  ModelGradients ModelPoisson ModelProperties ModelHW ModelBackend HWFacts StepFacts ModelSpectral DiagFacts DiagProps
  ModelIO ModelRun ModelRunHW SpecIO SpecRun SpecRunHW IOFacts PropsFacts RunFull RunTop RunTop2 RunHWFacts.
Import ListNotations.
Local Open Scope R_scope.
Local Open Scope string_scope.
#[local] Existing Instance TimeR.

Lemma two_pi_ne k x : k <> 0 -> x <> 0 -> 2 * PI / k / x <> 0.
Proof.
  intros Hk Hx. pose proof PI_neq0 as HP. unfold Rdiv.
  apply Rmult_integral_contrapositive_currified; [|now apply Rinv_neq_0_compat].
  apply Rmult_integral_contrapositive_currified; [|now apply Rinv_neq_0_compat].
  apply Rmult_integral_contrapositive_currified; [lra|exact HP].
Qed.

Section Run.
Variables (b : backend R) (p : par) (ny nx ys xs : nat) (k0 : R) (dsf : field -> field) (c : cfg (arr R) R) (rnd : R -> R).
Hypothesis HS : hw_setup b p ny nx ys xs k0 dsf c.
Variable phys : physics (T := R).
Hypothesis Hphys : hw_of_phys b phys = Ok (hw_of b p (c_dx c) true).
Hypothesis Hpdx : dget phys "dx" = Some (AT (c_dx c)).
Notation HW_ := (hw_sim b rnd ny nx ys xs).
Notation dx := (c_dx c).
Notation dt := (c_step c).

Lemma dx_ne : dx <> 0.
Proof.
  rewrite (hs_dx _ _ _ _ _ _ _ _ _ HS). unfold domain_dx. pose proof (hs_k0 _ _ _ _ _ _ _ _ _ HS).
  pose proof (hs_nx _ _ _ _ _ _ _ _ _ HS). pose proof (not_0_INR nx ltac:(lia)).
  apply two_pi_ne; assumption.
Qed.
Lemma bacts : acts b ny nx dx (pN p).
Proof. apply backend_acts; [apply HS|apply HS|apply dx_ne|apply HS]. Qed.

Definition ds (v : arr R) : arr R := match down c v with Ok w => w | Exn _ => v end.
Lemma ds_grid f : ds (grid ny nx f) = grid ys xs (dsf f).
Proof. unfold ds. now rewrite (hs_down _ _ _ _ _ _ _ _ _ HS). Qed.
Definition gp (n o ph : field) (a : R) : plasma (arr R) R := mkPlasma (grid ny nx n) (grid ny nx o) (grid ny nx ph) a.
Lemma ds_ok n o ph a : downsampled c ds (gp n o ph a).
Proof. unfold downsampled, gp. cbn [p_density p_omega p_phi]. rewrite !ds_grid, !(hs_down _ _ _ _ _ _ _ _ _ HS). auto. Qed.

Definition traj (y0 : field * field) (a : R) (j : nat) : plasma (arr R) R :=
  let y := hw_states p ny nx dx dt y0 j in gp (fst y) (snd y) (invlap ny nx dx (snd y)) (a + INR j * dt).

Lemma phi_ok o : (let* d := dlook phys "dx" in s_phi HW_ phys (grid ny nx o) d) = Ok (grid ny nx (invlap ny nx dx o)).
Proof.
  unfold dlook. rewrite Hpdx. cbn [bind hw_sim s_phi]. apply (hw_phi_grid b p (c_dx c) ny nx dx bacts phys Hphys). reflexivity.
Qed.
Lemma evolves_ok y0 ph a n : evolves HW_ c phys
  (mkPlasma (p_density (gp (fst y0) (snd y0) ph a)) (p_omega (gp (fst y0) (snd y0) ph a)) (grid ny nx (invlap ny nx dx (snd y0))) a) (traj y0 a) n.
Proof.
  split.
  - unfold traj, hw_states. cbn [iter_step INR gp p_density p_omega fst snd]. rewrite Rmult_0_l, Rplus_0_r. reflexivity.
  - intros j _. cbn [hw_sim s_step]. unfold traj, gp.
    rewrite (hw_step_grid b p (c_dx c) ny nx dx) by (try apply HS; try apply bacts; assumption).
    unfold hw_states. rewrite iter_step_S, <- surjective_pairing, S_INR. do 2 f_equal. ring.
Qed.
Lemma goes_ok y0 ph a :
  goes HW_ c phys a (gp (fst y0) (snd y0) ph a) (grid ny nx (invlap ny nx dx (snd y0))) (traj y0 a)
    (R_trunc ((c_end c - a) / dt)) (Z.to_nat (R_trunc ((c_end c - a) / dt))) ds.
Proof.
  split; [apply phi_ok|]. split; [reflexivity|]. split; [apply evolves_ok|]. split.
  - intros j _. apply ds_ok.
  - split; [lia|]. split; [|now left]. intros. reflexivity.
Qed.

Lemma props_in k : In k (c_props c) -> In k prop_names.
Proof using HS rnd. intros H. eapply prop_fits_in, (hs_props _ _ _ _ _ _ _ _ _ HS), H. Qed.
Lemma apart1_ok : apart1 c.
Proof using HS rnd. intros k H. apply props_in in H. cbn in H. intros H'. cbn in H'. intuition congruence. Qed.
Notation dxs := (domain_dx k0 xs).
Lemma dxs_ne : dxs <> 0.
Proof.
  unfold domain_dx. pose proof (hs_k0 _ _ _ _ _ _ _ _ _ HS).
  pose proof (hs_xs _ _ _ _ _ _ _ _ _ HS). pose proof (not_0_INR xs ltac:(lia)).
  apply two_pi_ne; assumption.
Qed.
Lemma props_ok at_ fdt : dget at_ "x_save" = Some (AZ (Z.of_nat xs)) -> dget at_ "y_save" = Some (AZ (Z.of_nat ys)) ->
  dget at_ "k0" = Some (AT k0) -> dget at_ "c1" = Some (AT (pc1 p)) -> dget at_ "frame_dt" = Some fdt ->
  props_fine HW_ c (is_frame ys xs) at_ (hw_tbl ys xs dxs (pc1 p)).
Proof using HS rnd.
  intros Ex Ey Ek Ec Ef. split; [apply HS|]. split.
  { intros k H. apply props_in in H. cbn in H. intros H'. cbn in H'. intuition congruence. }
  split. { cbn [pick]. unfold dlook. rewrite Ek, Ex, Ec, Ef. cbn [bind]. eauto. }
  split; [|apply hw_tbl_keys]. cbn [hw_sim s_table]. apply hw_computes with (k0 := k0); try assumption; try apply HS; [reflexivity|exact dxs_ne].
Qed.

(** rows *)
Lemma row_n time n o ph a : frame_row HW_ ds time (gp n o ph a) "density" = RFrame (grid ys xs (fun i j => rnd (dsf n i j))).
Proof. unfold frame_row. cbn [String.eqb Ascii.eqb Bool.eqb hw_sim s_f32V]. unfold gp. cbn [p_density]. now rewrite ds_grid, f32_grid. Qed.
Lemma row_o time n o ph a : frame_row HW_ ds time (gp n o ph a) "omega" = RFrame (grid ys xs (fun i j => rnd (dsf o i j))).
Proof. unfold frame_row. cbn [String.eqb Ascii.eqb Bool.eqb hw_sim s_f32V]. unfold gp. cbn [p_omega]. now rewrite ds_grid, f32_grid. Qed.
Lemma row_p time n o ph a : frame_row HW_ ds time (gp n o ph a) "phi" = RFrame (grid ys xs (fun i j => rnd (dsf ph i j))).
Proof. unfold frame_row. cbn [String.eqb Ascii.eqb Bool.eqb hw_sim s_f32V]. unfold gp. cbn [p_phi]. now rewrite ds_grid, f32_grid. Qed.
Lemma row_t time pl : frame_row HW_ ds time pl "time" = RNum (rnd time).
Proof. reflexivity. Qed.
Lemma is_frame_grid f : is_frame ys xs (RFrame (grid ys xs f)).
Proof. now exists f. Qed.

(** logs whose plasmas are grids; each frame comes with the age *)
Definition to_log (l : list (frame * R)) : log (arr R) R :=
  map (fun xa => let x := fst xa in (f_t x, gp (f_n x) (f_o x) (f_p x) (snd xa))) l.
Notation fld f := (fun i j => rnd (dsf f i j)).
Definition rsn (l : list frame) : list (row (arr R) R) := map (fun x => RFrame (grid ys xs (fld (f_n x)))) l.
Definition rso (l : list frame) : list (row (arr R) R) := map (fun x => RFrame (grid ys xs (fld (f_o x)))) l.
Definition rsp (l : list frame) : list (row (arr R) R) := map (fun x => RFrame (grid ys xs (fld (f_p x)))) l.
Definition rst (l : list frame) : list (row (arr R) R) := map (fun x => RNum (rnd (f_t x))) l.
Notation rows l k := (map (fun tp => frame_row HW_ ds (fst tp) (snd tp) k) (to_log l)).
Lemma rows_n l : rows l "density" = rsn (map fst l).
Proof. unfold to_log, rsn. rewrite !map_map. apply map_ext. intros x. apply row_n. Qed.
Lemma rows_o l : rows l "omega" = rso (map fst l).
Proof. unfold to_log, rso. rewrite !map_map. apply map_ext. intros x. apply row_o. Qed.
Lemma rows_p l : rows l "phi" = rsp (map fst l).
Proof. unfold to_log, rsp. rewrite !map_map. apply map_ext. intros x. apply row_p. Qed.
Lemma rows_t l : rows l "time" = rst (map fst l).
Proof. unfold to_log, rst. rewrite !map_map. reflexivity. Qed.
Lemma rows_frames (old : string -> list (row (arr R) R)) l : frames_P (is_frame ys xs) old ->
  frames_P (is_frame ys xs) (fun k => (old k ++ rows l k)%list).
Proof.
  intros H k Hk. apply Forall_app. split; [now apply H|].
  cbn in Hk. destruct Hk as [<-|[<-|[<-|[]]]]; [rewrite rows_n|rewrite rows_p|rewrite rows_o];
    apply Forall_forall; intros r Hr; apply in_map_iff in Hr; destruct Hr as (x & <- & _); apply is_frame_grid.
Qed.
Definition rsv (k : string) (l : list frame) : list (row (arr R) R) :=
  map (fun x => RNum (rnd (prop_value k ys xs dxs (pc1 p) (fld (f_n x)) (fld (f_p x)) (fld (f_o x))))) l.
Lemma zip3_map {X Y Z} (h : Y -> Y -> Y -> Z) (f g e : X -> Y) l : zip3 h (map f l) (map g l) (map e l) = map (fun x => h (f x) (g x) (e x)) l.
Proof. induction l as [|x l IH]; [reflexivity|]. cbn [map zip3]. now rewrite IH. Qed.
Lemma prop_rows_ok l k : In k (c_props c) ->
  prop_rows (zero_like HW_) (s_f32V HW_) (s_f32T HW_) (hw_tbl ys xs dxs (pc1 p)) (rsn l) (rsp l) (rso l) k = rsv k l.
Proof.
  intros H. unfold prop_rows. rewrite hw_tbl_get by now apply props_in. unfold rsn, rsp, rso, rsv. rewrite zip3_map, map_map.
  apply map_ext. intros x. unfold tab_fn. cbn [row_field f32 hw_sim s_f32T]. do 2 f_equal.
  apply prop_value_at2; try apply HS; [exact H|exact dxs_ne].
Qed.

Lemma file_frames_of g l : records HW_ ds (fun _ => []) g (to_log l) -> file_frames rnd dsf ys xs (map fst l) g.
Proof.
  intros H. unfold file_frames.
  pose proof (H "density" ltac:(cbn; tauto)) as Hn. pose proof (H "omega" ltac:(cbn; tauto)) as Ho.
  pose proof (H "phi" ltac:(cbn; tauto)) as Hp. pose proof (H "time" ltac:(cbn; tauto)) as Ht.
  rewrite rows_n in Hn. rewrite rows_o in Ho. rewrite rows_p in Hp. rewrite rows_t in Ht. cbn [app] in *. auto.
Qed.

Definition frs (y0 : field * field) (phi0 : field) (js : list nat) : list (frame * R) :=
  map (fun j => (hw_frame p ny nx dx dt y0 phi0 j, 0 + INR j * dt)) js.
Lemma frs_fst y0 phi0 js : map fst (frs y0 phi0 js) = map (hw_frame p ny nx dx dt y0 phi0) js.
Proof. unfold frs. now rewrite map_map. Qed.

Lemma to_log_app l l' : to_log (l ++ l') = (to_log l ++ to_log l')%list.
Proof. apply map_app. Qed.
Lemma frs_app y0 phi0 l l' : frs y0 phi0 (l ++ l') = (frs y0 phi0 l ++ frs y0 phi0 l')%list.
Proof. apply map_app. Qed.
Lemma loop_log_frs y0 phi0 (time : nat -> R) n :
  (forall j, (1 <= j)%nat -> time j = INR j * dt) ->
  loop_log c time (traj y0 0) n = to_log (frs y0 phi0
    (filter (fun j => (if Rle_dec (c_rec c) (INR j * c_step c) then true else false) && (Z.of_nat j mod c_snaps c =? 0)%Z) (seq 1 n))).
Proof.
  intros Ht. unfold loop_log, SpecRun.frames, to_log, frs. rewrite map_map.
  rewrite (filter_ext_in (recorded c time) (fun j => (if Rle_dec (c_rec c) (INR j * c_step c) then true else false) && (Z.of_nat j mod c_snaps c =? 0)%Z)).
  - apply map_ext_in. intros j Hj. apply filter_In in Hj. destruct Hj as [Hj _]. apply in_seq in Hj. cbn [fst snd hw_frame f_t f_n f_o f_p].
    rewrite Ht by lia. unfold traj. destruct (Nat.eqb_spec j 0); [lia|]. reflexivity.
  - intros j Hj. apply in_seq in Hj. unfold recorded. now rewrite Ht by lia.
Qed.
Lemma fresh_log_frs y0 phi0 (time : nat -> R) n :
  (forall j, (1 <= j)%nat -> time j = INR j * dt) ->
  fresh_log c (gp (fst y0) (snd y0) phi0 0) time (traj y0 0) n = to_log (frs y0 phi0 (recorded_its c n)).
Proof.
  intros Ht. unfold fresh_log, recorded_its. rewrite (loop_log_frs y0 phi0) by exact Ht. rewrite frs_app, to_log_app. f_equal.
  unfold truthy. cbn [neqb nzero NumR TimeR t_num]. destruct (Req_EM_T (c_rec c) 0) as [E|E]; cbn [negb]; [|reflexivity].
  unfold to_log, frs. cbn [map fst snd hw_frame f_t f_n f_o f_p hw_states iter_step Nat.eqb INR nofZ NumR TimeR t_num].
  rewrite Rmult_0_l, Rplus_0_r. reflexivity.
Qed.
Lemma time1_R j : time1 c j = INR j * dt.
Proof. unfold time1. cbn [nmul nofZ TimeR t_num NumR]. now rewrite <- INR_IZR_INZ. Qed.

Lemma last_firstn {X} (l : list X) m x d : nth_error l m = Some x -> last (firstn (S m) l) d = x.
Proof.
  revert m. induction l as [|y l IH]; intros [|m] H; try discriminate.
  - cbn in *. now injection H as ->.
  - change (nth_error l m = Some x) in H. specialize (IH m H). change (last (y :: firstn (S m) l) d = x).
    destruct l as [|z l]; [destruct m; discriminate|]. exact IH.
Qed.
Lemma last_state_of_log g l : holds_state (fun _ => Some (Whole (s_zeroV HW_))) g (to_log l) (c_blen c * (length (to_log l) / c_blen c)) ->
  file_last_state ny nx (c_blen c) (map fst l) g.
Proof.
  intros H. assert (El : length (to_log l) = length (map fst l)) by (unfold to_log; now rewrite !map_length).
  rewrite El in H. unfold file_last_state.
  assert (Hle : (c_blen c * (length (map fst l) / c_blen c) <= length (map fst l))%nat).
  { apply Nat.mul_div_le. pose proof (hs_blen _ _ _ _ _ _ _ _ _ HS). lia. }
  set (m := (c_blen c * (length (map fst l) / c_blen c))%nat) in *.
  destruct m as [|m].
  { cbn [firstn last]. unfold file_state. rewrite !H by (cbn; tauto). auto. }
  assert (E : nth_error (to_log l) m = match nth_error l m with Some xa => Some (f_t (fst xa), gp (f_n (fst xa)) (f_o (fst xa)) (f_p (fst xa)) (snd xa)) | None => None end)
    by (unfold to_log; now rewrite nth_error_map; destruct (nth_error l m)).
  rewrite map_length in Hle. destruct (nth_error l m) as [xa|] eqn:El2; [|apply nth_error_None in El2; lia].
  rewrite (last_firstn _ m (fst xa)) by (rewrite nth_error_map, El2; reflexivity).
  unfold file_state. rewrite !H, E by (cbn; tauto). auto.
Qed.
Lemma states_exist before (g : h5 (arr R) R) l m : (forall k, In k state_keys -> exists v, before k = Some (Whole v)) ->
  (m <= length l)%nat -> holds_state before g l m -> forall k, In k state_keys -> exists v, dget (dsets g) k = Some (Whole v).
Proof.
  intros Hb Hm H k Hk. rewrite (H k Hk). destruct m as [|m]; [now apply Hb|].
  destruct (nth_error l m) eqn:E; [eauto|]. apply nth_error_None in E. lia.
Qed.
Lemma hw_run_fresh y0 phi0 fs :
  c_phys c = phys -> NoDup (keys phys) ->
  (fs = None \/ c_force c = true) ->
  (let at_ := save_params_of c phys false in exists fdt,
   dget at_ "x_save" = Some (AZ (Z.of_nat xs)) /\ dget at_ "y_save" = Some (AZ (Z.of_nat ys)) /\
   dget at_ "k0" = Some (AT k0) /\ dget at_ "c1" = Some (AT (pc1 p)) /\ dget at_ "frame_dt" = Some fdt) ->
  let frames := map (hw_frame p ny nx dx dt y0 phi0) (recorded_its c (Z.to_nat (R_trunc (c_end c / dt)))) in
  exists g, result_of (run HW_ c (plasma0 (grid ny nx (fst y0)) (grid ny nx (snd y0)) (grid ny nx phi0))) fs = Ok tt
    /\ disk_of (run HW_ c (plasma0 (grid ny nx (fst y0)) (grid ny nx (snd y0)) (grid ny nx phi0))) fs = Some g
    /\ attrs g = save_params_of c phys false
    /\ file_frames rnd dsf ys xs frames g
    /\ (forall k, In k (c_props c) -> file_prop rnd dsf ys xs dxs (pc1 p) frames g k)
    /\ (add_last c = true -> file_last_state ny nx (c_blen c) frames g
          /\ forall k, In k state_keys -> exists v, dget (dsets g) k = Some (Whole v)).
Proof.
  intros Ep HN Hfs (fdt & Ex & Ey & Ek & Ec & Ef) frames. rewrite <- Ep in HN, Ex, Ey, Ek, Ec, Ef |- *.
  set (pl0 := plasma0 _ _ _).
  change pl0 with (gp (fst y0) (snd y0) phi0 0) in *. clear pl0.
  pose proof (goes_ok y0 phi0 0) as G. rewrite Rminus_0_r, <- Ep in G.
  edestruct (run_fresh_full HW_ c (is_frame ys xs) (gp (fst y0) (snd y0) phi0 0)) as (g & R1 & D1 & Rec & A1 & S1 & PR & _).
  - apply HS.
  - exact Hfs.
  - apply HS.
  - pose proof (hs_snaps _ _ _ _ _ _ _ _ _ HS). apply Z.eqb_neq. lia.
  - exact HN.
  - apply ds_ok.
  - exact G.
  - exact apart1_ok.
  - eapply props_ok; eassumption.
  - rewrite fresh_log_frs by (intros; apply time1_R).
    apply (rows_frames (fun _ => [])). intros k _. constructor.
  - exists g. rewrite fresh_log_frs in Rec, PR, S1 by (intros; apply time1_R).
    split; [exact R1|]. split; [exact D1|]. split; [exact A1|]. split; [|split].
    + apply file_frames_of in Rec. rewrite frs_fst in Rec. exact Rec.
    + intros k Hk. unfold file_prop. rewrite (PR k Hk). rewrite rows_n, rows_p, rows_o, frs_fst. do 2 f_equal. now apply prop_rows_ok.
    + intros Hl. split.
      * unfold frames. rewrite <- frs_fst. eapply last_state_of_log, S1, Hl.
      * eapply states_exist; [| |exact (S1 Hl)]; [intros; eexists; reflexivity|]. apply Nat.mul_div_le. pose proof (hs_blen _ _ _ _ _ _ _ _ _ HS). lia.
Qed.

(** ** run2 *)
Lemma props_apart_ok : props_apart c.
Proof using HS rnd.
  intros k H. apply props_in in H. split.
  - intros H'. unfold ks2 in H'. apply in_app_iff in H'. destruct H' as [H'|H'].
    + cbn in H, H'. intuition congruence.
    + apply in_map_iff in H'. destruct H' as (q & E & _). unfold fr in E. cbn [String.append] in E. subst k.
      cbn in H. intuition discriminate.
  - intros H'. cbn in H, H'. intuition congruence.
Qed.
Lemma sum_repeat j x : fold_left Rplus (repeat dt j) x = x + INR j * dt.
Proof.
  revert x. induction j as [|j IH]; intros x; cbn [repeat fold_left]; [cbn; ring|]. rewrite IH, S_INR. ring.
Qed.
Lemma time2_R a j : time2 c a j = a + INR j * dt.
Proof.
  unfold time2. destruct j as [|j]; [cbn; ring|].
  destruct (c_adaptive c).
  - cbn [nadd t_sum TimeR t_num NumR]. rewrite sum_repeat. ring.
  - rewrite time1_R. reflexivity.
Qed.
Definition pv (pl : plasma (arr R) R) (k : string) : R :=
  prop_value k ny nx dx (pc1 p) (at2 (p_density pl)) (at2 (p_phi pl)) (at2 (p_omega pl)).
Hypothesis Hfit : forall k, In k (c_props c) -> prop_fits k ny nx.
Lemma has_props_ok n o ph a : has_props HW_ c pv (gp n o ph a).
Proof.
  intros k Hk. cbn [hw_sim s_prop gp p_density p_phi p_omega]. rewrite (hs_c1 _ _ _ _ _ _ _ _ _ HS).
  rewrite hw_prop_grid; try apply HS; auto using dx_ne. unfold pv. cbn [gp p_density p_phi p_omega].
  rewrite prop_value_at2; try apply HS; auto using dx_ne.
Qed.
Lemma pv_gp n o ph a k : In k (c_props c) -> pv (gp n o ph a) k = prop_value k ny nx dx (pc1 p) n ph o.
Proof. intros Hk. unfold pv. cbn [gp p_density p_phi p_omega]. apply prop_value_at2; try apply HS; auto using dx_ne. Qed.

Lemma goes2_ok y0 ph a n :
  (forall j, (j < n)%nat -> t_round4 (a + INR j * dt) < c_end c) -> c_end c <= t_round4 (a + INR n * dt) ->
  goes2 HW_ c phys a (gp (fst y0) (snd y0) ph a) (grid ny nx (invlap ny nx dx (snd y0))) (traj y0 a) n ds pv.
Proof.
  intros H1 H2. split; [apply phi_ok|]. split; [apply evolves_ok|]. split.
  - intros j _. split; [apply ds_ok|apply has_props_ok].
  - split; [|split].
    + intros j Hj. rewrite time2_R. cbn [nltb TimeR t_num NumR]. specialize (H1 j Hj). now destruct (Rlt_dec _ _).
    + intros. reflexivity.
    + left. rewrite time2_R. cbn [nltb TimeR t_num NumR]. destruct (Rlt_dec _ _); [lra|reflexivity].
Qed.
Lemma fullres_of g l k : In k (c_props c) -> records2 HW_ c ds pv (fun _ => []) g (to_log l) -> file_fullres rnd ny nx dx (pc1 p) (map fst l) g k.
Proof.
  intros Hk [_ H]. specialize (H k Hk). unfold file_fullres. unfold fr in H. rewrite H. cbn [app]. do 2 f_equal.
  unfold to_log. rewrite !map_map. apply map_ext. intros x. cbn [snd fst hw_sim s_f32T]. now rewrite pv_gp.
Qed.

Lemma hw_run2_fresh y0 phi0 fs n fuel :
  c_phys c = phys -> NoDup (keys phys) ->
  (fs = None \/ c_force c = true) ->
  (let at_ := save_params_of c phys (c_adaptive c) in exists fdt,
   dget at_ "x_save" = Some (AZ (Z.of_nat xs)) /\ dget at_ "y_save" = Some (AZ (Z.of_nat ys)) /\
   dget at_ "k0" = Some (AT k0) /\ dget at_ "c1" = Some (AT (pc1 p)) /\ dget at_ "frame_dt" = Some fdt) ->
  (forall j, (j < n)%nat -> t_round4 (INR j * dt) < c_end c) -> c_end c <= t_round4 (INR n * dt) -> (n < fuel)%nat ->
  let all := map (hw_frame p ny nx dx dt y0 phi0) (recorded_its c n) in
  let frames := if Rlt_dec (c_rec c) (INR n * dt) then all else firstn (c_blen c * (length all / c_blen c)) all in
  exists g, result_of (run2 HW_ c fuel (plasma0 (grid ny nx (fst y0)) (grid ny nx (snd y0)) (grid ny nx phi0))) fs = Ok tt
    /\ disk_of (run2 HW_ c fuel (plasma0 (grid ny nx (fst y0)) (grid ny nx (snd y0)) (grid ny nx phi0))) fs = Some g
    /\ attrs g = save_params_of c phys (c_adaptive c)
    /\ file_frames rnd dsf ys xs frames g
    /\ (forall k, In k (c_props c) -> file_prop rnd dsf ys xs dxs (pc1 p) frames g k /\ file_fullres rnd ny nx dx (pc1 p) frames g k)
    /\ (add_last c = true -> file_last_state ny nx (c_blen c) all g
          /\ forall k, In k state_keys -> exists v, dget (dsets g) k = Some (Whole v)).
Proof.
  intros Ep HN Hfs (fdt & Ex & Ey & Ek & Ec & Ef) H1 H2 Hfu all frames. rewrite <- Ep in HN, Ex, Ey, Ek, Ec, Ef |- *.
  set (pl0 := plasma0 _ _ _).
  change pl0 with (gp (fst y0) (snd y0) phi0 0) in *. clear pl0.
  assert (G : goes2 HW_ c phys 0 (gp (fst y0) (snd y0) phi0 0) (grid ny nx (invlap ny nx dx (snd y0))) (traj y0 0) n ds pv).
  { apply goes2_ok; [intros j Hj; rewrite Rplus_0_l; now apply H1|now rewrite Rplus_0_l]. }
  rewrite <- Ep in G.
  assert (T2 : forall j, (1 <= j)%nat -> time2 c 0 j = INR j * dt) by (intros; rewrite time2_R; apply Rplus_0_l).
  pose proof (fresh_log_frs y0 phi0 (time2 c 0) n T2) as EL.
  assert (El : length (to_log (frs y0 phi0 (recorded_its c n))) = length all)
    by (unfold to_log, frs, all; now rewrite !map_length).
  assert (Efn : forall m, firstn m (to_log (frs y0 phi0 (recorded_its c n))) = to_log (firstn m (frs y0 phi0 (recorded_its c n))))
    by (intros; unfold to_log; apply firstn_map).
  edestruct (top_run2_fresh (arr R) R TimeR HW_ c (is_frame ys xs) (gp (fst y0) (snd y0) phi0 0)) as (g & R1 & D1 & Rec & A1 & S1 & PR).
  - apply HS.
  - exact Hfs.
  - apply HS.
  - pose proof (hs_snaps _ _ _ _ _ _ _ _ _ HS). apply Z.eqb_neq. lia.
  - apply HS.
  - reflexivity.
  - exact HN.
  - apply ds_ok.
  - apply has_props_ok.
  - exact props_apart_ok.
  - eapply props_ok; eassumption.
  - exact G.
  - exact Hfu.
  - change (nofZ 0) with 0. rewrite EL. rewrite Efn.
    apply (rows_frames (fun _ => [])). intros k _. constructor.
  - change (nofZ 0) with 0 in Rec, PR, S1. rewrite EL in S1. rewrite EL, El, Efn in Rec, PR. rewrite time2_R, Rplus_0_l in Rec, PR.
    assert (Emf : forall m, map fst (firstn m (frs y0 phi0 (recorded_its c n))) = firstn m all).
    { intros m. rewrite <- firstn_map, frs_fst. reflexivity. }
    set (m := if nltb (c_rec c) (INR n * dt) then length all else (c_blen c * (length all / c_blen c))%nat) in *.
    assert (EF : firstn m all = frames).
    { unfold m, frames. cbn [nltb TimeR t_num NumR]. destruct (Rlt_dec (c_rec c) (INR n * dt)); [apply firstn_all|reflexivity]. }
    exists g. split; [exact R1|]. split; [exact D1|]. split; [exact A1|]. split; [|split].
    + destruct Rec as [Rec _]. apply file_frames_of in Rec. rewrite Emf, EF in Rec. exact Rec.
    + intros k Hk. split.
      * unfold file_prop. rewrite (PR k Hk). rewrite rows_n, rows_p, rows_o, Emf, EF. do 2 f_equal. now apply prop_rows_ok.
      * rewrite <- EF, <- Emf. now apply fullres_of.
    + intros Hl. split.
      * unfold all. rewrite <- frs_fst. eapply last_state_of_log, S1, Hl.
      * eapply states_exist; [| |exact (S1 Hl)]; [intros; eexists; reflexivity|]. apply Nat.mul_div_le. pose proof (hs_blen _ _ _ _ _ _ _ _ _ HS). lia.
Qed.
End Run.
