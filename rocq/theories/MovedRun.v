(** Runs from initial fields that differ by a symmetry of the domain. *)
From Coq Require Import Arith ZArith Bool Reals String List Lia Lra.
From Verif Require Import Num NdArray NdFacts Spec SumFacts GradFacts Cplx DftFacts SpecFourier SpecDiag LapFacts ArakawaFacts PoissonFacts PoissonProps SpecHW SpecPlasma HWFacts StepFacts RhsFacts SymFacts
  ModelHW ModelBackend ModelIO ModelRun ModelRunHW SpecIO SpecRun SpecRunHW RunHWFacts RunHWProps RunHWTop ModelDownsample ModelArgs SpecDownsample DsFacts DsFourier SpecArgs DsField DsTop SpecMoved MovedFacts.
Import ListNotations.
Local Open Scope R_scope.
#[local] Existing Instance TimeR.

(** linear symmetries of the equations *)
Record eq_sym (p : par) (ny nx : nat) (dx : R) (T : field -> field) : Prop := {
  es_add : forall f g, agree ny nx (T (fadd f g)) (fadd (T f) (T g));
  es_scale : forall c f, agree ny nx (T (fscale c f)) (fscale c (T f));
  es_inv : forall o, agree ny nx (invlap ny nx dx (T o)) (T (invlap ny nx dx o));
  es_n : forall phi n, agree ny nx (rhs_n p ny nx dx (T phi) (T n)) (T (rhs_n p ny nx dx phi n));
  es_o : forall phi n o, agree ny nx (rhs_o p ny nx dx (T phi) (T n) (T o)) (T (rhs_o p ny nx dx phi n o));
  es_ext : forall f g, agree ny nx f g -> agree ny nx (T f) (T g);
  es_zero : agree ny nx (T (fconst 0)) (fconst 0) }.
(** symmetries of the properties that the rounding of stored numbers respects *)
Record prop_sym (ny nx : nat) (T : field -> field) : Prop := {
  ps_ext : forall f g, agree ny nx f g -> agree ny nx (T f) (T g);
  ps_prop : forall k dx c1 n q o, prop_value k ny nx dx c1 (T n) (T q) (T o) = prop_value k ny nx dx c1 n q o }.

Lemma eq_sym_tr p ny nx dx sy sx : (0 < ny)%nat -> (0 < nx)%nat -> dx <> 0 -> eq_sym p ny nx dx (ftrans ny nx sy sx).
Proof.
  intros Hy Hx Hd. constructor; intros.
  - apply shift_add.
  - apply shift_scale.
  - now apply shift_inv.
  - now apply rhs_n_shift.
  - now apply rhs_o_shift.
  - now apply shift_ext.
  - intros i j _ _. reflexivity.
Qed.
Lemma eq_sym_mir p ny nx dx : (0 < ny)%nat -> (0 < nx)%nat -> dx <> 0 -> eq_sym p ny nx dx (fmirror nx).
Proof.
  intros Hy Hx Hd. constructor; intros.
  - exact (mirror_add ny nx f g).
  - exact (mirror_scale ny nx c f).
  - exact (mirror_inv ny nx dx Hy Hx Hd o).
  - exact (rhs_n_mirror p ny nx dx Hy Hx phi n).
  - exact (rhs_o_mirror p ny nx dx Hy Hx phi n o).
  - exact (mirror_ext ny nx Hx f g H).
  - intros i j _ _. unfold fmirror, fconst. apply Ropp_0.
Qed.
Lemma prop_sym_tr ny nx sy sx : (0 < ny)%nat -> (0 < nx)%nat -> prop_sym ny nx (ftrans ny nx sy sx).
Proof. intros Hy Hx. constructor; intros; [now apply shift_ext|now apply prop_tr]. Qed.
Lemma prop_sym_mir ny nx : (0 < ny)%nat -> (0 < nx)%nat -> prop_sym ny nx (fmirror nx).
Proof. intros Hy Hx. constructor; intros; [exact (mirror_ext ny nx Hx f g H)|now apply prop_mir]. Qed.

Section Run.
Variables (b : backend R) (p : par) (ny nx ys xs : nat) (k0 : R) (dsf : field -> field) (c : cfg (arr R) R) (rnd : R -> R).
Hypothesis HS : hw_setup b p ny nx ys xs k0 dsf c.
Variables T T' : field -> field.
Notation dx := (c_dx c).
Notation dt := (c_step c).
Hypothesis HT : eq_sym p ny nx dx T.
Hypothesis HP : prop_sym ny nx T.
Hypothesis HP' : prop_sym ys xs T'.
Hypothesis Hds : forall f, agree ys xs (dsf (T f)) (T' (dsf f)).
Hypothesis Hr : forall f : field, agree ys xs (fun i j => rnd (T' f i j)) (T' (fun i j => rnd (f i j))).
Let Hy : (0 < ny)%nat := hs_ny _ _ _ _ _ _ _ _ _ HS.
Let Hx : (0 < nx)%nat := hs_nx _ _ _ _ _ _ _ _ _ HS.
Let Hys : (0 < ys)%nat := hs_ys _ _ _ _ _ _ _ _ _ HS.
Let Hxs : (0 < xs)%nat := hs_xs _ _ _ _ _ _ _ _ _ HS.
Notation sfld f := (fun i j => rnd (dsf f i j)).

Lemma dsf_ext f g : agree ny nx f g -> agree ys xs (dsf f) (dsf g).
Proof.
  intros E. pose proof (hs_down _ _ _ _ _ _ _ _ _ HS f) as A. pose proof (hs_down _ _ _ _ _ _ _ _ _ HS g) as B.
  rewrite (grid_ext ny nx f g E) in A. rewrite B in A. assert (K : grid ys xs (dsf f) = grid ys xs (dsf g)) by congruence.
  exact (grid_inj ys xs _ _ K).
Qed.
Lemma saved_moved f g : agree ny nx g (T f) -> agree ys xs (sfld g) (T' (sfld f)).
Proof.
  intros E. eapply agree_trans; [|apply Hr]. intros i j Hi Hj. f_equal. rewrite (dsf_ext _ _ E i j Hi Hj). now apply Hds.
Qed.
Definition fmoved (x x' : frame) : Prop :=
  f_t x' = f_t x /\ agree ny nx (f_n x') (T (f_n x)) /\ agree ny nx (f_o x') (T (f_o x)) /\ agree ny nx (f_p x') (T (f_p x)).
Variables (y0 y0' : field * field) (phi0 phi0' : field).
Hypothesis Ey : sagree ny nx y0' (T (fst y0), T (snd y0)).
Hypothesis Ep : agree ny nx phi0' (T phi0).
Lemma states_moved j : sagree ny nx (hw_states p ny nx dx dt y0' j) (sT T (hw_states p ny nx dx dt y0 j)).
Proof.
  unfold hw_states. induction j as [|j IH]; [exact Ey|]. rewrite !iter_step_S. unfold rk4.
  pose proof (dx_ne b p ny nx ys xs k0 dsf c rnd HS) as Hd.
  destruct HT. apply sT_rk4_from; auto. apply sT_rhs; auto.
Qed.
Lemma frame_moved j : fmoved (hw_frame p ny nx dx dt y0 phi0 j) (hw_frame p ny nx dx dt y0' phi0' j).
Proof.
  destruct (states_moved j) as [A B]. unfold fmoved, hw_frame. cbn [f_t f_n f_o f_p]. split; [reflexivity|]. split; [exact A|]. split; [exact B|].
  destruct (j =? 0)%nat; [exact Ep|]. eapply agree_trans; [|apply (es_inv _ _ _ _ _ HT)]. intros a e _ _. now apply invlap_ext.
Qed.
Lemma frames_moved js : Forall2 fmoved (map (hw_frame p ny nx dx dt y0 phi0) js) (map (hw_frame p ny nx dx dt y0' phi0') js).
Proof. induction js; constructor; auto using frame_moved. Qed.
Lemma rows_of l l' (sel : frame -> field) : (forall x x', fmoved x x' -> agree ny nx (sel x') (T (sel x))) -> Forall2 fmoved l l' ->
  rows_moved ys xs T' (map (fun x => RFrame (grid ys xs (sfld (sel x)))) l) (map (fun x => RFrame (grid ys xs (sfld (sel x)))) l').
Proof.
  intros Hs. induction 1; constructor; [|assumption]. exists (sfld (sel x)). split; [reflexivity|]. f_equal. apply grid_ext. now apply saved_moved, Hs.
Qed.
Lemma files_moved l l' g h : Forall2 fmoved l l' -> file_frames rnd dsf ys xs l g -> file_frames rnd dsf ys xs l' h ->
  (forall k, In k (c_props c) -> file_prop rnd dsf ys xs (domain_dx k0 xs) (pc1 p) l g k) ->
  (forall k, In k (c_props c) -> file_prop rnd dsf ys xs (domain_dx k0 xs) (pc1 p) l' h k) ->
  file_moved ys xs T' (c_props c) g h.
Proof.
  intros F (A1 & A2 & A3 & A4) (B1 & B2 & B3 & B4) PA PB. split; [|split].
  - intros name Hin. cbn in Hin. destruct Hin as [<-|[<-|[<-|[]]]]; eexists; eexists; (split; [eassumption|split; [eassumption|]]); apply rows_of; try assumption; now intros x x' (_ & ? & ? & ?).
  - eexists. split; [exact A4|]. rewrite B4. do 2 f_equal. clear - F. induction F as [|x x' l l' (E & _) _ IH]; cbn [map]; [reflexivity|]. now rewrite E, IH.
  - intros k Hk. eexists. split; [apply (PA k Hk)|]. rewrite (PB k Hk). do 2 f_equal. clear - F HP' Hr Hds HS Hys Hxs.
    induction F as [|x x' l l' (_ & En & Eo & Eq) _ IH]; cbn [map]; [reflexivity|]. rewrite IH. f_equal. do 2 f_equal.
    rewrite (prop_ext ys xs _ _ Hys Hxs k _ _ _ _ _ _ (saved_moved _ _ En) (saved_moved _ _ Eq) (saved_moved _ _ Eo)).
    apply (ps_prop _ _ _ HP').
Qed.
Lemma last_moved l l' : Forall2 fmoved l l' -> fmoved (last l frame0) (last l' frame0).
Proof.
  assert (Z : fmoved frame0 frame0). { split; [reflexivity|]. repeat split; apply agree_sym; exact (es_zero _ _ _ _ _ HT). }
  induction 1 as [|x x' l l' E F IH]; [exact Z|]. destruct F; [exact E|]. exact IH.
Qed.
Lemma firstn_moved n l l' : Forall2 fmoved l l' -> Forall2 fmoved (firstn n l) (firstn n l').
Proof. intros F. revert n. induction F; intros [|n]; cbn; constructor; auto. Qed.
Lemma len_moved l l' : Forall2 fmoved l l' -> length l = length l'.
Proof. induction 1; cbn; congruence. Qed.
Lemma states_file l l' g h : Forall2 fmoved l l' -> file_last_state ny nx (c_blen c) l g -> file_last_state ny nx (c_blen c) l' h -> state_moved ny nx T g h.
Proof.
  intros F A B. unfold file_last_state in *. rewrite <- (len_moved _ _ F) in B.
  destruct (last_moved _ _ (firstn_moved (c_blen c * (length l / c_blen c)) _ _ F)) as (_ & En & Eo & Eq).
  destruct A as (A1 & A2 & A3), B as (B1 & B2 & B3). intros name Hin. cbn in Hin.
  destruct Hin as [<-|[<-|[<-|[]]]]; eexists; (split; [eassumption|]); [rewrite B1|rewrite B2|rewrite B3]; do 2 f_equal; now apply grid_ext.
Qed.
Lemma fullres_moved l l' g h k : Forall2 fmoved l l' -> file_fullres rnd ny nx dx (pc1 p) l g k -> file_fullres rnd ny nx dx (pc1 p) l' h k ->
  exists r, dget (dsets g) (String.append "fullres_" k) = Some (Rows r) /\ dget (dsets h) (String.append "fullres_" k) = Some (Rows r).
Proof.
  intros F A B. eexists. split; [exact A|]. rewrite B. do 2 f_equal. clear - F HP HS Hy Hx.
  induction F as [|x x' l l' (_ & En & Eo & Eq) _ IH]; cbn [map]; [reflexivity|]. rewrite IH. f_equal. do 2 f_equal.
  rewrite (prop_ext ny nx _ _ Hy Hx k _ _ _ _ _ _ En Eq Eo). apply (ps_prop _ _ _ HP).
Qed.
Lemma moved_run fs fs' : pzon p = false ->
  c_phys c = physics_params dx (Z.of_nat (pN p)) (pc1 p) (pnu p) k0 (ppb p) (pkap p) ->
  (fs = None \/ c_force c = true) -> (fs' = None \/ c_force c = true) ->
  let sim y phi := run (hw_sim b rnd ny nx ys xs) c (plasma0 (grid ny nx (fst y)) (grid ny nx (snd y)) (grid ny nx phi)) in
  exists g h, disk_of (sim y0 phi0) fs = Some g /\ disk_of (sim y0' phi0') fs' = Some h /\
    file_moved ys xs T' (c_props c) g h /\ (add_last c = true -> state_moved ny nx T g h).
Proof.
  intros Hz Hph Hf Hf' sim.
  destruct (top_hw_run b p ny nx ys xs k0 dsf c rnd y0 phi0 fs HS Hz Hph Hf) as (g & _ & Dg & Fg & Pg & Sg).
  destruct (top_hw_run b p ny nx ys xs k0 dsf c rnd y0' phi0' fs' HS Hz Hph Hf') as (h & _ & Dh & Fh & Ph & Sh).
  exists g, h. split; [exact Dg|]. split; [exact Dh|]. split.
  - exact (files_moved _ _ g h (frames_moved _) Fg Fh Pg Ph).
  - intros L. exact (states_file _ _ g h (frames_moved _) (Sg L) (Sh L)).
Qed.
Lemma moved_run2 fs fs' n fuel : (forall k, In k (c_props c) -> prop_fits k ny nx) ->
  c_phys c = physics_params2 dx (Z.of_nat (pN p)) (pc1 p) (pnu p) k0 (ppb p) (pkap p) (pzon p) ->
  (fs = None \/ c_force c = true) -> (fs' = None \/ c_force c = true) ->
  (forall j, (j < n)%nat -> t_round4 (INR j * dt) < c_end c) -> c_end c <= t_round4 (INR n * dt) -> (n < fuel)%nat ->
  let sim y phi := run2 (hw_sim b rnd ny nx ys xs) c fuel (plasma0 (grid ny nx (fst y)) (grid ny nx (snd y)) (grid ny nx phi)) in
  exists g h, disk_of (sim y0 phi0) fs = Some g /\ disk_of (sim y0' phi0') fs' = Some h /\
    file_moved ys xs T' (c_props c ++ map (String.append "fullres_") (c_props c)) g h /\ (add_last c = true -> state_moved ny nx T g h).
Proof.
  intros Hfit Hph Hf Hf' H1 H2 Hfu sim.
  destruct (top_hw_run2 b p ny nx ys xs k0 dsf c rnd y0 phi0 fs n fuel HS Hfit Hph Hf H1 H2 Hfu) as (g & _ & Dg & Fg & Pg & Sg).
  destruct (top_hw_run2 b p ny nx ys xs k0 dsf c rnd y0' phi0' fs' n fuel HS Hfit Hph Hf' H1 H2 Hfu) as (h & _ & Dh & Fh & Ph & Sh).
  exists g, h. split; [exact Dg|]. split; [exact Dh|]. split.
  - set (F := frames_moved (recorded_its c n)) in *.
    set (l := map (hw_frame p ny nx dx dt y0 phi0) (recorded_its c n)) in *. set (l' := map (hw_frame p ny nx dx dt y0' phi0') (recorded_its c n)) in *.
    assert (F2 : Forall2 fmoved (if Rlt_dec (c_rec c) (INR n * dt) then l else firstn (c_blen c * (length l / c_blen c)) l)
                 (if Rlt_dec (c_rec c) (INR n * dt) then l' else firstn (c_blen c * (length l' / c_blen c)) l')).
    { destruct (Rlt_dec _ _); [exact F|]. rewrite <- (len_moved _ _ F). now apply firstn_moved. }
    destruct (files_moved _ _ g h F2 Fg Fh (fun k Hk => proj1 (Pg k Hk)) (fun k Hk => proj1 (Ph k Hk))) as (M1 & M2 & M3).
    split; [exact M1|]. split; [exact M2|]. intros k Hk. apply in_app_iff in Hk. destruct Hk as [Hk|Hk]; [now apply M3|].
    apply in_map_iff in Hk. destruct Hk as (k' & <- & Hk). exact (fullres_moved _ _ g h k' F2 (proj2 (Pg k' Hk)) (proj2 (Ph k' Hk))).
  - intros L. exact (states_file _ _ g h (frames_moved _) (Sg L) (Sh L)).
Qed.
End Run.

(** ** what the frames of a run with the user's arguments do *)
Lemma save_same a m : save_size a = Z.of_nat m -> a_factor a = 1 -> m = a_grid a.
Proof. intros E F. unfold save_size in E. destruct (Req_EM_T _ _); [|contradiction]. now apply Nat2Z.inj. Qed.
Lemma frame_fnc_shift a m sy sx ty tx : (0 < a_grid a)%nat -> (0 < m)%nat -> save_size a = Z.of_nat m ->
  (sy * Z.of_nat m = ty * Z.of_nat (a_grid a))%Z -> (sx * Z.of_nat m = tx * Z.of_nat (a_grid a))%Z ->
  forall f, agree m m (frame_fnc a m (ftrans (a_grid a) (a_grid a) sy sx f)) (ftrans m m ty tx (frame_fnc a m f)).
Proof.
  intros Hg Hm Hs Ey Ex f i j Hi Hj. unfold frame_fnc. destruct (Req_EM_T (a_factor a) 1) as [E1|_].
  - assert (m = a_grid a) by now apply save_same. subst m.
    assert (sy = ty) by (apply (Z.mul_reg_r sy ty (Z.of_nat (a_grid a))); lia).
    assert (sx = tx) by (apply (Z.mul_reg_r sx tx (Z.of_nat (a_grid a))); lia). now subst.
  - now apply resample2_shift.
Qed.
Lemma frame_fnc_mirror a m : (0 < a_grid a)%nat -> (0 < m)%nat -> save_size a = Z.of_nat m ->
  forall f, agree m m (frame_fnc a m (fmirror (a_grid a) f)) (fmirror m (frame_fnc a m f)).
Proof.
  intros Hg Hm Hs f i j Hi Hj. unfold frame_fnc. destruct (Req_EM_T (a_factor a) 1) as [E1|_].
  - assert (m = a_grid a) by now apply save_same. now subst m.
  - now apply resample2_mirror.
Qed.
Lemma dx_ne0 k0 n : k0 <> 0 -> (0 < n)%nat -> domain_dx k0 n <> 0.
Proof. intros Hk Hn. unfold domain_dx. pose proof (not_0_INR n ltac:(lia)). now apply two_pi_ne. Qed.
Lemma rnd_mir (rnd : R -> R) xs ys : (forall x, rnd (- x) = - rnd x) -> forall f : field, agree ys xs (fun i j => rnd (fmirror xs f i j)) (fmirror xs (fun i j => rnd (f i j))).
Proof. intros H f i j _ _. apply H. Qed.

Lemma args_moved b a m rnd T T' y0 phi0 fs fs' : args_ok b a (a_props a) m ->
  eq_sym (args_par a false) (a_grid a) (a_grid a) (domain_dx (a_k0 a) (a_grid a)) T -> prop_sym m m T' ->
  (forall f, agree m m (frame_fnc a m (T f)) (T' (frame_fnc a m f))) ->
  (forall f : field, agree m m (fun i j => rnd (T' f i j)) (T' (fun i j => rnd (f i j)))) ->
  (fs = None \/ a_force a = true) -> (fs' = None \/ a_force a = true) ->
  let g := a_grid a in
  let sim n o q := run (hw_sim b rnd g g m m) (run_cfg a) (plasma0 (grid g g n) (grid g g o) (grid g g q)) in
  exists h h', disk_of (sim (fst y0) (snd y0) phi0) fs = Some h /\ disk_of (sim (T (fst y0)) (T (snd y0)) (T phi0)) fs' = Some h' /\
    file_moved m m T' (a_props a) h h' /\ (add_last (run_cfg a) = true -> state_moved g g T h h').
Proof.
  intros A S P' D Rr Hf Hf' g sim.
  destruct (moved_run b (args_par a false) g g m m (a_k0 a) (frame_fnc a m) (run_cfg a) rnd
    (args_hw_setup b a _ (a_props a) m false A) T T' S P' D Rr y0 (T (fst y0), T (snd y0)) phi0 (T phi0)
    (conj (agree_refl _ _ _) (agree_refl _ _ _)) (agree_refl _ _ _) fs fs' eq_refl) as (h & h' & H); try assumption.
  - unfold run_cfg, args_cfg, args_par. cbn. rewrite Z2Nat.id by apply A. reflexivity.
  - exists h, h'. exact H.
Qed.
Lemma args_moved2 b a m rnd T T' y0 phi0 fs fs' n fuel : args_ok b a (effective_props a) m ->
  eq_sym (args_par a (a_zonal a)) (a_grid a) (a_grid a) (domain_dx (a_k0 a) (a_grid a)) T -> prop_sym (a_grid a) (a_grid a) T -> prop_sym m m T' ->
  (forall f, agree m m (frame_fnc a m (T f)) (T' (frame_fnc a m f))) ->
  (forall f : field, agree m m (fun i j => rnd (T' f i j)) (T' (fun i j => rnd (f i j)))) ->
  (fs = None \/ a_force a = true) -> (fs' = None \/ a_force a = true) ->
  (forall k, In k (effective_props a) -> prop_fits k (a_grid a) (a_grid a)) ->
  (forall j, (j < n)%nat -> t_round4 (INR j * a_step a) < a_end a) -> a_end a <= t_round4 (INR n * a_step a) -> (n < fuel)%nat ->
  let g := a_grid a in
  let sim n o q := run2 (hw_sim b rnd g g m m) (run2_cfg a) fuel (plasma0 (grid g g n) (grid g g o) (grid g g q)) in
  exists h h', disk_of (sim (fst y0) (snd y0) phi0) fs = Some h /\ disk_of (sim (T (fst y0)) (T (snd y0)) (T phi0)) fs' = Some h' /\
    file_moved m m T' (effective_props a ++ map (String.append "fullres_") (effective_props a)) h h' /\ (add_last (run2_cfg a) = true -> state_moved g g T h h').
Proof.
  intros A S P P' D Rr Hf Hf' Hfit H1 H2 Hfu g sim.
  destruct (moved_run2 b (args_par a (a_zonal a)) g g m m (a_k0 a) (frame_fnc a m) (run2_cfg a) rnd
    (args_hw_setup b a _ (effective_props a) m (a_zonal a) A) T T' S P P' D Rr y0 (T (fst y0), T (snd y0)) phi0 (T phi0)
    (conj (agree_refl _ _ _) (agree_refl _ _ _)) (agree_refl _ _ _) fs fs' n fuel) as (h & h' & H); try assumption.
  - unfold run2_cfg, args_cfg, args_par. cbn. rewrite Z2Nat.id by apply A. reflexivity.
  - exists h, h'. exact H.
Qed.
