(** Attributes of fresh files; plots and movies of recorded runs. *)
From Coq Require Import Arith ZArith Bool Reals String List Lia Lra Sorted.
Import List.
From Verif Require Import Num NdArray NdFacts Spec SpecHW SpecPlasma SpecDiag SpecFourier
  ModelHW ModelBackend ModelIO ModelRun ModelRunHW SpecIO SpecRun SpecRunHW IOFacts RunTop RunTop2 RunTimes RunHWFacts RunHWProps RunHWSplit RunHWTop RunProps KeepFacts AttrFacts
  ModelPlot SpecPlot PlotFacts PlotProps PlotCases HelpersFacts SpecAttr.
Import ListNotations.
Local Open Scope string_scope.

Lemma saved_describe {V T} {TN : TimeNum T} (c : cfg V T) ad : describes c ad (save_params_of c (c_phys c) ad).
Proof.
  unfold save_params_of, get_save_params. split; repeat (rewrite dget_dset; cbn [String.eqb Ascii.eqb Bool.eqb]); try reflexivity.
  intros k Hk. unfold run_keys in Hk. cbn [In] in Hk.
  repeat (rewrite dget_dset_other; [|intros ->; apply Hk; tauto]). reflexivity.
Qed.

Lemma describes_unique {V T} {TN : TimeNum T} (c : cfg V T) ad a a' : describes c ad a -> describes c ad a' -> forall k, dget a k = dget a' k.
Proof.
  intros [A1 A2 A3 A4 A5 A6 A7 A8 A9 A10] [B1 B2 B3 B4 B5 B6 B7 B8 B9 B10] k.
  destruct (in_dec string_dec k run_keys) as [H|H]; [|now rewrite A10, B10].
  unfold run_keys in H. cbn [In] in H. repeat (destruct H as [<-|H]; [congruence|]). destruct H.
Qed.
Lemma saved_nodup {V T} {TN : TimeNum T} (c : cfg V T) ad : NoDup (keys (c_phys c)) -> NoDup (keys (save_params_of c (c_phys c) ad)).
Proof. intros H. unfold save_params_of, get_save_params. repeat apply NoDup_dset. exact H. Qed.
Lemma attr_any_run {V T} {TN : TimeNum T} (s : sim V T) (c : cfg V T) pl0 D fs j g k a : NoDup (keys (c_phys c)) -> describes c false D ->
  crash_after (zero_like s) j (run s c pl0) fs = Some g -> dget (attrs g) k = Some a ->
  (exists g0, fs = Some g0 /\ dget (attrs g0) k = Some a) \/ dget D k = Some a.
Proof.
  intros N HD Hc Ha. destruct (proj2 (attr_run s c pl0) fs j g k a Hc Ha) as [H|H]; [now left|]. right.
  rewrite (describes_unique c false D _ HD (saved_describe c false)). apply In_dget; [now apply saved_nodup|exact H].
Qed.
Lemma attr_any_run2 {V T} {TN : TimeNum T} (s : sim V T) (c : cfg V T) fuel pl0 D fs j g k a : NoDup (keys (c_phys c)) -> describes c (c_adaptive c) D ->
  crash_after (zero_like s) j (run2 s c fuel pl0) fs = Some g -> dget (attrs g) k = Some a ->
  (exists g0, fs = Some g0 /\ dget (attrs g0) k = Some a) \/ dget D k = Some a.
Proof.
  intros N HD Hc Ha. destruct (proj2 (attr_run2 s c fuel pl0) fs j g k a Hc Ha) as [H|H]; [now left|]. right.
  rewrite (describes_unique c (c_adaptive c) D _ HD (saved_describe c (c_adaptive c))). apply In_dget; [now apply saved_nodup|exact H].
Qed.

Lemma described_run (V T : Type) (TN : TimeNum T) (s : sim V T) (c : cfg V T) P pl0 phi traj steps n ds fs tbl :
  c_output c = true -> (fs = None \/ c_force c = true) -> 1 <= c_blen c -> (c_snaps c =? 0)%Z = false -> NoDup (keys (c_phys c)) ->
  downsampled c ds pl0 -> goes s c (c_phys c) (nofZ 0) pl0 phi traj steps n ds ->
  apart1 c -> props_fine s c P (save_params_of c (c_phys c) false) tbl ->
  frames_P P (fun k => map (fun tp => frame_row s ds (fst tp) (snd tp) k) (fresh_log c pl0 (time1 c) traj n)) ->
  exists g, result_of (run s c pl0) fs = Ok tt /\ disk_of (run s c pl0) fs = Some g /\ describes c false (attrs g).
Proof.
  intros H1 H2 H3 H4 H5 H6 H7 H8 H9 H10.
  destruct (top_fresh V T TN s c P pl0 phi traj steps n ds fs tbl H1 H2 H3 H4 H5 H6 H7 H8 H9 H10) as (g & Hr & Hd & _ & Ha & _).
  exists g. rewrite Ha. split; [exact Hr|]. split; [exact Hd|]. apply saved_describe.
Qed.
Lemma described_run2 (V T : Type) (TN : TimeNum T) (s : sim V T) (c : cfg V T) P pl0 phi traj n ds pv fuel fs tbl q :
  c_output c = true -> (fs = None \/ c_force c = true) -> 1 <= c_blen c -> (c_snaps c =? 0)%Z = false -> NoDup (c_props c) ->
  t_int (ndiv (c_end c) (c_step c)) = Ok q ->
  NoDup (keys (c_phys c)) -> downsampled c ds pl0 -> has_props s c pv pl0 ->
  props_apart c -> props_fine s c P (save_params_of c (c_phys c) (c_adaptive c)) tbl ->
  goes2 s c (c_phys c) (nofZ 0) pl0 phi traj n ds pv -> n < fuel ->
  let l := fresh_log c pl0 (time2 c (nofZ 0)) traj n in
  let m := if nltb (c_rec c) (time2 c (nofZ 0) n) then List.length l else c_blen c * (List.length l / c_blen c) in
  frames_P P (fun k => map (fun tp => frame_row s ds (fst tp) (snd tp) k) (firstn m l)) ->
  exists g, result_of (run2 s c fuel pl0) fs = Ok tt /\ disk_of (run2 s c fuel pl0) fs = Some g /\ describes c (c_adaptive c) (attrs g).
Proof.
  intros H1 H2 H3 H4 H5 H6 H7 H8 H9 H10 H11 H12 H13 l m H14.
  destruct (top_run2_fresh V T TN s c P pl0 phi traj n ds pv fuel fs tbl q H1 H2 H3 H4 H5 H6 H7 H8 H9 H10 H11 H12 H13 H14) as (g & Hr & Hd & _ & Ha & _).
  exists g. rewrite Ha. split; [exact Hr|]. split; [exact Hd|]. apply saved_describe.
Qed.

(** ** Recorded iterations *)
Lemma sorted_same (l l' : list nat) : StronglySorted lt l -> StronglySorted lt l' -> (forall x, In x l <-> In x l') -> l = l'.
Proof.
  revert l'. induction l as [|a l IH]; intros [|b l'] S1 S2 H.
  - reflexivity.
  - exfalso. apply (proj2 (H b)). now left.
  - exfalso. apply (proj1 (H a)). now left.
  - inversion S1 as [|? ? S1' F1]; subst. inversion S2 as [|? ? S2' F2]; subst. rewrite Forall_forall in F1, F2.
    assert (a = b).
    { destruct (proj1 (H a) (or_introl eq_refl)) as [E|E]; [now subst|].
      destruct (proj2 (H b) (or_introl eq_refl)) as [E'|E']; [now subst|]. apply F2 in E. apply F1 in E'. lia. }
    subst b. f_equal. apply IH; [assumption|assumption|]. intros x. split; intros Hx.
    + destruct (proj1 (H x) (or_intror Hx)) as [E|E]; [|exact E]. subst. apply F1 in Hx. lia.
    + destruct (proj2 (H x) (or_intror Hx)) as [E|E]; [|exact E]. subst. apply F2 in Hx. lia.
Qed.
Lemma filter_sorted f a n : StronglySorted lt (filter f (seq a n)).
Proof.
  revert a. induction n as [|n IH]; intros a; [constructor|]. cbn [seq filter]. destruct (f a); [|apply IH].
  constructor; [apply IH|]. apply Forall_forall. intros x Hx. apply filter_In in Hx. destruct Hx as [Hx _]. apply in_seq in Hx. lia.
Qed.
Lemma map_sorted (f : nat -> nat) a n : (forall i j, i < j -> f i < f j) -> StronglySorted lt (map f (seq a n)).
Proof.
  intros Hf. revert a. induction n as [|n IH]; intros a; [constructor|]. cbn [seq map]. constructor; [apply IH|].
  apply Forall_forall. intros x Hx. apply in_map_iff in Hx. destruct Hx as (i & <- & Hi). apply in_seq in Hi. apply Hf. lia.
Qed.
Local Open Scope R_scope.

Lemma its_from (c : cfg (arr R) R) m n : 0 < c_step c -> (1 <= c_snaps c)%Z ->
  let k := Z.to_nat (c_snaps c) in c_rec c = INR m * (c_step c * IZR (c_snaps c)) ->
  recorded_its c n = map (iteration m k) (seq 0 (rows_of m k n)).
Proof.
  intros Hs Hk k Er. unfold recorded_its.
  assert (Ek : IZR (c_snaps c) = INR k) by (unfold k; rewrite INR_IZR_INZ, Z2Nat.id by lia; reflexivity).
  assert (Pk : (1 <= k)%nat) by (unfold k; lia).
  assert (PK : 0 < INR k) by (apply lt_0_INR; lia).
  assert (Hrec : forall j i, j = (i * k)%nat -> (c_rec c <= INR j * c_step c <-> (m <= i)%nat)).
  { intros j i ->. rewrite Er, Ek, mult_INR. split; intros H.
    - apply INR_le. apply (Rmult_le_reg_r (c_step c * INR k)); [nra|]. nra.
    - apply le_INR in H. assert (0 < c_step c * INR k) by nra. nra. }
  assert (Hmod : forall j, (Z.of_nat j mod c_snaps c =? 0)%Z = true <-> exists i, j = (i * k)%nat).
  { intros j. rewrite Z.eqb_eq. split.
    - intros H. apply Z.mod_divide in H; [|lia]. destruct H as [q Hq]. exists (Z.to_nat q). unfold k. nia.
    - intros [i ->]. unfold k. rewrite Nat2Z.inj_mul, Z2Nat.id by lia. apply Z.mod_mul. lia. }
  set (fl := filter _ _).
  assert (Hin : forall x, In x fl <-> exists i, x = (i * k)%nat /\ (m <= i)%nat /\ (1 <= x <= n)%nat).
  { intros x. unfold fl. rewrite filter_In, in_seq, andb_true_iff, Hmod. split.
    - intros [Hx [H1 [i ->]]]. exists i. split; [reflexivity|]. destruct (Rle_dec _ _) as [H|]; [|discriminate].
      split; [now apply (Hrec _ i eq_refl)|lia].
    - intros (i & -> & Hi & Hx). split; [lia|]. split; [|now exists i]. destruct (Rle_dec _ _) as [|H]; [reflexivity|]. exfalso. apply H. now apply (Hrec _ i eq_refl). }
  apply sorted_same.
  - destruct (Req_EM_T _ _); cbn [app].
    + constructor; [apply filter_sorted|]. apply Forall_forall. intros x Hx. apply Hin in Hx. destruct Hx as (i & _ & _ & H). lia.
    + apply filter_sorted.
  - apply map_sorted. intros i j H. unfold iteration. nia.
  - assert (Hz : c_rec c = 0 <-> m = 0%nat).
    { rewrite Er. split; [|intros ->; cbn; ring]. intros H. destruct m as [|m']; [reflexivity|]. exfalso.
      assert (0 < INR (S m')) by (apply lt_0_INR; lia). assert (0 < c_step c * IZR (c_snaps c)) by (rewrite Ek; nra). nra. }
    intros x. rewrite in_app_iff, Hin, in_map_iff. split.
    + intros [H|(i & -> & Hi & Hx)].
      * destruct (Req_EM_T _ _) as [E|]; [|destruct H]. destruct H as [<-|[]]. apply Hz in E. subst m. exists 0%nat. split; [reflexivity|].
        apply in_seq. unfold rows_of. lia.
      * exists (i - m)%nat. unfold iteration. split; [f_equal; lia|]. apply in_seq. unfold rows_of.
        assert (i <= n / k)%nat by (apply Nat.div_le_lower_bound; lia). lia.
    + intros (r & <- & Hr). apply in_seq in Hr. unfold rows_of, iteration in *.
      assert (Hn : ((m + r) * k <= n)%nat).
      { assert (m + r <= n / k)%nat by lia. pose proof (Nat.mul_div_le n k). nia. }
      destruct (Nat.eq_dec (m + r) 0) as [E|E].
      * left. destruct (Req_EM_T _ _) as [_|N]; [left; rewrite E; reflexivity|]. exfalso. apply N, Hz. lia.
      * right. exists (m + r)%nat. split; [reflexivity|]. split; [lia|]. nia.
Qed.

(** ** A recorded run, as plots read it *)
Section RunPlot.
Variables (b : backend R) (p : par) (ny nx ys xs : nat) (k0 : R) (dsf : field -> field) (c : cfg (arr R) R) (rnd : R -> R) (y0 : state) (phi0 : field)
  (fs : disk (arr R) R) (m : nat).
Hypothesis RF : records_from b p ny nx ys xs k0 dsf c fs m.
Let HS := rf_setup _ _ _ _ _ _ _ _ _ _ _ RF.
Let Hz := rf_zonal _ _ _ _ _ _ _ _ _ _ _ RF.
Let Hph := rf_phys _ _ _ _ _ _ _ _ _ _ _ RF.
Let Hfs := rf_file _ _ _ _ _ _ _ _ _ _ _ RF.
Let Hst := rf_step _ _ _ _ _ _ _ _ _ _ _ RF.
Let Hrec := rf_rec _ _ _ _ _ _ _ _ _ _ _ RF.
Let sim := @run _ _ TimeR (hw_sim b rnd ny nx ys xs) c (plasma0 (grid ny nx (fst y0)) (grid ny nx (snd y0)) (grid ny nx phi0)).
Let k := Z.to_nat (c_snaps c).
Let n := steps_of c.
Let N := rows_of m k n.
Let fr r := hw_frame p ny nx (c_dx c) (c_step c) y0 phi0 (iteration m k r).
Let dt := c_step c * IZR (c_snaps c).

Lemma run_file : exists g, result_of sim fs = Ok tt /\ disk_of sim fs = Some g /\
  file_frames rnd dsf ys xs (map fr (seq 0 N)) g /\
  (forall q, In q (c_props c) -> file_prop rnd dsf ys xs (domain_dx k0 xs) (pc1 p) (map fr (seq 0 N)) g q) /\
  attrs g = @save_params_of _ _ TimeR c (c_phys c) false.
Proof.
  pose proof (hs_k0 _ _ _ _ _ _ _ _ _ HS) as Hk0.
  destruct (params_attrs c (c_dx c) (Z.of_nat (pN p)) (pc1 p) (pnu p) k0 (ppb p) (pkap p) false) as (fdt & Ex & Ey & Ek & Ec & Ef & Ep).
  rewrite (hs_x _ _ _ _ _ _ _ _ _ HS) in Ex. rewrite (hs_y _ _ _ _ _ _ _ _ _ HS) in Ey.
  pose proof (hw_of_params b p (c_dx c) k0 Hk0) as Hhw. fold (no_zonal p) in Hhw. rewrite no_zonal_eq in Hhw by assumption.
  destruct (hw_run_fresh b p ny nx ys xs k0 dsf c rnd HS
    (physics_params (c_dx c) (Z.of_nat (pN p)) (pc1 p) (pnu p) k0 (ppb p) (pkap p)) Hhw eq_refl
    y0 phi0 fs Hph (params_nodup _ _ _ _ _ _ _) Hfs) as (g & Rf & Df & Af & FF & FP & FS).
  { exists fdt. auto. }
  rewrite (its_from c m _ Hst (hs_snaps _ _ _ _ _ _ _ _ _ HS) Hrec), map_map in FF, FP. fold (steps_of c) in FF, FP. fold k n N in FF, FP.
  exists g. split; [exact Rf|]. split; [exact Df|]. split; [exact FF|]. split; [exact FP|]. rewrite Hph. exact Af.
Qed.

Lemma dt_pos : 0 < dt.
Proof. unfold dt. pose proof (IZR_le _ _ (hs_snaps _ _ _ _ _ _ _ _ _ HS)). nra. Qed.
Lemma run_fixed (g : h5 (arr R) R) : attrs g = @save_params_of _ _ TimeR c (c_phys c) false -> fixed_step g dt (INR m * dt) /\ titled g.
Proof.
  intros E. destruct (@saved_describe _ _ TimeR c false) as [D1 D2 D3 D4 D5 D6 D7 D8 D9 D10]. rewrite <- E in *. split.
  - split; [exact D2| |exact D9|apply dt_pos]. rewrite D8. unfold dt. now rewrite Hrec.
  - intros q Hq. cbn [In] in Hq. destruct Hq as [<-|[<-|[<-|[<-|[<-|[<-|[]]]]]]]; try (rewrite D7; eauto); try (rewrite D1; eauto);
      (rewrite D10; [|unfold run_keys; cbn [In]; intuition discriminate]); rewrite Hph; cbn; eauto.
Qed.
Lemma frame_time r : f_t (fr r) = row_time dt (INR m * dt) r.
Proof.
  unfold fr, hw_frame, iteration, row_time, dt. cbn [f_t].
  assert (Ek : IZR (c_snaps c) = INR k) by (unfold k; rewrite INR_IZR_INZ, Z2Nat.id by (pose proof (hs_snaps _ _ _ _ _ _ _ _ _ HS); lia); reflexivity).
  rewrite Ek, mult_INR, plus_INR. ring.
Qed.
Lemma frame_rows (g : h5 (arr R) R) : file_frames rnd dsf ys xs (map fr (seq 0 N)) g -> has_rows g "density" N.
Proof. intros (D & _). eexists. split; [exact D|]. now rewrite !map_length, seq_length. Qed.

Lemma frame_shows (g : h5 (arr R) R) r : file_frames rnd dsf ys xs (map fr (seq 0 N)) g -> (r < N)%nat -> row_shows rnd dsf ys xs g r (fr r).
Proof.
  intros (D & _) Hr. eexists. split; [exact D|]. rewrite map_map, nth_error_map.
  rewrite (nth_error_nth' _ 0%nat) by now rewrite seq_length. rewrite seq_nth by assumption. reflexivity.
Qed.

(** the image for time t *)
Lemma run_image t r : (r < N)%nat -> f_t (fr r) <= t < f_t (fr r) + dt ->
  exists g, disk_of sim fs = Some g /\ image_row g t = Ok r /\ row_shows rnd dsf ys xs g r (fr r).
Proof.
  intros Hr Ht. destruct run_file as (g & _ & D & FF & _ & A). destruct (run_fixed g A) as [F _].
  exists g. split; [exact D|]. split; [|now apply frame_shows]. apply (image_ok g dt (INR m * dt) N t r F (frame_rows g FF) Hr).
  rewrite frame_time in Ht. unfold row_time in Ht. lra.
Qed.

(** the movie of a run recorded from the start *)
Lemma run_movie (min_fps : Z) speed : m = 0%nat -> (0 < min_fps)%Z ->
  exists g fps shown, disk_of sim fs = Some g /\ create_movie_equally_spaced g 0 None min_fps speed = Ok (fps, shown) /\ shown <> [] /\
    forall r t, In (r, t) shown -> (r < N)%nat /\ t = f_t (fr r) /\ row_shows rnd dsf ys xs g r (fr r).
Proof.
  intros Em Hf. destruct run_file as (g & _ & D & FF & _ & A). destruct (run_fixed g A) as [F Ti].
  assert (E0 : INR m * dt = 0) by (rewrite Em; cbn; ring). rewrite E0 in F.
  assert (PN : (0 < N)%nat) by (unfold N, rows_of; rewrite Em; lia).
  destruct (movie_from_start g dt N min_fps speed F Ti (frame_rows g FF) PN Hf) as (s & fps & shown & Ps & E & Es & Hs).
  exists g, fps, shown. split; [exact D|]. split; [exact E|]. split.
  - intros H. assert (Hi : In 0%nat (map fst shown)) by (apply Hs; split; [exact PN|apply Nat.mod_0_l; lia]). rewrite H in Hi. destruct Hi.
  - intros r t Hin. assert (Hr : (r < N)%nat) by (apply (Hs r), in_map_iff; exists (r, t); auto).
    split; [exact Hr|]. split; [|now apply frame_shows]. rewrite frame_time, E0. rewrite Es in Hin. apply in_map_iff in Hin.
    destruct Hin as (i & Ei & _). now injection Ei as <- <-.
Qed.
(** of a run recorded from a later time: every title is too early *)
Lemma run_movie_late (min_fps : Z) speed : (0 < m <= N)%nat -> (0 < min_fps)%Z ->
  exists g fps shown, disk_of sim fs = Some g /\ create_movie_equally_spaced g 0 None min_fps speed = Ok (fps, shown) /\ shown <> [] /\
    forall r t, In (r, t) shown -> (r < N)%nat /\ t < f_t (fr r) /\ row_shows rnd dsf ys xs g r (fr r).
Proof.
  intros Hm Hf. destruct run_file as (g & _ & D & FF & _ & A). destruct (run_fixed g A) as [F Ti].
  pose proof (movie_equal g dt (INR m * dt) m N min_fps speed F eq_refl Ti (frame_rows g FF) ltac:(lia) ltac:(lia) Hf) as E. cbn zeta in E.
  eexists g, _, _. split; [exact D|]. split; [exact E|].
  destruct (movie_late_titles g dt m N min_fps speed _ _ F Ti (frame_rows g FF) Hm Hf E) as [H0 H1].
  split; [intros H; rewrite H in H0; discriminate|]. intros r t Hin.
  assert (Hr : (r < N)%nat). { apply in_map_iff in Hin. destruct Hin as (i & Ei & _). injection Ei as <- _. apply Nat.mod_upper_bound. lia. }
  split; [exact Hr|]. split; [|now apply frame_shows]. rewrite frame_time. now apply H1.
Qed.
(** of a run that records less than it skipped: none *)
Lemma run_movie_far (min_fps : Z) speed : (0 < N < m)%nat -> (0 < min_fps)%Z ->
  exists g, disk_of sim fs = Some g /\ create_movie_equally_spaced g 0 None min_fps speed = Exn IndexError.
Proof.
  intros Hm Hf. destruct run_file as (g & _ & D & FF & _ & A). destruct (run_fixed g A) as [F Ti].
  exists g. split; [exact D|]. apply (movie_equal_far g dt (INR m * dt) m N min_fps speed F eq_refl Ti (frame_rows g FF)); lia || exact Hf.
Qed.

(** time traces of the recorded properties: the values of every frame from
    row 0 on, drawn at the frame's time less the recording start *)
Lemma run_traces latex props t0_std y_cutoff s : props <> [] -> incl props (c_props c) -> (0 < N)%nat ->
  INR s * dt <= t0_std - INR m * dt < (INR s + 1) * dt ->
  exists g curves cut, disk_of sim fs = Some g /\ plot_timetraces g latex props 0 t0_std y_cutoff = Ok (Figure curves cut) /\
    List.length curves = List.length props /\
    forall i q cv, nth_error props i = Some q -> nth_error curves i = Some cv ->
      List.length (cv_x cv) = N /\ List.length (cv_y cv) = N /\
      forall r, (r < N)%nat -> nth r (cv_x cv) 0 = f_t (fr r) - c_rec c /\
        nth r (cv_y cv) 0 = rnd (prop_value q ys xs (domain_dx k0 xs) (pc1 p)
          (fun i j => rnd (dsf (f_n (fr r)) i j)) (fun i j => rnd (dsf (f_p (fr r)) i j)) (fun i j => rnd (dsf (f_o (fr r)) i j))).
Proof.
  intros Hne Hin PN Hs. destruct run_file as (g & _ & D & FF & FP & A). destruct (run_fixed g A) as [F Ti].
  set (val q r := rnd (prop_value q ys xs (domain_dx k0 xs) (pc1 p)
          (fun i j => rnd (dsf (f_n (fr r)) i j)) (fun i j => rnd (dsf (f_p (fr r)) i j)) (fun i j => rnd (dsf (f_o (fr r)) i j)))).
  set (data q := map (val q) (seq 0 N)).
  destruct (traces_times g dt (INR m * dt) latex props data 0 t0_std y_cutoff 0 s F) as (curves & cut & E & L & H).
  - cbn [INR]. pose proof dt_pos. lra.
  - exact Hs.
  - exact Hne.
  - intros q Hq. split; [|unfold data; rewrite map_length, seq_length; exact PN].
    pose proof (FP q (Hin q Hq)) as H. unfold file_prop in H. unfold holds. rewrite H. unfold data. rewrite !map_map. reflexivity.
  - exists g, curves, cut. split; [exact D|]. split; [exact E|]. split; [exact L|]. intros i q cv Hi Hc.
    destruct (H i q cv Hi Hc) as (Hy & Hl & Hx). cbn [skipn] in Hy.
    assert (Ly : List.length (cv_y cv) = N) by (rewrite Hy; unfold data; now rewrite map_length, seq_length).
    split; [congruence|]. split; [exact Ly|]. intros r Hr. split.
    + rewrite Hx by congruence. rewrite frame_time. cbn [INR Nat.add]. rewrite Hrec. fold dt. ring.
    + rewrite Hy. unfold data. now rewrite nth_map_seq.
Qed.
End RunPlot.
