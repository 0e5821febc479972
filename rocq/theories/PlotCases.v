(** Consequences and counterexamples for plots and movies. *)
From Coq Require Import Arith ZArith Bool Reals Lra Lia String List.
Import List.
From Verif Require Import Num NdArray ModelIO ModelRun ModelRunHW ModelPlot SpecPlot PlotFacts PlotProps ModelHelpers SpecDownsample.
Import ListNotations.
Local Open Scope string_scope.
Local Open Scope R_scope.
#[local] Existing Instance TimeR.

(** a file of fixed steps of length 1, of n rows, started at t_in *)
Definition file (t_in : R) (gamma : list R) (n : nat) : h5 unit R :=
  mkH5 [("density", Rows (repeat (RFrame tt) n)); ("gamma_n", Rows (map RNum gamma))]
    [("frame_dt", AT 1); ("initial_time", AT t_in); ("adaptive_step_size", AB false);
     ("c1", AT 1); ("k0", AT 1); ("grid_pts", AZ 8); ("dt", AT 1); ("N", AZ 3); ("nu", AT 1)].
Lemma file_fixed t_in g n : fixed_step (file t_in g n) 1 t_in.
Proof. constructor; try reflexivity. lra. Qed.
Lemma file_holds t_in g n : holds (file t_in g n) "gamma_n" g.
Proof. reflexivity. Qed.
Lemma file_rows t_in g n : has_rows (file t_in g n) "density" n.
Proof. eexists. split; [reflexivity|apply repeat_length]. Qed.
Lemma file_titled t_in g n : titled (file t_in g n).
Proof. intros k Hk. cbn in Hk. repeat (destruct Hk as [<-|Hk]; [eexists; reflexivity|]). destruct Hk. Qed.
(** the same with the recorded times *)
Definition afile (t_in : R) (times gamma : list R) : h5 unit R :=
  mkH5 [("density", Rows (repeat (RFrame tt) (List.length times))); ("gamma_n", Rows (map RNum gamma)); ("time", Rows (map RNum times))]
    [("frame_dt", AT 1); ("initial_time", AT t_in); ("adaptive_step_size", AB true);
     ("c1", AT 1); ("k0", AT 1); ("grid_pts", AZ 8); ("dt", AT 1); ("N", AZ 3); ("nu", AT 1)].
Lemma afile_adaptive t_in ts g : adaptive_step (afile t_in ts g) 1 t_in.
Proof. constructor; reflexivity. Qed.
Lemma afile_time t_in ts g : holds (afile t_in ts g) "time" ts.
Proof. reflexivity. Qed.
Lemma afile_holds t_in ts g : holds (afile t_in ts g) "gamma_n" g.
Proof. reflexivity. Qed.
Lemma afile_rows t_in ts g : has_rows (afile t_in ts g) "density" (List.length ts).
Proof. eexists. split; [reflexivity|apply repeat_length]. Qed.
Lemma afile_titled t_in ts g : titled (afile t_in ts g).
Proof. intros k Hk. cbn in Hk. repeat (destruct Hk as [<-|Hk]; [eexists; reflexivity|]). destruct Hk. Qed.

Section File.
Context {V : Type}.
Implicit Types f : h5 V R.
(** *** the time axis *)
Lemma traces_times f dt t_in latex props (data : string -> list R) t0 t0_std y_cutoff i s :
  fixed_step f dt t_in -> INR i * dt <= t0 < (INR i + 1) * dt -> INR s * dt <= t0_std - t_in < (INR s + 1) * dt ->
  props <> [] -> (forall p, In p props -> holds f p (data p) /\ (i < List.length (data p))%nat) ->
  exists curves cut, plot_timetraces f latex props t0 t0_std y_cutoff = Ok (Figure curves cut) /\ List.length curves = List.length props /\
    forall n p c, nth_error props n = Some p -> nth_error curves n = Some c ->
      cv_y c = skipn i (data p) /\ List.length (cv_x c) = List.length (cv_y c) /\
      forall k, (k < List.length (cv_x c))%nat -> nth k (cv_x c) 0 = row_time dt t_in (i + k) + (t0 - INR i * dt) - t_in.
Proof.
  intros F Bi Bs Ne H. destruct (traces_fixed f dt t_in latex props data t0 t0_std y_cutoff i s F Bi Bs Ne H) as (cut & E & _).
  eexists. exists cut. split; [exact E|]. split; [apply map_length|]. intros n p c Hp Hc. rewrite (map_nth_error _ _ _ Hp) in Hc. injection Hc as <-. cbn [cv_y cv_x].
  split; [reflexivity|]. split; [now rewrite map_length, seq_length, skipn_length|]. rewrite map_length, seq_length. intros k Hk.
  rewrite (nth_indep _ 0 (t0 + INR 0 * dt)) by (now rewrite map_length, seq_length). rewrite (map_nth (fun k => t0 + INR k * dt)), seq_nth by exact Hk. cbn [plus].
  unfold row_time. rewrite plus_INR. ring.
Qed.
Lemma traces_stats f dt t_in latex props (data : string -> list R) t0 t0_std y_cutoff i s :
  fixed_step f dt t_in -> INR i * dt <= t0 < (INR i + 1) * dt -> row_time dt t_in s <= t0_std < row_time dt t_in (S s) ->
  props <> [] -> (forall p, In p props -> holds f p (data p) /\ (i < List.length (data p))%nat) ->
  exists curves cut, plot_timetraces f latex props t0 t0_std y_cutoff = Ok (Figure curves cut) /\ List.length curves = List.length props /\
    forall n p c, nth_error props n = Some p -> nth_error curves n = Some c ->
      ((exists q, In q props /\ (s <= List.length (data q))%nat) -> cv_stat c = skipn s (data p)) /\
      ((forall q, In q props -> (List.length (data q) < s)%nat) -> cv_stat c = cv_y c).
Proof.
  intros F Bi Bs Ne H. unfold row_time in Bs. rewrite S_INR in Bs.
  destruct (traces_fixed f dt t_in latex props data t0 t0_std y_cutoff i s F Bi ltac:(lra) Ne H) as (cut & E & _).
  eexists. exists cut. split; [exact E|]. split; [apply map_length|]. intros n p c Hp Hc. rewrite (map_nth_error _ _ _ Hp) in Hc. injection Hc as <-. cbn [cv_stat cv_y].
  unfold stat_row. split.
  - intros (q & Hq & Lq). assert (In (List.length (data q)) (map (fun p => List.length (data p)) props)) as Hin by (apply in_map_iff; exists q; now split).
    pose proof (proj1 (list_max_le _ _) (le_n (list_max (map (fun p => List.length (data p)) props)))) as Fa. rewrite Forall_forall in Fa. specialize (Fa _ Hin).
    destruct (Nat.ltb_spec (list_max (map (fun p => List.length (data p)) props)) s); [lia|reflexivity].
  - intros Hq. assert (Hm : (list_max (map (fun p => List.length (data p)) props) < s)%nat).
    { destruct props as [|q l]; [contradiction|]. apply list_max_lt; [cbn; discriminate|]. apply Forall_forall. intros x Hx. apply in_map_iff in Hx. destruct Hx as (r & <- & Hr). now apply Hq. }
    destruct (Nat.ltb_spec (list_max (map (fun p => List.length (data p)) props)) s); [reflexivity|lia].
Qed.
Lemma traces_labels f latex props t0 t0_std y_cutoff curves cut : plot_timetraces f latex props t0 t0_std y_cutoff = Ok (Figure curves cut) ->
  forall c, In c curves -> cv_label c = "<class 'property'> ".
Proof.
  unfold plot_timetraces. destruct (start_index f t0) as [i|]; [|discriminate]. cbn [bind]. destruct (longest f i props 0) as [[m|]|]; try discriminate. cbn [bind].
  destruct (Z.ltb (Z.of_nat m) i); [discriminate|]. destruct (start_index f (t0_std - initial_time f)) as [si|]; [|discriminate]. cbn [bind].
  set (w := if (Z.of_nat m <? si)%Z then i else si). destruct (traces_loop f latex props t0 i w 0 []) as [[cs mx]|] eqn:E; [|discriminate]. cbn [bind fst snd].
  intros X. injection X as <- _. assert (G : forall c, In c (@nil curve) -> cv_label c = "<class 'property'> ") by (intros c []).
  revert E G. generalize 0 as m0. generalize (@nil curve) as acc. induction props as [|p l IH]; intros acc m0 E G.
  - cbn in E. injection E as <- _. exact G.
  - cbn [traces_loop] in E. destruct (trace_curve f "<class 'property'> " p t0 i w) as [[c|]|] eqn:Ec; [| |discriminate]; cbn [bind] in E.
    + destruct (np_min (cv_y c)) as [mm|]; [|discriminate]. cbn [bind] in E. eapply IH; [exact E|]. intros c' Hc'. apply in_app_iff in Hc'. destruct Hc' as [Hc'|[<-|[]]]; [now apply G|].
      unfold trace_curve in Ec. destruct (nums f p) as [all|]; [|discriminate]. cbn [bind] in Ec. destruct (from_ all i) as [|a tl]; [discriminate|].
      destruct (trace_x f t0 i (a :: tl)) as [x|]; [|discriminate]. cbn [bind] in Ec. destruct (attr_look f "frame_dt"); [|discriminate]. cbn [bind] in Ec. injection Ec as <-. reflexivity.
    + eapply IH; [exact E|exact G].
Qed.

(** *** movies *)
Lemma movie_from_start f dt n (min_fps : Z) speed : fixed_step f dt 0 -> titled f -> has_rows f "density" n -> (0 < n)%nat -> (0 < min_fps)%Z ->
  exists s fps shown, (0 < s)%nat /\ create_movie_equally_spaced f 0 None min_fps speed = Ok (fps, shown) /\
    shown = map (fun k => ((k * s)%nat, row_time dt 0 (k * s))) (seq 0 (ceil_div n s)) /\
    forall r, In r (map fst shown) <-> (r < n)%nat /\ (r mod s = 0)%nat.
Proof.
  intros F Ti Hn Pn Pf. pose proof (movie_equal f dt 0 0 n min_fps speed F ltac:(cbn; ring) Ti Hn Pn ltac:(lia) Pf) as E. cbv zeta in E.
  set (s := skip_of speed dt min_fps) in *. assert (Ps : (0 < s)%nat) by (unfold s, skip_of; lia).
  assert (B : forall k, In k (seq 0 (ceil_div n s)) <-> (k * s < n)%nat).
  { intros k. rewrite in_seq. unfold ceil_div. pose proof (Nat.mul_div_le (n + (s - 1)) s ltac:(lia)). pose proof (Nat.mul_succ_div_gt (n + (s - 1)) s ltac:(lia)).
    set (q := ((n + (s - 1)) / s)%nat) in *. split; intros; nia. }
  exists s. eexists. eexists. split; [exact Ps|]. split; [|split; [reflexivity|]].
  - rewrite E. do 2 f_equal. apply map_ext_in. intros k Hk. apply B in Hk. rewrite Nat.sub_0_r. f_equal.
    + replace (n + k * s)%nat with (k * s + 1 * n)%nat by lia. rewrite Nat.mod_add by lia. apply Nat.mod_small, Hk.
    + unfold row_time. cbn [INR]. ring.
  - intros r. rewrite map_map. cbn [fst]. rewrite in_map_iff. split.
    + intros (k & <- & Hk). apply B in Hk. split; [exact Hk|]. apply Nat.mod_mul. lia.
    + intros [Hr Hm]. exists (r / s)%nat. pose proof (Nat.div_mod r s ltac:(lia)). split; [lia|]. apply B. nia.
Qed.
(** a file that starts later: every title is wrong *)
Lemma movie_late_titles f dt m n (min_fps : Z) speed fps shown : fixed_step f dt (INR m * dt) -> titled f -> has_rows f "density" n -> (0 < m <= n)%nat -> (0 < min_fps)%Z ->
  create_movie_equally_spaced f 0 None min_fps speed = Ok (fps, shown) ->
  hd_error (map fst shown) = Some ((n - m) mod n)%nat /\ forall r t, In (r, t) shown -> t < row_time dt (INR m * dt) r.
Proof.
  intros F Ti Hn Pm Pf E. pose proof (fx_pos _ _ _ F) as D. rewrite (movie_equal f dt (INR m * dt) m n min_fps speed F eq_refl Ti Hn) in E by lia. cbv zeta in E.
  injection E as _ <-. set (s := skip_of speed dt min_fps). assert (Ps : (0 < s)%nat) by (unfold s, skip_of; lia). split.
  - assert (0 < ceil_div n s)%nat. { unfold ceil_div. apply Nat.div_str_pos. lia. } destruct (ceil_div n s) as [|q]; [lia|].
    cbn [seq map hd_error fst]. now rewrite Nat.mul_0_l, Nat.add_0_r.
  - intros r t Hin. apply in_map_iff in Hin. destruct Hin as (k & Ek & Hk). injection Ek as <- <-. apply in_seq in Hk.
    assert (B : (k * s < n)%nat). { unfold ceil_div in Hk. pose proof (Nat.mul_div_le (n + (s - 1)) s ltac:(lia)). nia. }
    unfold row_time. replace (INR m * dt + INR ((n - m + k * s) mod n) * dt) with ((INR m + INR ((n - m + k * s) mod n)) * dt) by ring.
    apply Rmult_lt_compat_r; [exact D|]. rewrite <- plus_INR.
    apply Rlt_le_trans with (INR (k * s)). { assert (0 < INR m) by (apply lt_0_INR; lia). lra. }
    apply le_INR. destruct (Nat.lt_ge_cases (k * s) m) as [H|H].
    + rewrite Nat.mod_small by lia. lia.
    + replace (n - m + k * s)%nat with (k * s - m + 1 * n)%nat by lia. rewrite Nat.mod_add, Nat.mod_small by lia. lia.
Qed.
End File.

Lemma movie_first_row : ~ (forall (f : h5 unit R) dt t_in n fps shown, fixed_step f dt t_in -> titled f -> has_rows f "density" n -> (0 < n)%nat ->
    create_movie_equally_spaced f 0 None 10 1 = Ok (fps, shown) -> hd_error (map fst shown) = Some 0%nat).
Proof.
  intros H. set (f := file 1 [] 2).
  assert (F : fixed_step f 1 (INR 1 * 1)). { replace (INR 1 * 1) with 1 by (cbn; ring). apply file_fixed. }
  pose proof (movie_equal f 1 (INR 1 * 1) 1 2 10 1 F eq_refl (file_titled _ _ _) (file_rows _ _ _) ltac:(lia) ltac:(lia) ltac:(lia)) as E. cbv zeta in E.
  destruct (movie_late_titles f 1 1 2 10 1 _ _ F (file_titled _ _ _) (file_rows _ _ _) ltac:(lia) ltac:(lia) E) as [A _].
  specialize (H f 1 (INR 1 * 1) 2%nat _ _ F (file_titled _ _ _) (file_rows _ _ _) ltac:(lia) E). rewrite A in H. discriminate.
Qed.
Lemma movie_ignores_start : ~ (forall (f : h5 unit R) times t0 fps shown, holds f "time" times -> sorted times ->
    create_movie_unequal_spaced_fine f t0 None 1 1 = Ok (fps, shown) -> forall r t, In (r, t) shown -> t0 <= t).
Proof.
  intros H. set (f := afile 0 [0; 1] []).
  assert (So : sorted [0; 1]). { intros i j [A B]. cbn in B. destruct i as [|[|i]], j as [|[|j]]; cbn; try lra; lia. }
  destruct (movie_unequal f [0; 1] 1 1 1 (afile_titled _ _ _) (afile_time _ _ _) So ltac:(discriminate) ltac:(cbn; lra) (afile_rows _ _ _) ltac:(lra) ltac:(lra)) as (rows & E & L & K).
  specialize (K 0%nat ltac:(lia)). cbv zeta in K. destruct K as (K1 & K2 & K3).
  assert (R0 : nth 0 rows 0%nat = 0%nat). { destruct (nth 0 rows 0%nat) as [|r]; [reflexivity|]. specialize (K3 0%nat ltac:(lia)). cbn in K3. lra. }
  specialize (H f [0; 1] 1 _ _ (afile_time _ _ _) So E 0%nat 0). assert (Hin : In (0%nat, 0) (map (fun r => (r, nth r [0; 1] 0)) rows)).
  { apply in_map_iff. exists 0%nat. split; [reflexivity|]. rewrite <- R0. apply nth_In. lia. }
  specialize (H Hin). lra.
Qed.
(** an end time beyond the recorded ones *)
Lemma movie_unequal_end {V} (f : h5 V R) times t0 t1 (min_fps speed : R) : titled f -> holds f "time" times -> sorted times -> times <> [] -> 0 <= nth 0 times 0 ->
  has_rows f "density" (List.length times) -> 0 < min_fps -> 0 < speed -> nth (List.length times - 1) times 0 < t1 - speed / min_fps ->
  exists e, create_movie_unequal_spaced_fine f t0 (Some t1) min_fps speed = Exn e.
Proof.
  intros Ti Ht S Ne P0 Hn Pf Ps Far. set (tpf := speed / min_fps) in *.
  assert (Ptpf : 0 < tpf) by (apply Rdiv_lt_0_compat; lra).
  assert (Ln : (0 < List.length times)%nat) by (destruct times; [contradiction|cbn; lia]).
  assert (PT : 0 <= nth (List.length times - 1) times 0). { apply Rle_trans with (nth 0 times 0); [exact P0|]. apply S. lia. }
  unfold create_movie_unequal_spaced_fine. rewrite (titled_ok f Ti). cbn [bind]. rewrite (nums_holds _ _ _ Ht). cbn [bind].
  destruct (Req_EM_T min_fps 0); [lra|]. fold tpf. destruct (Req_EM_T tpf 0); [lra|]. rewrite (rows_len_has _ _ _ Hn). cbn [bind].
  rewrite row_index_mod by lia. cbn [bind].
  assert (Pq : 0 <= t1 / tpf) by (apply Rmult_le_pos; [lra|]; left; now apply Rinv_0_lt_compat). rewrite R_trunc_pos by exact Pq.
  destruct (Int_part_bounds (t1 / tpf)) as [L U]. set (q := Int_part (t1 / tpf)) in *.
  assert (Qp : (0 <= q)%Z). { assert (-1 < q)%Z; [|lia]. apply lt_IZR. lra. }
  set (k := Z.to_nat q). assert (Ek : INR k = IZR q) by (unfold k; rewrite INR_IZR_INZ, Z2Nat.id by lia; reflexivity).
  assert (Bk : nth (List.length times - 1) times 0 < INR k * tpf).
  { rewrite Ek. assert (t1 = t1 / tpf * tpf) as E1 by (field; lra). assert (t1 / tpf * tpf < (IZR q + 1) * tpf) by (apply Rmult_lt_compat_r; lra). lra. }
  destruct (searchsorted_spec times (INR k * tpf) S) as (A1 & A2 & A3).
  assert (Es : searchsorted times (INR k * tpf) = List.length times).
  { destruct (Nat.eq_dec (searchsorted times (INR k * tpf)) (List.length times)) as [E|E]; [exact E|]. specialize (A3 (List.length times - 1)%nat ltac:(lia)). lra. }
  match goal with |- context [show_frames ?g ?l] => destruct (show_fail g l (List.length times) IndexError) as [e He] end.
  - apply in_map_iff. exists k. split; [exact Es|]. apply in_seq. unfold k. lia.
  - unfold row_index. destruct (Z.ltb_spec (Z.of_nat (List.length times)) (Z.of_nat (List.length times))); [lia|]. rewrite andb_false_r.
    destruct (Z.ltb_spec (Z.of_nat (List.length times)) 0); [lia|]. reflexivity.
  - rewrite He. exists e. reflexivity.
Qed.

(** *** counterexamples for traces *)
Lemma one_prop (f : h5 unit R) g i : holds f "gamma_n" g -> (i < List.length g)%nat ->
  forall p, In p ["gamma_n"] -> holds f p ((fun _ => g) p) /\ (i < List.length ((fun _ : string => g) p))%nat.
Proof. intros H L p [<-|[]]. split; assumption. Qed.
Lemma trace_times_wrong : ~ (forall (f : h5 unit R) dt t_in curves cut, fixed_step f dt t_in ->
    plot_timetraces f latex_format ["gamma_n"] 0 300 100000 = Ok (Figure curves cut) ->
    forall c k, In c curves -> (k < List.length (cv_x c))%nat -> nth k (cv_x c) 0 = row_time dt t_in k).
Proof.
  intros H. set (f := file 1 [5; 6] 2).
  destruct (traces_fixed f 1 1 latex_format ["gamma_n"] (fun _ => [5; 6]) 0 300 100000 0 299 (file_fixed _ _ _)) as (cut & E & _).
  - cbn. lra.
  - rewrite INR_IZR_INZ. replace (Z.of_nat 299) with 299%Z by reflexivity. lra.
  - discriminate.
  - apply (one_prop f). { apply file_holds. } cbn. lia.
  - specialize (H f 1 1 _ _ (file_fixed _ _ _) E _ 0%nat (or_introl eq_refl)). cbn [cv_x] in H. cbn [List.length Nat.sub seq map nth] in H.
    specialize (H ltac:(lia)). unfold row_time in H. cbn [INR] in H. lra.
Qed.
Lemma stats_empty : ~ (forall (f : h5 unit R) dt t_in curves cut, fixed_step f dt t_in ->
    plot_timetraces f latex_format ["gamma_n"] 0 300 100000 = Ok (Figure curves cut) -> forall c, In c curves -> cv_stat c <> []).
Proof.
  intros H. set (f := file 298 [5; 6] 2).
  destruct (traces_fixed f 1 298 latex_format ["gamma_n"] (fun _ => [5; 6]) 0 300 100000 0 2 (file_fixed _ _ _)) as (cut & E & _).
  - cbn. lra.
  - cbn. lra.
  - discriminate.
  - apply (one_prop f). { apply file_holds. } cbn. lia.
  - specialize (H f 1 298 _ _ (file_fixed _ _ _) E _ (or_introl eq_refl)). cbn [cv_stat] in H. apply H. reflexivity.
Qed.
(** adaptive files: the window starts earlier than asked for by the start time of the recording *)
Lemma stats_shifted : ~ (forall (f : h5 unit R) dt t_in times data curves cut i, adaptive_step f dt t_in -> holds f "time" times -> holds f "gamma_n" data ->
    nearest times 12 i -> plot_timetraces f latex_format ["gamma_n"] 0 12 100000 = Ok (Figure curves cut) -> forall c, In c curves -> cv_stat c = skipn i data).
Proof.
  intros H. set (f := afile 10 [10; 11; 12] [5; 6; 7]).
  assert (A : forall a b, a <= b -> Rabs (b - a) = b - a) by (intros; apply Rabs_pos_eq; lra).
  assert (N0 : forall t, t <= 10 -> nearest [10; 11; 12] t 0).
  { intros t Ht. split; [cbn; lia|]. split; [|intros; lia]. intros j Hj. destruct j as [|[|[|j]]]; cbn in *; try lia; rewrite !A by lra; lra. }
  assert (N2 : nearest [10; 11; 12] 12 2).
  { split; [cbn; lia|]. replace (nth 2 [10; 11; 12] 0 - 12) with 0 by (cbn; lra). rewrite Rabs_R0. split; [intros; apply Rabs_pos|].
    intros j Hj. destruct j as [|[|j]]; cbn; try lia; apply Rabs_pos_lt; lra. }
  destruct (traces_adaptive f 1 10 latex_format ["gamma_n"] (fun _ => [5; 6; 7]) [10; 11; 12] 0 12 100000 0 0 (afile_adaptive _ _ _) (afile_time _ _ _)) as (cut & E).
  - apply N0. lra.
  - apply N0. lra.
  - discriminate.
  - intros p [<-|[]]. split; [apply afile_holds|reflexivity].
  - specialize (H f 1 10 [10; 11; 12] [5; 6; 7] _ _ 2%nat (afile_adaptive _ _ _) (afile_time _ _ _) (afile_holds _ _ _) N2 E _ (or_introl eq_refl)). cbn in H. discriminate.
Qed.
Lemma cut_missed : ~ (forall (f : h5 unit R) dt t_in data curves cut, fixed_step f dt t_in -> holds f "gamma_n" data ->
    plot_timetraces f latex_format ["gamma_n"] 0 300 100000 = Ok (Figure curves cut) -> (exists y, In y data /\ 100000 < y) -> cut = true).
Proof.
  intros H. set (f := file 0 [0; 200000] 2).
  destruct (traces_fixed f 1 0 latex_format ["gamma_n"] (fun _ => [0; 200000]) 0 300 100000 0 300 (file_fixed _ _ _)) as (cut & E & C).
  - cbn. lra.
  - rewrite INR_IZR_INZ. replace (Z.of_nat 300) with 300%Z by reflexivity. lra.
  - discriminate.
  - apply (one_prop f). { apply file_holds. } cbn. lia.
  - specialize (H f 1 0 [0; 200000] _ _ (file_fixed _ _ _) (file_holds _ _ _) E). rewrite C in H.
    destruct H as [H|(p & [<-|[]] & H)]; [exists 200000; split; [right; left; reflexivity|lra]|lra|]. specialize (H 0 (or_introl eq_refl)). lra.
Qed.
Lemma image_before : ~ (forall (f : h5 unit R) dt t_in t, fixed_step f dt t_in -> t < t_in -> exists e, image_row f t = Exn e).
Proof.
  intros H. destruct (H (file 1 [] 2) 1 1 0 (file_fixed _ _ _) ltac:(lra)) as [e E].
  rewrite (image_early (file 1 [] 2) 1 1 2 0 1 (file_fixed _ _ _) (file_rows _ _ _)) in E; [discriminate|lia|cbn; lra].
Qed.
Lemma comparison_typeerror : exists (f : h5 unit R), fixed_step f 1 (3 / 2) /\ has_rows f "density" 4 /\ holds f "gamma_n" [1; 2; 3; 4] /\
  plot_timetrace_comparison f latex_format "full_" ["gamma_n"] 0 300 100 100000 = Exn TypeError.
Proof.
  exists (file (3 / 2) [1; 2; 3; 4] 4). split; [apply file_fixed|]. split; [apply file_rows|]. split; [apply file_holds|]. set (f := file (3 / 2) [1; 2; 3; 4] 4).
  pose proof (file_fixed (3 / 2) [1; 2; 3; 4] 4) as F. fold f in F.
  unfold plot_timetrace_comparison. rewrite (fixed_initial _ _ _ F). rewrite Rmax_right by lra.
  rewrite (start_fixed f 1 (3 / 2) (3 / 2) 1 F) by (cbn; lra). cbn [bind].
  assert (Ee : end_time f = Ok (INR 4 * 1)). { unfold end_time. rewrite (fixed_adaptive _ _ _ F), (rows_len_has f "density" 4 (file_rows _ _ _)). cbn [bind]. rewrite (fixed_attr _ _ _ F). reflexivity. }
  rewrite Ee. cbn [bind]. rewrite (longest_eq f 1 (fun _ => [1; 2; 3; 4]) ["gamma_n"] 0) by (apply (one_prop f); [apply file_holds|cbn; lia]). cbn [bind].
  assert (Es : start_index f (300 - 3 / 2) = Ok (Z.of_nat 298)).
  { apply (start_fixed f 1 (3 / 2)); [exact F|]. rewrite INR_IZR_INZ. replace (Z.of_nat 298) with 298%Z by reflexivity. lra. }
  rewrite Es. cbn [bind].
  match goal with |- context [if (?a <? ?b)%Z then ?x else ?y] => replace (if (a <? b)%Z then x else y) with (Z.of_nat 1) by reflexivity end.
  cbn [comparison_loop]. rewrite (trace_fixed f 1 (3 / 2) _ "gamma_n" [1; 2; 3; 4] _ 1 1 F (file_holds _ _ _)) by (cbn; lia). cbn [bind].
  replace (dhas (dsets f) ("full_" ++ "gamma_n")) with false by reflexivity. cbn [bind].
  assert (El : later_is_int f 0 = false). { unfold later_is_int. rewrite (fx_in _ _ _ F). assert (Hl : 0 < 3 / 2) by lra. apply Rltb_true in Hl. now rewrite Hl. }
  rewrite El. unfold set_ticks. rewrite (floordiv_eq _ _ 0) by (cbn; lra). reflexivity.
Qed.
Lemma labels_differ : ~ (forall (f : h5 unit R) dt t_in curves cut, fixed_step f dt t_in ->
    plot_timetraces f latex_format ["gamma_n"] 0 300 100000 = Ok (Figure curves cut) -> map cv_label curves = [(latex_format "gamma_n" ++ " ")%string]).
Proof.
  intros H. set (f := file 0 [5; 6] 2).
  destruct (traces_fixed f 1 0 latex_format ["gamma_n"] (fun _ => [5; 6]) 0 300 100000 0 300 (file_fixed _ _ _)) as (cut & E & _).
  - cbn. lra.
  - rewrite INR_IZR_INZ. replace (Z.of_nat 300) with 300%Z by reflexivity. lra.
  - discriminate.
  - apply (one_prop f). { apply file_holds. } cbn. lia.
  - specialize (H f 1 0 _ _ (file_fixed _ _ _) E). vm_compute in H. discriminate.
Qed.
Lemma timeline_shown : ~ (forall y x t0, x <> [] -> y <> [] -> snd (plot_timeline y x t0) = Ok tt).
Proof. intros H. specialize (H [1] [1] 0 ltac:(discriminate) ltac:(discriminate)). rewrite timeline_fails in H by discriminate. discriminate. Qed.
Lemma writer_inverted : ~ (forall available, writer_warning available = true <-> ~ In "ffmpeg" available).
Proof. intros H. destruct (H ["ffmpeg"]) as [A _]. apply (A eq_refl). now left. Qed.
