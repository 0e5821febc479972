(** Proofs about the axes of the time-trace plots. *)
From Coq Require Import Arith ZArith Bool Reals String List Lra Lia.
From Verif Require Import Num NdArray ModelIO ModelRun ModelRunHW ModelPlot ModelTrace SpecPlot SpecTrace PlotFacts PlotProps.
Import ListNotations.
Local Open Scope string_scope.
Local Open Scope R_scope.

Lemma isclose0_spec x : isclose0 x = true <-> Rabs x <= 1 / 100000000.
Proof. unfold isclose0. rewrite Rabs_R0, Rmult_0_r, Rplus_0_r. unfold Rleb. destruct (Rle_dec _ _); split; trivial; intros; discriminate || contradiction. Qed.
Lemma y_limits_cut now mn mx yc : yc < mx -> y_limits now mn mx yc = (0, yc).
Proof. intros H. unfold y_limits. apply Rltb_true in H. now rewrite H. Qed.
Lemma Rltb_false x y : y <= x -> Rltb x y = false.
Proof. intros H. unfold Rltb. destruct (Rlt_dec x y); [lra|reflexivity]. Qed.
Lemma y_limits_zero now mn mx yc : mx <= yc -> - (1 / 100000000) <= mn <= 0 -> y_limits now mn mx yc = (0, snd now).
Proof.
  intros H M. unfold y_limits. rewrite Rltb_false by exact H. replace (isclose0 mn) with true; [reflexivity|].
  symmetry. apply isclose0_spec. rewrite Rabs_left1; lra.
Qed.
Lemma y_limits_auto now mn mx yc : mx <= yc -> mn < - (1 / 100000000) -> y_limits now mn mx yc = now.
Proof.
  intros H M. unfold y_limits. rewrite Rltb_false by exact H. replace (isclose0 mn) with false.
  - rewrite (Rltb_false 0 mn) by lra. reflexivity.
  - symmetry. apply not_true_iff_false. rewrite isclose0_spec, Rabs_left1; lra.
Qed.
Lemma visible_zero lo hi y : lo < y < hi -> (visible (0, hi) y <-> 0 <= y).
Proof. intros H. unfold visible. cbn [fst snd]. destruct (Rle_dec 0 hi); [rewrite Rmin_left, Rmax_right by lra|rewrite Rmin_right, Rmax_left by lra]; lra. Qed.

Section Facts.
Context {V : Type}.
Variable auto : list curve -> R * R.
Variable latex : string -> string.

Theorem comparison_visible (f : h5 V R) prefix props t0 t0_std xt yc v : with_margin auto -> 0 <= yc ->
  comparison_view auto latex f prefix props t0 t0_std xt yc = Ok (Some v) ->
  forall c y, shown v c -> In y (cv_y c) -> (visible (v_y v) y <-> 0 <= y).
Proof.
  intros HA Hy E c y (p & Hp & Hc) Hin. unfold comparison_view in E.
  destruct (plot_timetrace_comparison _ _ _ _ _ _ _ _) as [[[[top bottom] cut]|]|]; cbn [bind] in E; try discriminate.
  destruct (start_index _ _); cbn [bind] in E; [|discriminate]. destruct (comparison_x_limits _ _ _ _ _ _); cbn [bind] in E; [|discriminate].
  injection E as <-. cbn [v_panels v_y] in *.
  assert (H : In c (top ++ bottom)%list) by (apply in_or_app; destruct Hp as [<-|[<-|[]]]; tauto).
  specialize (HA _ _ _ H Hin). rewrite !(y_limits_zero _ 0 0) by lra. cbn [snd]. eapply visible_zero, HA.
Qed.

(** the smallest values *)
Lemma np_min_ok l : l <> [] -> exists m, np_min l = Ok m /\ In m l /\ forall x, In x l -> m <= x.
Proof.
  destruct l as [|a l]; [contradiction|]. intros _. cbn [np_min]. exists (fold_left Rmin l a). split; [reflexivity|].
  assert (G : forall l a, (fold_left Rmin l a = a \/ In (fold_left Rmin l a) l) /\ fold_left Rmin l a <= a /\ forall x, In x l -> fold_left Rmin l a <= x).
  { clear. induction l as [|b l IH]; intros a; cbn [fold_left]; [repeat split; [now left|lra|intros x []]|].
    destruct (IH (Rmin a b)) as (A & B & C). pose proof (Rmin_l a b). pose proof (Rmin_r a b). repeat split.
    - destruct A as [->|A]; [|right; now right]. unfold Rmin. destruct (Rle_dec a b); [now left|right; now left].
    - lra.
    - intros x [<-|H1]; [lra|now apply C]. }
  destruct (G l a) as (A & B & C). split; [destruct A as [->|A]; [now left|now right]|]. intros x [<-|H]; [exact B|now apply C].
Qed.
Lemma y_range_spec cs mn mx r : y_range cs mn mx = Ok r ->
  (forall c y, In c cs -> In y (cv_y c) -> fst r <= y) /\ fst r <= mn /\ (fst r = mn \/ exists c, In c cs /\ In (fst r) (cv_y c)) /\
  mx <= snd r /\ (forall c, In c cs -> exists m, In m (cv_y c) /\ m <= snd r /\ forall y, In y (cv_y c) -> m <= y) /\
  (snd r = mx \/ exists c, In c cs /\ In (snd r) (cv_y c) /\ forall y, In y (cv_y c) -> snd r <= y).
Proof.
  revert mn mx. induction cs as [|c cs IH]; intros mn mx E.
  - cbn in E. injection E as <-. cbn. repeat split; try lra; try (now left); intros c; intros; contradiction.
  - cbn [y_range] in E. destruct (cv_y c) as [|a l] eqn:Ec; [discriminate|]. destruct (np_min_ok (a :: l) ltac:(discriminate)) as (m & Em & Hm & Lm).
    rewrite Em in E. cbn [bind] in E. destruct (IH _ _ E) as (A & B & C & D & F & G). rewrite <- Ec in Hm, Lm.
    pose proof (Rmin_l mn m). pose proof (Rmin_r mn m). pose proof (Rmax_l mx m). pose proof (Rmax_r mx m). split; [|split; [|split; [|split; [|split]]]].
    + intros c' y [<-|H3] H4; [specialize (Lm y H4); lra|exact (A c' y H3 H4)].
    + lra.
    + destruct C as [C|(c' & H3 & H4)]; [|right; exists c'; split; [now right|exact H4]].
      revert C. unfold Rmin. destruct (Rle_dec mn m); intros C; [now left|]. right. exists c. split; [now left|]. now rewrite C.
    + lra.
    + intros c' [<-|H3]; [exists m; repeat split; trivial; lra|exact (F c' H3)].
    + destruct G as [G|(c' & H3 & H4)]; [|right; exists c'; split; [now right|exact H4]].
      revert G. unfold Rmax. destruct (Rle_dec mx m); intros G; [|now left]. right. exists c. split; [now left|]. rewrite G. now split.
Qed.
Theorem traces_visible (f : h5 V R) props t0 t0_std yc v : with_margin auto -> 0 <= yc ->
  traces_view auto latex f props t0 t0_std yc = Ok (Some v) ->
  let cut := exists c, shown v c /\ all_above yc c in
  let low := exists c y, shown v c /\ In y (cv_y c) /\ y < - (1 / 100000000) in
  forall c y, shown v c -> In y (cv_y c) ->
    (cut -> (visible (v_y v) y <-> 0 <= y <= yc)) /\
    (~ cut -> low -> visible (v_y v) y) /\
    (~ cut -> ~ low -> (visible (v_y v) y <-> 0 <= y)).
Proof.
  intros HA Hy E. unfold traces_view in E. destruct (plot_timetraces _ _ _ _ _ _) as [[|cs cut0]|]; cbn [bind] in E; try discriminate.
  destruct (last_x_limits _ _ _); cbn [bind] in E; [|discriminate]. destruct (y_range cs 0 0) as [r|] eqn:Er; cbn [bind] in E; [|discriminate].
  injection E as <-. set (v := mkView _ _ _).
  assert (Sh : forall c, shown v c <-> In c cs).
  { intros c. unfold shown, v. cbn [v_panels]. split; [intros (p & [<-|[]] & H); exact H|intros H; exists cs; split; [now left|exact H]]. }
  destruct (y_range_spec _ _ _ _ Er) as (A & B & C & D & F & G). intros cut low c y Hc Hin. apply Sh in Hc.
  specialize (HA cs c y Hc Hin). cbn [v_y v].
  assert (HC : cut <-> yc < snd r).
  { split.
    - intros (c' & H1 & H2). apply Sh in H1. destruct (F c' H1) as (m & H3 & H4 & _). specialize (H2 m H3). lra.
    - intros H. destruct G as [G|(c' & H1 & H2 & H3)]; [lra|]. exists c'. split; [now apply Sh|]. intros y' Hy'. specialize (H3 y' Hy'). lra. }
  assert (HL : low <-> fst r < - (1 / 100000000)).
  { split.
    - intros (c' & y' & H1 & H2 & H3). apply Sh in H1. specialize (A c' y' H1 H2). lra.
    - intros H. destruct C as [C|(c' & H1 & H2)]; [lra|]. exists c', (fst r). split; [now apply Sh|]. split; [exact H2|exact H]. }
  split; [|split].
  - intros K. rewrite y_limits_cut by (now apply HC). unfold visible. cbn [fst snd]. rewrite Rmin_left, Rmax_right by lra. lra.
  - intros K L. rewrite y_limits_auto; [|apply Rnot_lt_le; intros Z; apply K, HC, Z|now apply HL]. unfold visible. rewrite Rmin_left, Rmax_right by lra. lra.
  - intros K L. rewrite y_limits_zero; [|apply Rnot_lt_le; intros Z; apply K, HC, Z|split; [apply Rnot_lt_le; intros Z; apply L, HL, Z|exact B]].
    eapply visible_zero, HA.
Qed.

(** the time axis *)
Lemma last_x_limits_app t0 cs c old : (forall d, In d cs -> cv_x d <> []) -> cv_x c <> [] ->
  last_x_limits t0 (cs ++ [c]) old = Ok (Some (t0, t0 + last (cv_x c) 0)).
Proof.
  revert old. induction cs as [|d cs IH]; intros old H Hc; cbn [app last_x_limits]; unfold x_limits.
  - destruct (cv_x c); [contradiction|reflexivity].
  - pose proof (H d (or_introl eq_refl)). destruct (cv_x d); [contradiction|]. cbn [bind]. apply IH; [|exact Hc]. intros e He. apply H. now right.
Qed.
Lemma y_range_ok cs mn mx : (forall c, In c cs -> cv_y c <> []) -> exists r, y_range cs mn mx = Ok r.
Proof.
  revert mn mx. induction cs as [|c cs IH]; intros mn mx H; cbn [y_range]; [eexists; reflexivity|].
  destruct (np_min_ok (cv_y c) (H c (or_introl eq_refl))) as (m & -> & _). cbn [bind]. apply IH. intros d Hd. apply H. now right.
Qed.
Lemma last_times (t dt : R) n : (0 < n)%nat -> last (map (fun k => t + INR k * dt) (seq 0 n)) 0 = t + INR (n - 1) * dt.
Proof. intros H. destruct n as [|n]; [lia|]. rewrite seq_S, map_app. cbn [map plus]. rewrite last_last. now rewrite Nat.sub_succ, Nat.sub_0_r. Qed.
Theorem traces_time (f : h5 V R) dt t_in ps q (data : string -> list R) t0 t0_std yc i s : fixed_step f dt t_in ->
  INR i * dt <= t0 < (INR i + 1) * dt -> INR s * dt <= t0_std - t_in < (INR s + 1) * dt ->
  (forall p, In p (ps ++ [q])%list -> holds f p (data p) /\ (i < List.length (data p))%nat) ->
  exists v, traces_view auto latex f (ps ++ [q]) t0 t0_std yc = Ok (Some v) /\
    v_x v = Some (t0, t0 + (t0 + INR (List.length (data q) - 1 - i) * dt)) /\
    map cv_x (List.concat (v_panels v)) = map (fun p => map (fun k => t0 + INR k * dt) (seq 0 (List.length (data p) - i))) (ps ++ [q])%list.
Proof.
  intros F Bi Bs H. destruct (traces_fixed f dt t_in latex (ps ++ [q]) data t0 t0_std yc i s F Bi Bs ltac:(destruct ps; discriminate) H) as (cut & E & _).
  unfold traces_view. rewrite E. cbn [bind]. rewrite map_app. cbn [map]. rewrite last_x_limits_app.
  2:{ intros d Hd. apply in_map_iff in Hd. destruct Hd as (p & <- & Hp). cbn [cv_x]. destruct (H p ltac:(apply in_or_app; now left)) as [_ L].
      intros Z. apply map_eq_nil in Z. assert (W : List.length (seq 0 (List.length (data p) - i)) = 0%nat) by (rewrite Z; reflexivity). rewrite seq_length in W. lia. }
  2:{ cbn [cv_x]. destruct (H q ltac:(apply in_or_app; right; now left)) as [_ L].
      intros Z. apply map_eq_nil in Z. assert (W : List.length (seq 0 (List.length (data q) - i)) = 0%nat) by (rewrite Z; reflexivity). rewrite seq_length in W. lia. }
  cbn [bind].
  destruct (y_range_ok (map (fun p => mkCurve "<class 'property'> " (map (fun k => t0 + INR k * dt) (seq 0 (List.length (data p) - i))) (skipn i (data p))
     (skipn (stat_row (list_max (map (fun p0 => List.length (data p0)) (ps ++ [q]))) s i) (data p))) (ps ++ [q])) 0 0) as [r Er].
  { intros c Hc. apply in_map_iff in Hc. destruct Hc as (p & <- & Hp). cbn [cv_y]. destruct (H p Hp) as [_ L].
    intros Z. assert (W : List.length (skipn i (data p)) = 0%nat) by (rewrite Z; reflexivity). rewrite skipn_length in W. lia. }
  rewrite map_app in Er. cbn [map] in Er. rewrite Er. cbn [bind]. eexists. split; [reflexivity|]. cbn [v_x v_panels cv_x]. split.
  - destruct (H q ltac:(apply in_or_app; right; now left)) as [_ L]. rewrite last_times by lia. do 4 f_equal. f_equal. f_equal. lia.
  - cbn [List.concat]. rewrite app_nil_r, !map_app, map_map. reflexivity.
Qed.

(** the comparison: every property, and every full-resolution version there is, has n rows *)
Definition times_of (t dt : R) (m : nat) : list R := map (fun k => t + INR k * dt) (seq 0 m).
Lemma times_nil t dt m : (0 < m)%nat -> times_of t dt m <> [].
Proof. intros H Z. apply map_eq_nil in Z. assert (W : List.length (seq 0 m) = 0%nat) by (rewrite Z; reflexivity). rewrite seq_length in W. lia. Qed.
Lemma x_limits_fixed t dt m label y st : (0 < m)%nat -> x_limits t (mkCurve label (times_of t dt m) y st) = Ok (t, t + (t + INR (m - 1) * dt)).
Proof.
  intros H. unfold x_limits. cbn [cv_x]. pose proof (times_nil t dt m H). pose proof (last_times t dt m H) as E.
  fold (times_of t dt m) in E. destruct (times_of t dt m); [contradiction|]. now rewrite E.
Qed.
Definition rows_n (f : h5 V R) (n : nat) (p : string) : Prop := exists l, holds f p l /\ List.length l = n.
Lemma comparison_x (f : h5 V R) dt t_in prefix props t i n old : fixed_step f dt t_in -> (i < n)%nat ->
  (forall p, In p props -> rows_n f n p /\ (dhas (dsets f) (prefix ++ p)%string = true -> rows_n f n (prefix ++ p)%string)) ->
  comparison_x_limits f prefix props t (Z.of_nat i) old = Ok (match props with [] => old | _ => Some (t, t + (t + INR (n - i - 1) * dt)) end).
Proof.
  intros F Hi. revert old. induction props as [|p l IH]; intros old H; [reflexivity|]. cbn [comparison_x_limits].
  destruct (H p (or_introl eq_refl)) as [(dp & Hp & Lp) Hf]. change 0%Z with (Z.of_nat 0). rewrite (trace_fixed f dt t_in "" p dp t i 0 F Hp) by lia.
  cbn [bind then_x_limits]. fold (times_of t dt (List.length dp - i)). rewrite x_limits_fixed, Lp by lia. cbn [bind].
  destruct (dhas (dsets f) (prefix ++ p)%string) eqn:Ed.
  - destruct (Hf eq_refl) as (df & Hq & Lq). rewrite (trace_fixed f dt t_in "" _ df t i 0 F Hq) by lia.
    cbn [bind then_x_limits]. fold (times_of t dt (List.length df - i)). rewrite x_limits_fixed, Lq by lia. cbn [bind].
    rewrite IH by (intros q Hq'; apply H; now right). destruct l; reflexivity.
  - cbn [bind]. rewrite IH by (intros q Hq'; apply H; now right). destruct l; reflexivity.
Qed.
Lemma comparison_loop_ok (f : h5 V R) dt t_in prefix props t i s n top bottom : fixed_step f dt t_in -> (i < n)%nat ->
  (forall p, In p props -> rows_n f n p /\ (dhas (dsets f) (prefix ++ p)%string = true -> rows_n f n (prefix ++ p)%string)) ->
  (forall c, In c (top ++ bottom)%list -> cv_x c = times_of t dt (n - i)) ->
  exists top' bottom', comparison_loop f latex prefix props t (Z.of_nat i) (Z.of_nat s) top bottom = Ok (top', bottom') /\
    forall c, In c (top' ++ bottom')%list -> cv_x c = times_of t dt (n - i).
Proof.
  intros F Hi. revert top bottom. induction props as [|p l IH]; intros top bottom H HT; [exists top, bottom; split; [reflexivity|exact HT]|].
  cbn [comparison_loop]. destruct (H p (or_introl eq_refl)) as [(dp & Hp & Lp) Hf]. rewrite (trace_fixed f dt t_in _ p dp t i s F Hp) by lia. cbn [bind].
  destruct (dhas (dsets f) (prefix ++ p)%string) eqn:Ed.
  - destruct (Hf eq_refl) as (df & Hq & Lq). rewrite (trace_fixed f dt t_in _ _ df t i s F Hq) by lia. cbn [bind].
    apply IH; [intros q Hq'; apply H; now right|]. intros c Hc. rewrite !in_app_iff in Hc. cbn [In] in Hc.
    destruct Hc as [[Hc|[<-|[]]]|[Hc|[<-|[]]]]; cbn [cv_x]; [apply HT, in_or_app; now left|now rewrite Lp|apply HT, in_or_app; now right|now rewrite Lq].
  - cbn [bind]. apply IH; [intros q Hq'; apply H; now right|]. intros c Hc. rewrite !in_app_iff in Hc. cbn [In] in Hc.
    destruct Hc as [[Hc|[<-|[]]]|Hc]; cbn [cv_x]; [apply HT, in_or_app; now left|now rewrite Lp|apply HT, in_or_app; now right].
Qed.
Lemma longest_rows (f : h5 V R) n i props m : (i < n)%nat -> (forall p, In p props -> rows_n f n p) ->
  longest f (Z.of_nat i) props m = Ok (Some (match props with [] => m | _ => Nat.max m n end)).
Proof.
  intros Hi. revert m. induction props as [|p l IH]; intros m H; [reflexivity|]. cbn [longest].
  destruct (H p (or_introl eq_refl)) as (dp & Hp & Lp). assert (E : rows_len f p = Ok n).
  { unfold rows_len, dlook. unfold SpecPlot.holds in Hp. rewrite Hp. cbn [bind]. now rewrite map_length, Lp. }
  rewrite E. cbn [bind]. destruct (Z.leb_spec (Z.of_nat n) (Z.of_nat i)); [lia|]. rewrite IH by (intros q Hq; apply H; now right).
  destruct l; [reflexivity|]. do 2 f_equal. lia.
Qed.
Theorem comparison_time (f : h5 V R) dt t_in prefix props (t0 : Z) t0_std xt yc n0 n i s : fixed_step f dt t_in -> has_rows f "density" n0 ->
  t_in <= IZR t0 -> 0 < xt -> props <> [] -> (i < n)%nat ->
  INR i * dt <= IZR t0 < (INR i + 1) * dt -> INR s * dt <= t0_std - t_in < (INR s + 1) * dt ->
  (forall p, In p props -> rows_n f n p /\ (dhas (dsets f) (prefix ++ p)%string = true -> rows_n f n (prefix ++ p)%string)) ->
  exists v, comparison_view auto latex f prefix props t0 t0_std xt yc = Ok (Some v) /\
    v_x v = Some (IZR t0, IZR t0 + (IZR t0 + INR (n - 1 - i) * dt)) /\
    forall c, shown v c -> cv_x c = map (fun k => IZR t0 + INR k * dt) (seq 0 (n - i)).
Proof.
  intros F Hn Ht Hx Ne Hi Bi Bs H. unfold comparison_view, plot_timetrace_comparison. rewrite (fixed_initial _ _ _ F), Rmax_left by exact Ht.
  rewrite (start_fixed _ _ _ _ _ F Bi). cbn [bind].
  assert (Ee : end_time f = Ok (INR n0 * dt)).
  { unfold end_time. rewrite (fixed_adaptive _ _ _ F), (rows_len_has _ _ _ Hn). cbn [bind]. rewrite (fixed_attr _ _ _ F). reflexivity. }
  rewrite Ee. cbn [bind]. rewrite (longest_rows f n i props 0 Hi) by (intros p Hp; apply H, Hp). cbn [bind].
  rewrite (start_fixed _ _ _ _ _ F Bs). cbn [bind].
  set (m := match props with [] => 0%nat | _ => Nat.max 0 n end).
  replace (if (Z.of_nat m <? Z.of_nat s)%Z then Z.of_nat i else Z.of_nat s) with (Z.of_nat (stat_row m s i)).
  2:{ unfold stat_row. destruct (Nat.ltb_spec m s), (Z.ltb_spec (Z.of_nat m) (Z.of_nat s)); lia || reflexivity. }
  destruct (comparison_loop_ok f dt t_in prefix props (IZR t0) i (stat_row m s i) n [] [] F Hi H) as (top & bottom & -> & HT); [intros c []|]. cbn [bind fst snd].
  assert (Es : set_ticks (later_is_int f t0) (INR n0 * dt) xt = Ok tt).
  { unfold set_ticks. destruct (floordiv_ok (INR n0 * dt) xt Hx) as (z & -> & _). cbn [bind]. unfold later_is_int. rewrite (fx_in _ _ _ F).
    rewrite Rltb_false by exact Ht. cbn [negb]. now rewrite Bool.andb_false_r. }
  rewrite Es. cbn [bind]. rewrite (comparison_x f dt t_in prefix props (IZR t0) i n None F Hi H). cbn [bind].
  eexists. split; [reflexivity|]. cbn [v_x]. split.
  - destruct props; [contradiction|]. do 4 f_equal. f_equal. f_equal. lia.
  - intros c (p & Hp & Hc). cbn [v_panels] in Hp. apply HT, in_or_app. destruct Hp as [<-|[<-|[]]]; tauto.
Qed.

(** ** files *)
Lemma filter_twice p (d : pictures) : filter (fun q => negb (String.eqb (fst q) p)) (filter (fun q => negb (String.eqb (fst q) p)) d) = filter (fun q => negb (String.eqb (fst q) p)) d.
Proof. induction d as [|a d IH]; [reflexivity|]. cbn [filter]. destruct (String.eqb (fst a) p) eqn:E; cbn [negb]; [exact IH|]. cbn [filter]. rewrite E. cbn [negb]. now rewrite IH. Qed.
Lemma savefig_twice p v v' d : savefig p v' (savefig p v d) = savefig p v' d.
Proof. unfold savefig. cbn [filter fst]. rewrite String.eqb_refl. cbn [negb]. now rewrite filter_twice. Qed.
Lemma picture_here p v d : picture (savefig p v d) p = Some v.
Proof. unfold picture, savefig. cbn [find fst]. now rewrite String.eqb_refl. Qed.
Lemma picture_other p p' v d : p' <> p -> picture (savefig p v d) p' = picture d p'.
Proof.
  intros H. unfold picture, savefig. cbn [find fst]. destruct (String.eqb_spec p p'); [congruence|]. f_equal.
  induction d as [|a d IH]; [reflexivity|]. cbn [filter find]. destruct (String.eqb_spec (fst a) p) as [E|E]; cbn [negb].
  - destruct (String.eqb_spec (fst a) p'); [congruence|exact IH].
  - cbn [find]. destruct (String.eqb (fst a) p'); [reflexivity|exact IH].
Qed.
Lemma main_one_path (f : h5 V R) fp p t0 ts d v1 v2 :
  traces_view auto latex f main_fluxes (IZR t0) ts 100000 = Ok (Some v1) -> traces_view auto latex f main_energies (IZR t0) ts 100000 = Ok (Some v2) ->
  trace_main auto latex f fp (Some p) t0 ts false d = (savefig p v2 d, Ok tt).
Proof. intros E1 E2. unfold trace_main. rewrite E1, E2. cbn [save_opt target]. now rewrite savefig_twice. Qed.
Lemma str_app_inv (a b c : string) : (a ++ b = a ++ c -> b = c)%string.
Proof. induction a as [|x a IH]; cbn; [trivial|]. intros H. injection H. exact IH. Qed.
Lemma default_paths fp : default_path fp main_fluxes <> default_path fp main_energies.
Proof. unfold default_path. intros H. apply str_app_inv in H. discriminate. Qed.
Lemma main_two_paths (f : h5 V R) fp t0 ts d v1 v2 :
  traces_view auto latex f main_fluxes (IZR t0) ts 100000 = Ok (Some v1) -> traces_view auto latex f main_energies (IZR t0) ts 100000 = Ok (Some v2) ->
  exists d', trace_main auto latex f fp None t0 ts false d = (d', Ok tt) /\
    picture d' (default_path fp main_fluxes) = Some v1 /\ picture d' (default_path fp main_energies) = Some v2.
Proof.
  intros E1 E2. unfold trace_main. rewrite E1, E2. cbn [save_opt target]. eexists. split; [reflexivity|]. split; [|apply picture_here].
  rewrite picture_other by apply default_paths. apply picture_here.
Qed.
End Facts.

(** str(file_path).split(".h5")[0] *)
Lemma prefix_h5 s : String.prefix ".h5" s = true <-> exists r, s = (".h5" ++ r)%string.
Proof.
  split.
  - destruct s as [|a [|b [|c r]]]; cbn [String.prefix].
    + discriminate.
    + destruct (Ascii.ascii_dec _ _); discriminate.
    + destruct (Ascii.ascii_dec _ _); [|discriminate]. destruct (Ascii.ascii_dec _ _); discriminate.
    + destruct (Ascii.ascii_dec _ _) as [<-|]; [|discriminate]. destruct (Ascii.ascii_dec _ _) as [<-|]; [|discriminate].
      destruct (Ascii.ascii_dec _ _) as [<-|]; [|discriminate]. intros _. now exists r.
  - intros (r & ->). cbn. destruct r; reflexivity.
Qed.
Lemma before_stem s r : (forall a b, s <> a ++ ".h5" ++ b)%string -> before ".h5" (s ++ ".h5" ++ r) = s.
Proof.
  induction s as [|c s IH]; intros H.
  - cbn. destruct r; reflexivity.
  - change (String c s ++ ".h5" ++ r)%string with (String c (s ++ ".h5" ++ r)). cbn [before]. destruct (String.prefix ".h5" (String c (s ++ ".h5" ++ r))) eqn:E.
    + exfalso. apply prefix_h5 in E. destruct E as (q & E). cbn [String.append] in E. injection E as -> E.
      destruct s as [|c2 s]; [cbn in E; discriminate|]. cbn [String.append] in E. injection E as -> E.
      destruct s as [|c3 s]; [cbn in E; discriminate|]. cbn [String.append] in E. injection E as -> E.
      apply (H "" s). reflexivity.
    + f_equal. apply IH. intros a b Z. apply (H (String c a) b). now rewrite Z.
Qed.
Lemma default_stem s props : (forall a b, s <> a ++ ".h5" ++ b)%string -> default_path (s ++ ".h5") props = (s ++ "_" ++ String.concat "-" props ++ ".jpg")%string.
Proof. intros H. unfold default_path. pose proof (before_stem s "" H) as E. change (".h5" ++ "")%string with ".h5" in E. now rewrite E. Qed.
