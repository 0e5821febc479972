(** The movie and the comparison plot of run2 simulations. *)
From Coq Require Import Arith ZArith Bool Reals String List Lia Lra.
Import List.
From Verif Require Import Num NdArray Spec SpecFourier SpecHW SpecPlasma SpecDiag
  ModelHW ModelBackend ModelIO ModelRun ModelRunHW SpecIO SpecRun SpecRunHW ModelPlot SpecPlot SpecAttr
  IOFacts HelpersFacts KeepFacts RunHWFacts RunHWProps RunHWSplit RunHWTop PlotFacts PlotProps PlotCases RunPlot ModelRunEnd SpecRunEnd RunEnd SpecRun2End Run2End.
Import ListNotations.
Local Open Scope string_scope.
Local Open Scope R_scope.
#[local] Existing Instance TimeR.

(** ** The comparison plot of a file *)
Section File.
Context {V : Type}.
Implicit Types f : h5 V R.

Lemma trace_adaptive f dt t_in label p data times t0 i s : adaptive_step f dt t_in -> holds f "time" times -> holds f p data ->
  length data = length times -> (i < length times)%nat ->
  trace_curve f label p t0 (Z.of_nat i) (Z.of_nat s) = Ok (Some (mkCurve label (skipn i times) (skipn i data) (skipn s data))).
Proof.
  intros F Ht A B Li. assert (Ls : length (skipn i data) = (length times - i)%nat) by (rewrite skipn_length; lia).
  unfold trace_curve. rewrite (nums_holds _ _ _ A). cbn [bind]. rewrite !from_nat.
  destruct (skipn i data) as [|a tl] eqn:Es; [cbn in Ls; lia|]. rewrite <- Es in *.
  unfold trace_x. rewrite (adap_adaptive _ _ _ F), (adap_attr _ _ _ F), (nums_holds _ _ _ Ht). cbn [bind]. rewrite from_nat, Ls.
  rewrite firstn_all2 by (rewrite skipn_length; lia). reflexivity.
Qed.
Lemma holds_has f p l : holds f p l -> dhas (dsets f) p = true.
Proof. intros H. unfold dhas. unfold holds in H. now rewrite H. Qed.
Lemma comparison_loop_eq f latex prefix props t0 i s top bottom (C D : string -> curve) :
  (forall p, In p props -> trace_curve f (trace_label latex p) p t0 i s = Ok (Some (C p)) /\ dhas (dsets f) (prefix ++ p) = true /\
     trace_curve f ("Full " ++ latex p ++ " ") (prefix ++ p) t0 i s = Ok (Some (D p))) ->
  comparison_loop f latex prefix props t0 i s top bottom = Ok ((top ++ map C props)%list, (bottom ++ map D props)%list).
Proof.
  revert top bottom. induction props as [|p l IH]; intros top bottom H.
  - cbn. now rewrite !app_nil_r.
  - cbn [comparison_loop]. destruct (H p (or_introl eq_refl)) as (E1 & E2 & E3). rewrite E1. cbn [bind]. rewrite E2, E3. cbn [bind].
    rewrite IH by (intros q Hq; apply H; now right). now rewrite <- !app_assoc.
Qed.
Lemma lens_max (props : list string) (len : string -> nat) N : props <> [] -> (forall p, In p props -> len p = N) ->
  list_max (map len props) = N.
Proof.
  intros Ne H. induction props as [|p l IH]; [contradiction|]. cbn [map list_max fold_right]. rewrite (H p (or_introl eq_refl)).
  destruct l as [|q l]; [cbn; lia|]. change (fold_right Nat.max 0%nat (map len (q :: l))) with (list_max (map len (q :: l))).
  rewrite IH; [lia|discriminate|]. intros r Hr. apply H. now right.
Qed.
Lemma comparison_eq f latex prefix props (data : string -> list R) (t0 : Z) t0_std xtick y_cutoff i s N age (C D : string -> curve) :
  let t := Rmax (IZR t0) (initial_time f) in let w := stat_row N s i in
  start_index f t = Ok (Z.of_nat i) -> start_index f (t0_std - initial_time f) = Ok (Z.of_nat s) -> end_time f = Ok age ->
  props <> [] -> (i < N)%nat ->
  (forall p, In p props -> holds f p (data p) /\ length (data p) = N /\
     trace_curve f (trace_label latex p) p t (Z.of_nat i) (Z.of_nat w) = Ok (Some (C p)) /\ dhas (dsets f) (prefix ++ p) = true /\
     trace_curve f ("Full " ++ latex p ++ " ") (prefix ++ p) t (Z.of_nat i) (Z.of_nat w) = Ok (Some (D p))) ->
  plot_timetrace_comparison f latex prefix props t0 t0_std xtick y_cutoff
    = (let* _ := set_ticks (later_is_int f t0) age xtick in Ok (Some (map C props, map D props, Rltb y_cutoff 0))).
Proof.
  intros t w Ei Es Ea Ne Hi H. unfold plot_timetrace_comparison. fold t. rewrite Ei, Ea. cbn [bind].
  rewrite (longest_eq f i data props 0). 2:{ intros p Hp. destruct (H p Hp) as (A & B & _). split; [exact A|lia]. }
  cbn [bind]. rewrite Nat.max_0_l, (lens_max props _ N Ne) by (intros p Hp; apply (H p Hp)). rewrite Es. cbn [bind].
  replace (if (Z.of_nat N <? Z.of_nat s)%Z then Z.of_nat i else Z.of_nat s) with (Z.of_nat w).
  2:{ unfold w, stat_row. destruct (Nat.ltb_spec N s), (Z.ltb_spec (Z.of_nat N) (Z.of_nat s)); lia || reflexivity. }
  rewrite (comparison_loop_eq f latex prefix props t _ _ [] [] C D) by (intros p Hp; apply (H p Hp)). reflexivity.
Qed.
Lemma ticks_int age xtick : 0 < xtick -> set_ticks true age xtick = Ok tt.
Proof. intros Px. unfold set_ticks. destruct (floordiv_ok age xtick Px) as (z & -> & _). cbn [bind]. now rewrite andb_false_r. Qed.
Lemma ticks_float age xtick : 0 < xtick -> age < 15 * xtick -> set_ticks false age xtick = Exn TypeError.
Proof.
  intros Px B. unfold set_ticks. destruct (floordiv_ok age xtick Px) as (z & -> & [L U]). cbn [bind].
  assert (z < 15)%Z. { apply lt_IZR. apply (Rmult_lt_reg_r xtick); [exact Px|]. lra. }
  destruct (Z.ltb_spec z 15); [reflexivity|lia].
Qed.
Lemma floor_row t dt : 0 <= t -> 0 < dt -> exists s : nat, INR s * dt <= t < (INR s + 1) * dt.
Proof.
  intros Ht Pd. destruct (floordiv_ok t dt Pd) as (z & _ & [L U]).
  assert (0 <= z)%Z. { assert (-1 < z)%Z; [|lia]. apply lt_IZR. apply (Rmult_lt_reg_r dt); [exact Pd|]. lra. }
  exists (Z.to_nat z). rewrite INR_IZR_INZ, Z2Nat.id by lia. lra.
Qed.
Lemma plot2_cons e latex f : e_plots e <> [] ->
  plot2_of e latex (Some f) = (let* g := plot_timetrace_comparison f latex "fullres_" (e_plots e) 0 (e_t0_std e) 100 100000 in Ok (Some g)).
Proof. intros H. unfold plot2_of. destruct (e_plots e); [contradiction|reflexivity]. Qed.
Lemma plot2_nil e latex fs : e_plots e = [] -> @plot2_of V e latex fs = Ok None.
Proof. intros H. unfold plot2_of. now rewrite H. Qed.
Lemma nil_or {X} (l : list X) : l = [] \/ l <> [].
Proof. destruct l; [now left|right; discriminate]. Qed.
End File.

(** ** Recorded runs *)
Section HW.
Variables (b : backend R) (p : par) (ny nx ys xs : nat) (k0 : R) (dsf : field -> field) (c : cfg (arr R) R) (rnd : R -> R) (y0 : state) (phi0 : field)
  (fs : disk (arr R) R) (m n fuel : nat).
Hypothesis RF : records2_from b p ny nx ys xs k0 dsf c fs m n fuel.
Let HS := r2_setup _ _ _ _ _ _ _ _ _ _ _ _ _ RF.
Let Hfit := r2_fits _ _ _ _ _ _ _ _ _ _ _ _ _ RF.
Let Hph := r2_phys _ _ _ _ _ _ _ _ _ _ _ _ _ RF.
Let Hfs := r2_file _ _ _ _ _ _ _ _ _ _ _ _ _ RF.
Let Hst := r2_step _ _ _ _ _ _ _ _ _ _ _ _ _ RF.
Let Hrec := r2_rec _ _ _ _ _ _ _ _ _ _ _ _ _ RF.
Let Hgo := r2_going _ _ _ _ _ _ _ _ _ _ _ _ _ RF.
Let Hdone := r2_done _ _ _ _ _ _ _ _ _ _ _ _ _ RF.
Let Hfu := r2_fuel _ _ _ _ _ _ _ _ _ _ _ _ _ RF.
Let Hlate := r2_late _ _ _ _ _ _ _ _ _ _ _ _ _ RF.
Let pl0 := plasma0 (grid ny nx (fst y0)) (grid ny nx (snd y0)) (grid ny nx phi0).
Let S := hw_sim b rnd ny nx ys xs.
Let k := Z.to_nat (c_snaps c).
Let N := rows_of m k n.
Let fr r := hw_frame p ny nx (c_dx c) (c_step c) y0 phi0 (iteration m k r).
Let dt := c_step c * IZR (c_snaps c).
Let val q r := stored_value rnd dsf ys xs (domain_dx k0 xs) (pc1 p) q (fr r).
Let full q r := full_value rnd ny nx (c_dx c) (pc1 p) q (fr r).

Lemma file2 : exists g, result_of (run2 S c fuel pl0) fs = Ok tt /\ disk_of (run2 S c fuel pl0) fs = Some g /\
  file_frames rnd dsf ys xs (map fr (seq 0 N)) g /\
  (forall q, In q (c_props c) -> holds g q (map (val q) (seq 0 N)) /\ holds g ("fullres_" ++ q) (map (full q) (seq 0 N))) /\
  attrs g = save_params_of c (c_phys c) (c_adaptive c).
Proof.
  pose proof (hs_k0 _ _ _ _ _ _ _ _ _ HS) as Hk0.
  destruct (params2_attrs c (c_dx c) (Z.of_nat (pN p)) (pc1 p) (pnu p) k0 (ppb p) (pkap p) (pzon p) (c_adaptive c)) as (fdt & Ex & Ey & Ek & Ec & Ef & Ep).
  rewrite (hs_x _ _ _ _ _ _ _ _ _ HS) in Ex. rewrite (hs_y _ _ _ _ _ _ _ _ _ HS) in Ey.
  destruct (hw_run2_fresh b p ny nx ys xs k0 dsf c rnd HS
    (physics_params2 (c_dx c) (Z.of_nat (pN p)) (pc1 p) (pnu p) k0 (ppb p) (pkap p) (pzon p)) (hw_of_params2 b p (c_dx c) k0 Hk0) eq_refl Hfit
    y0 phi0 fs n fuel Hph (params2_nodup _ _ _ _ _ _ _ _) Hfs) as (g & Rf & Df & Af & FF & FP & FS).
  { exists fdt. auto. } { exact Hgo. } { exact Hdone. } { exact Hfu. }
  destruct (Rlt_dec _ _) as [_|X] in FF, FP; [|contradiction (X Hlate)].
  rewrite (its_from c m _ Hst (hs_snaps _ _ _ _ _ _ _ _ _ HS) Hrec), map_map in FF, FP. fold k N in FF, FP.
  exists g. split; [exact Rf|]. split; [exact Df|]. split; [exact FF|]. split.
  - intros q Hq. destruct (FP q Hq) as [F1 F2]. unfold file_prop, file_fullres in F1, F2. unfold holds. rewrite F1, F2, !map_map. split; reflexivity.
  - rewrite Hph. exact Af.
Qed.

Lemma dt2_pos : 0 < dt.
Proof. unfold dt. pose proof (IZR_le _ _ (hs_snaps _ _ _ _ _ _ _ _ _ HS)). nra. Qed.
Lemma titled2 (g : h5 (arr R) R) : attrs g = save_params_of c (c_phys c) (c_adaptive c) -> titled g.
Proof.
  intros E. destruct (@saved_describe _ _ TimeR c (c_adaptive c)) as [D1 D2 D3 D4 D5 D6 D7 D8 D9 D10]. rewrite <- E in *.
  intros q Hq. cbn [In] in Hq. destruct Hq as [<-|[<-|[<-|[<-|[<-|[<-|[]]]]]]]; try (rewrite D7; eauto); try (rewrite D1; eauto);
      (rewrite D10; [|unfold run_keys; cbn [In]; intuition discriminate]); rewrite Hph; cbn; eauto.
Qed.
Lemma fixed2 (g : h5 (arr R) R) : attrs g = save_params_of c (c_phys c) (c_adaptive c) -> c_adaptive c = false -> fixed_step g dt (INR m * dt).
Proof.
  intros E Ha. destruct (@saved_describe _ _ TimeR c (c_adaptive c)) as [D1 D2 D3 D4 D5 D6 D7 D8 D9 D10]. rewrite <- E in *.
  split; [exact D2| |now rewrite D9, Ha|apply dt2_pos]. rewrite D8. unfold dt. now rewrite Hrec.
Qed.
Lemma adaptive2 (g : h5 (arr R) R) : attrs g = save_params_of c (c_phys c) (c_adaptive c) -> c_adaptive c = true -> adaptive_step g dt (INR m * dt).
Proof.
  intros E Ha. destruct (@saved_describe _ _ TimeR c (c_adaptive c)) as [D1 D2 D3 D4 D5 D6 D7 D8 D9 D10]. rewrite <- E in *.
  split; [exact D2| |now rewrite D9, Ha]. rewrite D8. unfold dt. now rewrite Hrec.
Qed.
Lemma frame_time2 r : f_t (fr r) = row_time dt (INR m * dt) r.
Proof.
  unfold fr, hw_frame, iteration, row_time, dt. cbn [f_t].
  assert (Ek : IZR (c_snaps c) = INR k) by (unfold k; rewrite INR_IZR_INZ, Z2Nat.id by (pose proof (hs_snaps _ _ _ _ _ _ _ _ _ HS); lia); reflexivity).
  rewrite Ek, mult_INR, plus_INR. ring.
Qed.
Lemma frame_rows2 (g : h5 (arr R) R) : file_frames rnd dsf ys xs (map fr (seq 0 N)) g -> has_rows g "density" N.
Proof. intros (D & _). eexists. split; [exact D|]. now rewrite !map_length, seq_length. Qed.
Lemma frame_times2 (g : h5 (arr R) R) : file_frames rnd dsf ys xs (map fr (seq 0 N)) g -> holds g "time" (map (fun r => rnd (f_t (fr r))) (seq 0 N)).
Proof. intros (_ & _ & _ & D). unfold holds. rewrite D, !map_map. reflexivity. Qed.
Lemma frame_shows2 (g : h5 (arr R) R) r : file_frames rnd dsf ys xs (map fr (seq 0 N)) g -> (r < N)%nat -> row_shows rnd dsf ys xs g r (fr r).
Proof.
  intros (D & _) Hr. eexists. split; [exact D|]. rewrite map_map, nth_error_map.
  rewrite (nth_error_nth' _ 0%nat) by now rewrite seq_length. rewrite seq_nth by assumption. reflexivity.
Qed.
Lemma hw_starts2 : starts c fs.
Proof. destruct Hfs as [H|H]; [now left|right; now left]. Qed.
Lemma props_apart2 q : In q (c_props c) -> q <> "density" /\ q <> "time".
Proof.
  intros Hq. destruct (Hfit q Hq) as [Pq|[[-> _]|[-> _]]]; [|split; discriminate|split; discriminate].
  cbn in Pq. repeat (destruct Pq as [<-|Pq]; [split; discriminate|]). destruct Pq.
Qed.
Lemma kp_density : ~ In "density" (c_props c).
Proof. intros H. now apply props_apart2 in H as [H _]. Qed.
Lemma kp_time : ~ In "time" (c_props c).
Proof. intros H. now apply props_apart2 in H as [_ H]. Qed.

Variables (e : ending) (latex : string -> string).
Let A := run2_all S c e latex fuel pl0.
Let top time w := map (fun q => curve_of (latex q ++ " ") time (val q) N w) (e_plots e).
Let bottom time w := map (fun q => curve_of ("Full " ++ latex q ++ " ") time (full q) N w) (e_plots e).

(** what the movie shows: rows, each with its time *)
Let movie_ok g (mv : option (R * list (nat * R))) (title : nat -> R) := match mv with
  | None => e_movie e = false
  | Some (fps, shown) => e_movie e = true /\ shown <> [] /\
      forall r t, In (r, t) shown -> (r < N)%nat /\ t = title r /\ row_shows rnd dsf ys xs g r (fr r)
  end.
Let plot_ok (pt : option (option (list curve * list curve * bool))) time w := match pt with
  | None => e_plots e = []
  | Some None => False
  | Some (Some (t, l, cut)) => e_plots e <> [] /\ t = top time w /\ l = bottom time w /\ cut = false
  end.

Lemma y_cut : Rltb 100000 0 = false.
Proof. apply Rltb_false. lra. Qed.

(** fixed steps, recorded from the start *)
Lemma plot_start (g : h5 (arr R) R) s : m = 0%nat -> c_adaptive c = false -> incl (e_plots e) (c_props c) ->
  file_frames rnd dsf ys xs (map fr (seq 0 N)) g ->
  (forall q, In q (c_props c) -> holds g q (map (val q) (seq 0 N)) /\ holds g ("fullres_" ++ q) (map (full q) (seq 0 N))) ->
  attrs g = save_params_of c (c_phys c) (c_adaptive c) -> INR s * dt <= e_t0_std e < (INR s + 1) * dt ->
  exists pt, plot2_of e latex (Some g) = Ok pt /\ plot_ok pt (fun r => f_t (fr r)) (stat_row N s 0).
Proof.
  intros Em Ha Hin FF FP At Bs. pose proof (fixed2 g At Ha) as F. assert (E0 : INR m * dt = 0) by (rewrite Em; cbn; ring).
  pose proof frame_time2 as FT. rewrite E0 in F, FT.
  assert (PN : (0 < N)%nat) by (unfold N, rows_of; rewrite Em; lia). pose proof dt2_pos as Pd.
  destruct (nil_or (e_plots e)) as [Ep|Ne]; [exists None; split; [now apply plot2_nil|exact Ep]|].
  rewrite plot2_cons by exact Ne.
  set (ft := fun r => f_t (fr r)).
  rewrite (comparison_eq g latex "fullres_" (e_plots e) (fun q => map (val q) (seq 0 N)) 0 (e_t0_std e) 100 100000 0 s N (INR N * dt)
    (fun q => curve_of (latex q ++ " ") ft (val q) N (stat_row N s 0)) (fun q => curve_of ("Full " ++ latex q ++ " ") ft (full q) N (stat_row N s 0))).
  - assert (Li : later_is_int g 0 = true).
    { unfold later_is_int. rewrite (fx_in _ _ _ F). destruct (Rltb 0 0) eqn:X; [apply Rltb_true in X; lra|reflexivity]. }
    rewrite Li, ticks_int by lra. cbn [bind]. eexists. split; [reflexivity|]. unfold plot_ok. rewrite y_cut. repeat split. exact Ne.
  - rewrite (fixed_initial _ _ _ F). replace (Rmax 0 0) with 0 by (rewrite Rmax_left; lra). apply (start_fixed g dt 0 0 0%nat F). cbn [INR]. lra.
  - rewrite (fixed_initial _ _ _ F). apply (start_fixed g dt 0 _ s F). lra.
  - unfold end_time. rewrite (fixed_adaptive _ _ _ F), (rows_len_has _ _ _ (frame_rows2 g FF)). cbn [bind]. rewrite (fixed_attr _ _ _ F). reflexivity.
  - exact Ne.
  - exact PN.
  - intros q Hq. destruct (FP q (Hin q Hq)) as [H1 H2]. split; [exact H1|]. split; [now rewrite map_length, seq_length|].
    rewrite (fixed_initial _ _ _ F). replace (Rmax 0 0) with 0 by (rewrite Rmax_left; lra).
    assert (Et : map (fun j => 0 + INR j * dt) (seq 0 (N - 0)) = map ft (seq 0 N)).
    { rewrite Nat.sub_0_r. apply map_ext. intros r. unfold ft. rewrite FT. reflexivity. }
    split; [|split].
    + rewrite (trace_fixed g dt 0) with (data := map (val q) (seq 0 N)); try assumption; rewrite ?map_length, ?seq_length; [|exact PN].
      now rewrite Et.
    + exact (holds_has _ _ _ H2).
    + rewrite (trace_fixed g dt 0) with (data := map (full q) (seq 0 N)); try assumption; rewrite ?map_length, ?seq_length; [|exact PN].
      now rewrite Et.
Qed.

(** adaptive flag set: the recorded times are used *)
Lemma times_nth r : (r < N)%nat -> nth r (map (fun r => rnd (f_t (fr r))) (seq 0 N)) 0 = rnd (f_t (fr r)).
Proof. intros Hr. rewrite (nth_map_seq (fun r => rnd (f_t (fr r)))) by exact Hr. reflexivity. Qed.
Lemma plot_adaptive (g : h5 (arr R) R) : m = 0%nat -> c_adaptive c = true -> incl (e_plots e) (c_props c) -> rnd 0 = 0 ->
  file_frames rnd dsf ys xs (map fr (seq 0 N)) g ->
  (forall q, In q (c_props c) -> holds g q (map (val q) (seq 0 N)) /\ holds g ("fullres_" ++ q) (map (full q) (seq 0 N))) ->
  attrs g = save_params_of c (c_phys c) (c_adaptive c) ->
  exists pt w, plot2_of e latex (Some g) = Ok pt /\ nearest (map (fun r => rnd (f_t (fr r))) (seq 0 N)) (e_t0_std e) w /\
    plot_ok pt (fun r => rnd (f_t (fr r))) w.
Proof.
  intros Em Ha Hin R0 FF FP At. pose proof (adaptive2 g At Ha) as F. assert (E0 : INR m * dt = 0) by (rewrite Em; cbn; ring).
  pose proof frame_time2 as FT. rewrite E0 in F, FT. pose proof (frame_times2 g FF) as Ht.
  assert (PN : (0 < N)%nat) by (unfold N, rows_of; rewrite Em; lia). pose proof dt2_pos as Pd.
  set (ft := fun r => rnd (f_t (fr r))) in *. set (times := map ft (seq 0 N)) in *.
  assert (Lt : length times = N) by (unfold times; now rewrite map_length, seq_length).
  assert (Nt : times <> []) by (intros X; assert (length times = 0%nat) by (now rewrite X); lia).
  destruct (argmin_spec times (e_t0_std e) Nt) as (s & _ & Ns). assert (Ls : (s < N)%nat) by (destruct Ns; lia).
  assert (Z0 : nth 0 times 0 = 0).
  { unfold times, ft. rewrite times_nth by exact PN. rewrite FT. unfold row_time. cbn [INR]. now replace (0 + 0 * dt) with 0 by ring. }
  assert (N0 : nearest times 0 0).
  { split; [lia|]. split; [|intros j Hj; lia]. intros j _. rewrite Z0, Rminus_0_r, Rabs_R0. apply Rabs_pos. }
  destruct (nil_or (e_plots e)) as [Ep|Ne]; [exists None, s; split; [now apply plot2_nil|]; split; [exact Ns|exact Ep]|].
  rewrite plot2_cons by exact Ne.
  assert (Ew : stat_row N s 0 = s) by (unfold stat_row; destruct (Nat.ltb_spec N s); lia).
  rewrite (comparison_eq g latex "fullres_" (e_plots e) (fun q => map (val q) (seq 0 N)) 0 (e_t0_std e) 100 100000 0 s N (last times 0)
    (fun q => curve_of (latex q ++ " ") ft (val q) N s) (fun q => curve_of ("Full " ++ latex q ++ " ") ft (full q) N s)).
  - assert (Li : later_is_int g 0 = true).
    { unfold later_is_int. rewrite (ad_in _ _ _ F). destruct (Rltb 0 0) eqn:X; [apply Rltb_true in X; lra|reflexivity]. }
    rewrite Li, ticks_int by lra. cbn [bind]. eexists _, s. split; [reflexivity|]. split; [exact Ns|]. unfold plot_ok. rewrite y_cut. repeat split. exact Ne.
  - rewrite (adap_initial _ _ _ F). replace (Rmax 0 0) with 0 by (rewrite Rmax_left; lra). exact (start_adaptive g dt 0 times 0 0%nat F Ht N0).
  - rewrite (adap_initial _ _ _ F), Rminus_0_r. exact (start_adaptive g dt 0 times _ s F Ht Ns).
  - unfold end_time. rewrite (adap_adaptive _ _ _ F), (nums_holds _ _ _ Ht). cbn [bind]. destruct times; [contradiction|reflexivity].
  - exact Ne.
  - exact PN.
  - intros q Hq. destruct (FP q (Hin q Hq)) as [H1 H2]. split; [exact H1|]. split; [now rewrite map_length, seq_length|].
    rewrite Ew. split; [|split].
    + rewrite (trace_adaptive g dt 0) with (data := map (val q) (seq 0 N)) (times := times); try assumption; [reflexivity| |lia].
      now rewrite Lt, map_length, seq_length.
    + exact (holds_has _ _ _ H2).
    + rewrite (trace_adaptive g dt 0) with (data := map (full q) (seq 0 N)) (times := times); try assumption; [reflexivity| |lia].
      now rewrite Lt, map_length, seq_length.
Qed.

Lemma dispatch2 (g : h5 (arr R) R) fps speed : attrs g = save_params_of c (c_phys c) (c_adaptive c) ->
  create_movie g 0 None fps speed = if c_adaptive c then create_movie_unequal_spaced_fine g 0 None (IZR fps) speed else create_movie_equally_spaced g 0 None fps speed.
Proof.
  intros E. unfold create_movie, dlook. rewrite E. rewrite (de_ad _ _ _ (@saved_describe _ _ TimeR c (c_adaptive c))). reflexivity.
Qed.
Lemma movie_start (g : h5 (arr R) R) : m = 0%nat -> c_adaptive c = false -> (0 < e_fps e)%Z ->
  file_frames rnd dsf ys xs (map fr (seq 0 N)) g -> attrs g = save_params_of c (c_phys c) (c_adaptive c) ->
  exists mv, movie_of e (Some g) = Ok mv /\ movie_ok g mv (fun r => f_t (fr r)).
Proof.
  intros Em Ha Hf FF At. unfold movie_of, movie_ok. destruct (e_movie e); [|exists None; split; reflexivity].
  rewrite (dispatch2 g _ _ At), Ha. pose proof (fixed2 g At Ha) as F. assert (E0 : INR m * dt = 0) by (rewrite Em; cbn; ring). rewrite E0 in F.
  assert (PN : (0 < N)%nat) by (unfold N, rows_of; rewrite Em; lia).
  destruct (movie_from_start g dt N (e_fps e) (e_speed e) F (titled2 g At) (frame_rows2 g FF) PN Hf) as (s & fps & shown & Ps & E & Es & Hs).
  rewrite E. cbn [bind]. exists (Some (fps, shown)). split; [reflexivity|]. split; [reflexivity|]. split.
  - intros H. assert (Hi : In 0%nat (map fst shown)) by (apply Hs; split; [exact PN|apply Nat.mod_0_l; lia]). rewrite H in Hi. destruct Hi.
  - intros r t Hin. assert (Hr : (r < N)%nat) by (apply (Hs r), in_map_iff; exists (r, t); auto).
    split; [exact Hr|]. split; [|now apply frame_shows2]. rewrite frame_time2, E0. rewrite Es in Hin. apply in_map_iff in Hin.
    destruct Hin as (i & Ei & _). now injection Ei as <- <-.
Qed.
Lemma movie_adaptive (g : h5 (arr R) R) : (0 < N)%nat -> c_adaptive c = true -> (0 < e_fps e)%Z -> 0 < e_speed e -> monotone rnd -> rnd 0 = 0 ->
  file_frames rnd dsf ys xs (map fr (seq 0 N)) g -> attrs g = save_params_of c (c_phys c) (c_adaptive c) ->
  exists mv, movie_of e (Some g) = Ok mv /\ movie_ok g mv (fun r => rnd (f_t (fr r))).
Proof.
  intros PN Ha Hf Hsp Mo R0 FF At. unfold movie_of, movie_ok. destruct (e_movie e); [|exists None; split; reflexivity].
  rewrite (dispatch2 g _ _ At), Ha. pose proof (frame_times2 g FF) as Ht. pose proof dt2_pos as Pd.
  set (ft := fun r => rnd (f_t (fr r))) in *. set (times := map ft (seq 0 N)) in *.
  assert (Lt : length times = N) by (unfold times; now rewrite map_length, seq_length).
  assert (Nt : times <> []) by (intros X; assert (length times = 0%nat) by (now rewrite X); lia).
  assert (Nth : forall r, (r < N)%nat -> nth r times 0 = ft r) by (intros r Hr; now apply times_nth).
  destruct (movie_unequal g times 0 (IZR (e_fps e)) (e_speed e) (titled2 g At) Ht) as (rows & E & L & Hs).
  - intros i j [H1 H2]. rewrite Lt in H2. rewrite !Nth by lia. apply Mo. rewrite !frame_time2. unfold row_time.
    apply le_INR in H1. nra.
  - exact Nt.
  - rewrite Nth by exact PN. unfold ft. rewrite <- R0. apply Mo. rewrite frame_time2. unfold row_time. cbn [INR]. pose proof (pos_INR m). nra.
  - rewrite Lt. now apply frame_rows2.
  - now apply IZR_lt.
  - exact Hsp.
  - rewrite E. cbn [bind]. eexists. split; [reflexivity|]. split; [reflexivity|]. split.
    + intros X. apply (f_equal (@length _)) in X. rewrite map_length, L in X. discriminate.
    + intros r t Hin. apply in_map_iff in Hin. destruct Hin as (r' & Er & Hr'). injection Er as <- <-.
      destruct (In_nth _ _ 0%nat Hr') as (j & Hj & Ej). specialize (Hs j Hj). cbv zeta in Hs. rewrite Ej, Lt in Hs. destruct Hs as [Hr _].
      split; [exact Hr|]. split; [now apply Nth|]. now apply frame_shows2.
Qed.

Lemma end2_from_start s : m = 0%nat -> c_adaptive c = false -> (0 < e_fps e)%Z -> incl (e_plots e) (c_props c) ->
  INR s * dt <= e_t0_std e < (INR s + 1) * dt ->
  exists g mv pt, disk_of A fs = Some g /\ disk_of (run2 S c fuel pl0) fs = Some g /\ result_of A fs = Ok (mv, pt) /\
    movie_ok g mv (fun r => f_t (fr r)) /\ plot_ok pt (fun r => f_t (fr r)) (stat_row N s 0).
Proof.
  intros Em Ha Hf Hin Bs. destruct file2 as (g & R0 & D0 & FF & FP & At).
  destruct (movie_start g Em Ha Hf FF At) as (mv & Emv & Hmv). destruct (plot_start g s Em Ha Hin FF FP At Bs) as (pt & Ept & Hpt).
  pose proof (order2 S c e latex fuel pl0 fs g hw_starts2 kp_density kp_time R0 D0) as H. cbv zeta in H. rewrite Emv, Ept in H. cbn [bind] in H.
  destruct H as [H1 H2]. exists g, mv, pt. repeat (split; [assumption|]). exact Hpt.
Qed.
Lemma end2_adaptive : m = 0%nat -> c_adaptive c = true -> (0 < e_fps e)%Z -> 0 < e_speed e -> monotone rnd -> rnd 0 = 0 -> incl (e_plots e) (c_props c) ->
  exists g mv pt w, disk_of A fs = Some g /\ disk_of (run2 S c fuel pl0) fs = Some g /\ result_of A fs = Ok (mv, pt) /\
    movie_ok g mv (fun r => rnd (f_t (fr r))) /\ nearest (map (fun r => rnd (f_t (fr r))) (seq 0 N)) (e_t0_std e) w /\ plot_ok pt (fun r => rnd (f_t (fr r))) w.
Proof.
  intros Em Ha Hf Hsp Mo Z0 Hin. destruct file2 as (g & R0 & D0 & FF & FP & At).
  assert (PN : (0 < N)%nat) by (unfold N, rows_of; rewrite Em; lia).
  destruct (movie_adaptive g PN Ha Hf Hsp Mo Z0 FF At) as (mv & Emv & Hmv). destruct (plot_adaptive g Em Ha Hin Z0 FF FP At) as (pt & w & Ept & Hw & Hpt).
  pose proof (order2 S c e latex fuel pl0 fs g hw_starts2 kp_density kp_time R0 D0) as H. cbv zeta in H. rewrite Emv, Ept in H. cbn [bind] in H.
  destruct H as [H1 H2]. exists g, mv, pt, w. repeat (split; [assumption|]). exact Hpt.
Qed.

(** recorded from a later time: no plot *)
Lemma plot_late (g : h5 (arr R) R) : (0 < m < N)%nat -> c_adaptive c = false -> e_plots e <> [] -> incl (e_plots e) (c_props c) ->
  INR m * dt <= e_t0_std e -> INR N * dt < 1500 ->
  file_frames rnd dsf ys xs (map fr (seq 0 N)) g ->
  (forall q, In q (c_props c) -> holds g q (map (val q) (seq 0 N)) /\ holds g ("fullres_" ++ q) (map (full q) (seq 0 N))) ->
  attrs g = save_params_of c (c_phys c) (c_adaptive c) -> plot2_of e latex (Some g) = Exn TypeError.
Proof.
  intros Hm Ha Ne Hin Hstd H15 FF FP At. pose proof (fixed2 g At Ha) as F. pose proof dt2_pos as Pd.
  assert (Pm : 0 < INR m) by (apply lt_0_INR; lia). assert (Pin : 0 < INR m * dt) by nra.
  destruct (floor_row (e_t0_std e - INR m * dt) dt ltac:(lra) Pd) as (s & Bs).
  rewrite plot2_cons by exact Ne.
  erewrite (comparison_eq g latex "fullres_" (e_plots e) (fun q => map (val q) (seq 0 N)) 0 (e_t0_std e) 100 100000 m s N (INR N * dt)).
  - assert (Li : later_is_int g 0 = false).
    { unfold later_is_int. rewrite (fx_in _ _ _ F). apply Rltb_true in Pin. now rewrite Pin. }
    rewrite Li, ticks_float by lra. reflexivity.
  - rewrite (fixed_initial _ _ _ F), Rmax_right by lra. apply (start_fixed g dt _ _ m F). lra.
  - rewrite (fixed_initial _ _ _ F). now apply (start_fixed g dt _ _ s F).
  - unfold end_time. rewrite (fixed_adaptive _ _ _ F), (rows_len_has _ _ _ (frame_rows2 g FF)). cbn [bind]. rewrite (fixed_attr _ _ _ F). reflexivity.
  - exact Ne.
  - lia.
  - intros q Hq. destruct (FP q (Hin q Hq)) as [H1 H2]. split; [exact H1|]. split; [now rewrite map_length, seq_length|].
    split; [|split].
    + rewrite (trace_fixed g dt _) with (data := map (val q) (seq 0 N)) (1 := F); try assumption; rewrite ?map_length, ?seq_length; [|lia]. reflexivity.
    + exact (holds_has _ _ _ H2).
    + rewrite (trace_fixed g dt _) with (data := map (full q) (seq 0 N)) (1 := F); try assumption; rewrite ?map_length, ?seq_length; [|lia]. reflexivity.
Qed.
Lemma movie_late (g : h5 (arr R) R) : (0 < m <= N)%nat -> c_adaptive c = false -> (0 < e_fps e)%Z ->
  file_frames rnd dsf ys xs (map fr (seq 0 N)) g -> attrs g = save_params_of c (c_phys c) (c_adaptive c) -> exists mv, movie_of e (Some g) = Ok mv.
Proof.
  intros Hm Ha Hf FF At. unfold movie_of. destruct (e_movie e); [|eexists; reflexivity].
  rewrite (dispatch2 g _ _ At), Ha. pose proof (fixed2 g At Ha) as F.
  pose proof (movie_equal g dt (INR m * dt) m N (e_fps e) (e_speed e) F eq_refl (titled2 g At) (frame_rows2 g FF) ltac:(lia) ltac:(lia) Hf) as E. cbn zeta in E.
  rewrite E. eexists. reflexivity.
Qed.
Lemma end2_late : (0 < m < N)%nat -> c_adaptive c = false -> (0 < e_fps e)%Z -> e_plots e <> [] -> incl (e_plots e) (c_props c) ->
  c_rec c <= e_t0_std e -> INR N * dt < 1500 ->
  result_of (run2 S c fuel pl0) fs = Ok tt /\ result_of A fs = Exn TypeError /\ disk_of A fs = disk_of (run2 S c fuel pl0) fs.
Proof.
  intros Hm Ha Hf Ne Hin Hstd H15. destruct file2 as (g & R0 & D0 & FF & FP & At).
  destruct (movie_late g ltac:(lia) Ha Hf FF At) as (mv & Emv).
  rewrite Hrec in Hstd. fold dt in Hstd. pose proof (plot_late g Hm Ha Ne Hin Hstd H15 FF FP At) as Ept.
  pose proof (order2 S c e latex fuel pl0 fs g hw_starts2 kp_density kp_time R0 D0) as H. cbv zeta in H. rewrite Emv, Ept in H. cbn [bind] in H.
  destruct H as [H1 H2]. split; [exact R0|]. split; [exact H2|]. now rewrite D0.
Qed.
Lemma plot_late_adaptive (g : h5 (arr R) R) : (0 < m)%nat -> (0 < N)%nat -> c_adaptive c = true -> e_plots e <> [] -> incl (e_plots e) (c_props c) ->
  rnd (f_t (fr (N - 1))) < 1500 ->
  file_frames rnd dsf ys xs (map fr (seq 0 N)) g ->
  (forall q, In q (c_props c) -> holds g q (map (val q) (seq 0 N)) /\ holds g ("fullres_" ++ q) (map (full q) (seq 0 N))) ->
  attrs g = save_params_of c (c_phys c) (c_adaptive c) -> plot2_of e latex (Some g) = Exn TypeError.
Proof.
  intros Hm PN Ha Ne Hin H15 FF FP At. pose proof (adaptive2 g At Ha) as F. pose proof dt2_pos as Pd.
  assert (Pm : 0 < INR m) by (apply lt_0_INR; lia). assert (Pin : 0 < INR m * dt) by nra. pose proof (frame_times2 g FF) as Ht.
  set (ft := fun r => rnd (f_t (fr r))) in *. set (times := map ft (seq 0 N)) in *.
  assert (Lt : length times = N) by (unfold times; now rewrite map_length, seq_length).
  assert (Nt : times <> []) by (intros X; assert (length times = 0%nat) by (now rewrite X); lia).
  destruct (argmin_spec times (e_t0_std e - INR m * dt) Nt) as (s & _ & Ns). destruct (argmin_spec times (INR m * dt) Nt) as (i & _ & Ni).
  assert (Li : (i < N)%nat) by (destruct Ni; lia).
  rewrite plot2_cons by exact Ne.
  erewrite (comparison_eq g latex "fullres_" (e_plots e) (fun q => map (val q) (seq 0 N)) 0 (e_t0_std e) 100 100000 i s N (last times 0)).
  - assert (Lf : later_is_int g 0 = false).
    { unfold later_is_int. rewrite (ad_in _ _ _ F). apply Rltb_true in Pin. now rewrite Pin. }
    rewrite Lf, ticks_float; [reflexivity|lra|]. rewrite last_nth by exact Nt. rewrite Lt. unfold times, ft. rewrite times_nth by lia. lra.
  - rewrite (adap_initial _ _ _ F), Rmax_right by lra. exact (start_adaptive g dt _ times _ i F Ht Ni).
  - rewrite (adap_initial _ _ _ F). exact (start_adaptive g dt _ times _ s F Ht Ns).
  - unfold end_time. rewrite (adap_adaptive _ _ _ F), (nums_holds _ _ _ Ht). cbn [bind]. destruct times; [contradiction|reflexivity].
  - exact Ne.
  - exact Li.
  - intros q Hq. destruct (FP q (Hin q Hq)) as [H1 H2]. split; [exact H1|]. split; [now rewrite map_length, seq_length|].
    split; [|split].
    + apply (trace_adaptive g dt _ _ q (map (val q) (seq 0 N)) times _ _ _ F Ht H1); [now rewrite Lt, map_length, seq_length|lia].
    + exact (holds_has _ _ _ H2).
    + apply (trace_adaptive g dt _ _ _ (map (full q) (seq 0 N)) times _ _ _ F Ht H2); [now rewrite Lt, map_length, seq_length|lia].
Qed.
Lemma end2_late_adaptive : (0 < m)%nat -> (0 < N)%nat -> c_adaptive c = true -> (0 < e_fps e)%Z -> 0 < e_speed e -> monotone rnd -> rnd 0 = 0 ->
  e_plots e <> [] -> incl (e_plots e) (c_props c) -> rnd (f_t (fr (N - 1))) < 1500 ->
  result_of (run2 S c fuel pl0) fs = Ok tt /\ result_of A fs = Exn TypeError /\ disk_of A fs = disk_of (run2 S c fuel pl0) fs.
Proof.
  intros Hm PN Ha Hf Hsp Mo Z0 Ne Hin H15. destruct file2 as (g & R0 & D0 & FF & FP & At).
  destruct (movie_adaptive g PN Ha Hf Hsp Mo Z0 FF At) as (mv & Emv & _).
  pose proof (plot_late_adaptive g Hm PN Ha Ne Hin H15 FF FP At) as Ept.
  pose proof (order2 S c e latex fuel pl0 fs g hw_starts2 kp_density kp_time R0 D0) as H. cbv zeta in H. rewrite Emv, Ept in H. cbn [bind] in H.
  destruct H as [H1 H2]. split; [exact R0|]. split; [exact H2|]. now rewrite D0.
Qed.
(** fewer rows than were skipped: nothing is drawn *)
Lemma end2_short : (N <= m)%nat -> c_adaptive c = false -> e_movie e = false -> e_plots e <> [] -> incl (e_plots e) (c_props c) ->
  result_of (run2 S c fuel pl0) fs = Ok tt /\ result_of A fs = Ok (None, Some None) /\ disk_of A fs = disk_of (run2 S c fuel pl0) fs.
Proof.
  intros Hm Ha Hmv Ne Hin. destruct file2 as (g & R0 & D0 & FF & FP & At). pose proof (fixed2 g At Ha) as F. pose proof dt2_pos as Pd.
  assert (Pm : 0 <= INR m) by apply pos_INR. assert (Pin : 0 <= INR m * dt) by nra.
  assert (Ept : plot2_of e latex (Some g) = Ok (Some None)).
  { rewrite plot2_cons by exact Ne. unfold plot_timetrace_comparison. rewrite (fixed_initial _ _ _ F), Rmax_right by lra.
    rewrite (start_fixed g dt _ _ m F) by lra. cbn [bind]. unfold end_time.
    rewrite (fixed_adaptive _ _ _ F), (rows_len_has _ _ _ (frame_rows2 g FF)). cbn [bind]. rewrite (fixed_attr _ _ _ F). cbn [bind].
    assert (Q : exists q, In q (e_plots e)) by (destruct (e_plots e) as [|q l]; [contradiction|exists q; now left]). destruct Q as [q Hq].
    rewrite (longest_short g m (fun q => map (val q) (seq 0 N)) (e_plots e) 0 q); [reflexivity| |exact Hq|].
    - intros r Hr. apply (FP r (Hin r Hr)).
    - now rewrite map_length, seq_length. }
  pose proof (order2 S c e latex fuel pl0 fs g hw_starts2 kp_density kp_time R0 D0) as H. cbv zeta in H.
  unfold movie_of in H. rewrite Hmv, Ept in H. cbn [bind] in H.
  destruct H as [H1 H2]. split; [exact R0|]. split; [exact H2|]. now rewrite D0.
Qed.
End HW.
