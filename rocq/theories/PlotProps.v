(** Time traces, images, colour limits. *)
From Coq Require Import Arith ZArith Bool Reals Lra Lia String List.
Import List.
From Verif Require Import Num NdArray ModelIO ModelRun ModelRunHW ModelPlot SpecPlot PlotFacts SpecDownsample.
Import ListNotations.
Local Open Scope string_scope.
Local Open Scope R_scope.
#[local] Existing Instance TimeR.

Section File.
Context {V : Type}.
Implicit Types f : h5 V R.

Lemma from_nat {X} (l : list X) i : from_ l (Z.of_nat i) = skipn i l.
Proof. unfold from_. destruct (Z.ltb_spec (Z.of_nat i) 0); [lia|]. now rewrite Nat2Z.id. Qed.
Lemma start_fixed f dt t_in t i : fixed_step f dt t_in -> INR i * dt <= t < (INR i + 1) * dt -> start_index f t = Ok (Z.of_nat i).
Proof.
  intros F B. unfold start_index. rewrite (fixed_adaptive _ _ _ F), (fixed_attr _ _ _ F). cbn [bind].
  apply floordiv_eq; [exact (fx_pos _ _ _ F)|]. now rewrite <- INR_IZR_INZ.
Qed.
Lemma longest_eq f i (data : string -> list R) props m : (forall p, In p props -> holds f p (data p) /\ (i < List.length (data p))%nat) ->
  longest f (Z.of_nat i) props m = Ok (Some (Nat.max m (list_max (map (fun p => List.length (data p)) props)))).
Proof.
  revert m. induction props as [|p l IH]; intros m H.
  - cbn. now rewrite Nat.max_0_r.
  - cbn [longest]. destruct (H p (or_introl eq_refl)) as [Hp Lp]. rewrite (rows_len_holds _ _ _ Hp). cbn [bind].
    destruct (Z.leb_spec (Z.of_nat (List.length (data p))) (Z.of_nat i)); [lia|].
    rewrite IH by (intros q Hq; apply H; now right). unfold list_max. cbn [map fold_right]. do 2 f_equal. apply eq_sym, Nat.max_assoc.
Qed.
Lemma longest_short f i (data : string -> list R) props m p : (forall p, In p props -> holds f p (data p)) -> In p props ->
  (List.length (data p) <= i)%nat -> longest f (Z.of_nat i) props m = Ok None.
Proof.
  revert m. induction props as [|q l IH]; intros m H Hp Sh; [destruct Hp|]. cbn [longest].
  rewrite (rows_len_holds _ _ _ (H q (or_introl eq_refl))). cbn [bind].
  destruct (Z.leb_spec (Z.of_nat (List.length (data q))) (Z.of_nat i)); [reflexivity|].
  destruct Hp as [->|Hp]; [lia|]. apply IH; [|exact Hp|exact Sh]. intros r Hr. apply H. now right.
Qed.
Lemma trace_fixed f dt t_in label p data t0 i s : fixed_step f dt t_in -> holds f p data -> (i < List.length data)%nat ->
  trace_curve f label p t0 (Z.of_nat i) (Z.of_nat s)
  = Ok (Some (mkCurve label (map (fun k => t0 + INR k * dt) (seq 0 (List.length data - i))) (skipn i data) (skipn s data))).
Proof.
  intros F H L. unfold trace_curve. rewrite (nums_holds _ _ _ H). cbn [bind]. rewrite !from_nat.
  assert (Ls : List.length (skipn i data) = (List.length data - i)%nat) by apply skipn_length.
  destruct (skipn i data) as [|a tl] eqn:E; [cbn in Ls; lia|]. rewrite <- E in *.
  unfold trace_x. rewrite (fixed_adaptive _ _ _ F), (fixed_attr _ _ _ F). cbn [bind].
  rewrite arange_eq by (pose proof (fx_pos _ _ _ F); lra). cbn [bind]. rewrite Ls, firstn_all2; [reflexivity|]. rewrite map_length, seq_length. lia.
Qed.
Lemma traces_loop_eq f latex props t0 i s mx acc (C : string -> curve) :
  (forall p, In p props -> trace_curve f "<class 'property'> " p t0 i s = Ok (Some (C p)) /\ cv_y (C p) <> []) ->
  exists m, traces_loop f latex props t0 i s mx acc = Ok ((acc ++ map C props)%list, m) /\
    forall c, c < m <-> c < mx \/ exists p, In p props /\ forall y, In y (cv_y (C p)) -> c < y.
Proof.
  revert mx acc. induction props as [|p l IH]; intros mx acc H.
  - exists mx. split; [cbn; now rewrite app_nil_r|]. intros c. split; [now left|]. intros [A|(p & [] & _)]. exact A.
  - cbn [traces_loop]. destruct (H p (or_introl eq_refl)) as [E N]. rewrite E. cbn [bind].
    destruct (np_min_ok _ N) as (m & Em & [L1 L2]). rewrite Em. cbn [bind].
    destruct (IH (Rmax mx m) (acc ++ [C p])%list) as (m' & E' & I); [intros q Hq; apply H; now right|].
    exists m'. split; [rewrite E', <- app_assoc; reflexivity|]. intros c. rewrite I. split.
    + intros [A|(q & Hq & A)].
      * destruct (Rle_lt_dec m mx).
        -- rewrite Rmax_left in A by lra. now left.
        -- rewrite Rmax_right in A by lra. right. exists p. split; [now left|]. intros y Hy. specialize (L2 y Hy). lra.
      * right. exists q. split; [now right|exact A].
    + pose proof (Rmax_l mx m). pose proof (Rmax_r mx m). intros [A|(q & [<-|Hq] & A)].
      * left. lra.
      * left. specialize (A m L1). lra.
      * right. exists q. split; assumption.
Qed.


Theorem traces_fixed f dt t_in latex props (data : string -> list R) t0 t0_std y_cutoff i s :
  fixed_step f dt t_in -> INR i * dt <= t0 < (INR i + 1) * dt -> INR s * dt <= t0_std - t_in < (INR s + 1) * dt ->
  props <> [] -> (forall p, In p props -> holds f p (data p) /\ (i < List.length (data p))%nat) ->
  exists cut, plot_timetraces f latex props t0 t0_std y_cutoff
    = Ok (Figure (map (fun p => mkCurve "<class 'property'> " (map (fun k => t0 + INR k * dt) (seq 0 (List.length (data p) - i))) (skipn i (data p))
                   (skipn (stat_row (list_max (map (fun p => List.length (data p)) props)) s i) (data p))) props) cut) /\
    (cut = true <-> y_cutoff < 0 \/ exists p, In p props /\ forall y, In y (skipn i (data p)) -> y_cutoff < y).
Proof.
  intros F Bi Bs Ne H. unfold plot_timetraces. rewrite (start_fixed _ _ _ _ _ F Bi). cbn [bind]. rewrite (longest_eq f i data props 0 H). cbn [bind].
  rewrite Nat.max_0_l. set (L := list_max (map (fun p => List.length (data p)) props)).
  assert (PL : (i < L)%nat).
  { destruct props as [|p l]; [contradiction|]. destruct (H p (or_introl eq_refl)) as [_ A]. unfold L. cbn. lia. }
  destruct (Z.ltb_spec (Z.of_nat L) (Z.of_nat i)); [lia|]. rewrite (fixed_initial _ _ _ F).
  rewrite (start_fixed _ _ _ _ _ F Bs). cbn [bind].
  replace (if (Z.of_nat L <? Z.of_nat s)%Z then Z.of_nat i else Z.of_nat s) with (Z.of_nat (stat_row L s i)).
  2:{ unfold stat_row. destruct (Nat.ltb_spec L s), (Z.ltb_spec (Z.of_nat L) (Z.of_nat s)); lia || reflexivity. }
  set (w := stat_row L s i).
  destruct (traces_loop_eq f latex props t0 (Z.of_nat i) (Z.of_nat w) 0 [] (fun p => mkCurve "<class 'property'> "
     (map (fun k => t0 + INR k * dt) (seq 0 (List.length (data p) - i))) (skipn i (data p)) (skipn w (data p)))) as (m & E & I).
  { intros p Hp. destruct (H p Hp) as [A B]. split; [now apply trace_fixed with (t_in := t_in)|]. cbn. intros Z.
    apply (f_equal (@List.length R)) in Z. rewrite skipn_length in Z. cbn in Z. lia. }
  rewrite E. cbn [bind fst snd app]. eexists. split; [reflexivity|]. rewrite Rltb_true. apply I.
Qed.
(** too short a property: nothing is drawn *)
Theorem traces_short f dt t_in latex props (data : string -> list R) t0 t0_std y_cutoff i p :
  fixed_step f dt t_in -> INR i * dt <= t0 < (INR i + 1) * dt -> (forall p, In p props -> holds f p (data p)) ->
  In p props -> (List.length (data p) <= i)%nat -> plot_timetraces f latex props t0 t0_std y_cutoff = Ok Skipped.
Proof.
  intros F Bi H Hp Sh. unfold plot_timetraces. rewrite (start_fixed _ _ _ _ _ F Bi). cbn [bind].
  rewrite (longest_short f i data props 0 p H Hp Sh). reflexivity.
Qed.

(** *** adaptive files *)
Lemma argmin_from_spec best bi i l d : (forall k, (k < List.length l)%nat -> nth k l 0 = d (i + k)%nat) -> (bi < i)%nat -> best = d bi ->
  (forall j, (j < i)%nat -> best <= d j) -> (forall j, (j < bi)%nat -> best < d j) ->
  let r := argmin_from best bi i l in
  (r < i + List.length l)%nat /\ (forall j, (j < i + List.length l)%nat -> d r <= d j) /\ (forall j, (j < r)%nat -> d r < d j).
Proof.
  revert best bi i. induction l as [|x l IH]; intros best bi i Hl Hb Eb Mb Fb.
  - cbn. rewrite Nat.add_0_r. subst best. split; [lia|]. split; assumption.
  - cbn [argmin_from List.length]. pose proof (Hl 0%nat ltac:(cbn; lia)) as Hx. cbn in Hx. rewrite Nat.add_0_r in Hx.
    replace (i + S (List.length l))%nat with (S i + List.length l)%nat by lia.
    assert (Hl' : forall k, (k < List.length l)%nat -> nth k l 0 = d (S i + k)%nat).
    { intros k Hk. specialize (Hl (S k) ltac:(cbn; lia)). cbn in Hl. rewrite Hl. f_equal. lia. }
    destruct (Rltb x best) eqn:E.
    + apply Rltb_true in E. apply IH; [exact Hl'|lia|exact Hx| |].
      * intros j Hj. destruct (Nat.eq_dec j i) as [->|]; [lra|]. specialize (Mb j ltac:(lia)). lra.
      * intros j Hj. specialize (Mb j Hj). lra.
    + apply Rltb_false in E. apply IH; [exact Hl'|lia|exact Eb| |exact Fb].
      intros j Hj. destruct (Nat.eq_dec j i) as [->|]; [lra|]. apply Mb. lia.
Qed.
Lemma argmin_spec times t : times <> [] -> exists i, argmin_dist times t = Ok i /\ nearest times t i.
Proof.
  destruct times as [|x l]; [contradiction|]. intros _. unfold argmin_dist. cbn [map]. eexists. split; [reflexivity|].
  unfold nearest. cbn [List.length].
  pose proof (argmin_from_spec (Rabs (x - t)) 0 1 (map (fun x => Rabs (x - t)) l) (fun k => Rabs (nth k (x :: l) 0 - t))) as H.
  cbv zeta in H. rewrite map_length in H. apply H.
  - intros k Hk. rewrite (nth_indep _ 0 (Rabs (0 - t))) by (rewrite map_length; exact Hk). rewrite (map_nth (fun x => Rabs (x - t))). reflexivity.
  - lia.
  - reflexivity.
  - intros j Hj. assert (j = 0)%nat as -> by lia. apply Rle_refl.
  - intros; lia.
Qed.
Lemma nearest_unique times t i j : nearest times t i -> nearest times t j -> i = j.
Proof.
  intros (A & B & C) (A' & B' & C'). destruct (lt_eq_lt_dec i j) as [[H|H]|H]; [|exact H|].
  - specialize (C' i H). specialize (B j A'). lra.
  - specialize (C j H). specialize (B' i A). lra.
Qed.
Lemma start_adaptive f dt t_in times t i : adaptive_step f dt t_in -> holds f "time" times -> nearest times t i -> start_index f t = Ok (Z.of_nat i).
Proof.
  intros F H N. unfold start_index. rewrite (adap_adaptive _ _ _ F), (nums_holds _ _ _ H). cbn [bind].
  destruct (argmin_spec times t) as (j & -> & N'); [destruct N as [N _]; destruct times; [cbn in N; lia|discriminate]|].
  cbn [bind]. now rewrite (nearest_unique _ _ _ _ N N').
Qed.
Theorem traces_adaptive f dt t_in latex props (data : string -> list R) times t0 t0_std y_cutoff i s :
  adaptive_step f dt t_in -> holds f "time" times -> nearest times t0 i -> nearest times (t0_std - t_in) s ->
  props <> [] -> (forall p, In p props -> holds f p (data p) /\ List.length (data p) = List.length times) ->
  exists cut, plot_timetraces f latex props t0 t0_std y_cutoff
    = Ok (Figure (map (fun p => mkCurve "<class 'property'> " (skipn i times) (skipn i (data p)) (skipn s (data p))) props) cut).
Proof.
  intros F Ht Ni Ns Ne H. unfold plot_timetraces. rewrite (start_adaptive _ _ _ _ _ _ F Ht Ni). cbn [bind].
  rewrite (longest_eq f i data props 0). 2:{ intros p Hp. destruct (H p Hp) as [A B]. split; [exact A|]. rewrite B. apply Ni. }
  cbn [bind]. rewrite Nat.max_0_l.
  assert (EL : list_max (map (fun p => List.length (data p)) props) = List.length times).
  { clear - H Ne. revert Ne H. induction props as [|p l IH]; intros Ne H; [contradiction|]. cbn [map list_max fold_right].
    destruct (H p (or_introl eq_refl)) as [_ ->]. destruct l as [|q l]; [cbn; lia|].
    change (fold_right Nat.max 0%nat (map (fun p => List.length (data p)) (q :: l))) with (list_max (map (fun p => List.length (data p)) (q :: l))).
    rewrite IH; [lia|discriminate|]. intros r Hr. apply H. now right. }
  rewrite EL. destruct (Z.ltb_spec (Z.of_nat (List.length times)) (Z.of_nat i)); [destruct Ni; lia|].
  rewrite (adap_initial _ _ _ F), (start_adaptive _ _ _ _ _ _ F Ht Ns). cbn [bind].
  destruct (Z.ltb_spec (Z.of_nat (List.length times)) (Z.of_nat s)); [destruct Ns; lia|].
  destruct (traces_loop_eq f latex props t0 (Z.of_nat i) (Z.of_nat s) 0 [] (fun p => mkCurve "<class 'property'> "
     (skipn i times) (skipn i (data p)) (skipn s (data p)))) as (m & E & I).
  { intros p Hp. destruct (H p Hp) as [A B]. destruct Ni as [Li _].
    assert (Ls : List.length (skipn i (data p)) = (List.length times - i)%nat) by (rewrite skipn_length; lia).
    split; [|cbn; intros Z; rewrite Z in Ls; cbn in Ls; lia].
    unfold trace_curve. rewrite (nums_holds _ _ _ A). cbn [bind]. rewrite !from_nat.
    destruct (skipn i (data p)) as [|a tl] eqn:Es; [cbn in Ls; lia|]. rewrite <- Es in *.
    unfold trace_x. rewrite (adap_adaptive _ _ _ F), (adap_attr _ _ _ F), (nums_holds _ _ _ Ht). cbn [bind]. rewrite from_nat, Ls.
    rewrite firstn_all2 by (rewrite skipn_length; lia). reflexivity. }
  rewrite E. cbn [bind fst snd app]. eexists. reflexivity.
Qed.

(** *** comparison *)
Theorem comparison_ticks f dt t_in latex prefix props (t0 : Z) t0_std xtick y_cutoff n q : fixed_step f dt t_in -> has_rows f "density" n ->
  IZR t0 < t_in -> 0 < xtick -> (q < 15)%Z -> INR n * dt < (IZR q + 1) * xtick ->
  forall r, plot_timetrace_comparison f latex prefix props t0 t0_std xtick y_cutoff <> Ok (Some r).
Proof.
  intros F Hn Lt Px Q B r0. unfold plot_timetrace_comparison.
  assert (E : later_is_int f t0 = false). { unfold later_is_int. rewrite (fx_in _ _ _ F). apply Rltb_true in Lt. now rewrite Lt. }
  rewrite E. destruct (start_index f (Rmax (IZR t0) (initial_time f))) as [i|e]; [|discriminate]. cbn [bind].
  assert (Ee : end_time f = Ok (INR n * dt)).
  { unfold end_time. rewrite (fixed_adaptive _ _ _ F), (rows_len_has _ _ _ Hn). cbn [bind]. rewrite (fixed_attr _ _ _ F). reflexivity. }
  rewrite Ee. cbn [bind]. destruct (longest f i props 0) as [[m|]|e]; [|discriminate|discriminate]. cbn [bind].
  destruct (start_index f (t0_std - initial_time f)) as [si|e]; [|discriminate]. cbn [bind].
  destruct (comparison_loop _ _ _ _ _ _ _ _ _) as [r|e]; [|discriminate]. cbn [bind].
  assert (Es : set_ticks false (INR n * dt) xtick = Exn TypeError).
  { unfold set_ticks. destruct (floordiv_ok (INR n * dt) xtick Px) as (z & -> & [L U]). cbn [bind].
    assert (z < q + 1)%Z. { apply lt_IZR. rewrite plus_IZR. apply (Rmult_lt_reg_r xtick); [exact Px|]. lra. }
    destruct (Z.ltb_spec z 15); [reflexivity|lia]. }
  rewrite Es. cbn [bind]. discriminate.
Qed.
Lemma comparison_loop_top f latex prefix props t0 i s top bottom (C : string -> curve) top' bottom' :
  (forall p, In p props -> trace_curve f (trace_label latex p) p t0 i s = Ok (Some (C p))) ->
  comparison_loop f latex prefix props t0 i s top bottom = Ok (top', bottom') -> top' = (top ++ map C props)%list.
Proof.
  revert top bottom. induction props as [|p l IH]; intros top bottom H E.
  - cbn in E. injection E as <- <-. now rewrite app_nil_r.
  - cbn [comparison_loop] in E. rewrite (H p (or_introl eq_refl)) in E. cbn [bind] in E.
    destruct (if dhas (dsets f) (prefix ++ p)%string then _ else _) as [b|e] in E; [|discriminate]. cbn [bind] in E.
    apply IH in E; [|intros q Hq; apply H; now right]. rewrite E, <- app_assoc. reflexivity.
Qed.
(** what the upper panel shows, when something is shown *)
Theorem comparison_fixed f dt t_in latex prefix props (data : string -> list R) (t0 : Z) t0_std xtick y_cutoff i s top bottom cut :
  fixed_step f dt t_in -> let t := Rmax (IZR t0) t_in in
  INR i * dt <= t < (INR i + 1) * dt -> INR s * dt <= t0_std - t_in < (INR s + 1) * dt ->
  (forall p, In p props -> holds f p (data p) /\ (i < List.length (data p))%nat) ->
  plot_timetrace_comparison f latex prefix props t0 t0_std xtick y_cutoff = Ok (Some (top, bottom, cut)) ->
  top = map (fun p => mkCurve (latex p ++ " ") (map (fun k => t + INR k * dt) (seq 0 (List.length (data p) - i))) (skipn i (data p))
                   (skipn (stat_row (list_max (map (fun p => List.length (data p)) props)) s i) (data p))) props
  /\ (cut = true <-> y_cutoff < 0).
Proof.
  intros F t Bi Bs H. unfold plot_timetrace_comparison. rewrite (fixed_initial _ _ _ F). fold t. rewrite (start_fixed _ _ _ _ _ F Bi). cbn [bind].
  destruct (end_time f) as [age|e]; [|discriminate]. cbn [bind]. rewrite (longest_eq f i data props 0 H). cbn [bind].
  rewrite Nat.max_0_l. set (L := list_max (map (fun p => List.length (data p)) props)).
  rewrite (start_fixed _ _ _ _ _ F Bs). cbn [bind].
  replace (if (Z.of_nat L <? Z.of_nat s)%Z then Z.of_nat i else Z.of_nat s) with (Z.of_nat (stat_row L s i)).
  2:{ unfold stat_row. destruct (Nat.ltb_spec L s), (Z.ltb_spec (Z.of_nat L) (Z.of_nat s)); lia || reflexivity. }
  set (w := stat_row L s i). destruct (comparison_loop _ _ _ _ _ _ _ _ _) as [[t1 b1]|e] eqn:El; [|discriminate]. cbn [bind].
  destruct (set_ticks _ _ _) as [u|e]; [|discriminate]. cbn [bind fst snd]. intros E. injection E as <- <- <-. split; [|apply Rltb_true].
  eapply comparison_loop_top in El.
  - rewrite El. cbn [app]. reflexivity.
  - intros p Hp. destruct (H p Hp) as [A B]. cbn beta. rewrite (trace_fixed f dt t_in) with (data := data p); trivial.
Qed.

(** *** images *)
Theorem image_ok f dt t_in n t r : fixed_step f dt t_in -> has_rows f "density" n -> (r < n)%nat ->
  t_in + INR r * dt <= t < t_in + (INR r + 1) * dt -> image_row f t = Ok r.
Proof.
  intros F Hn Hr B. unfold image_row. rewrite (fixed_attr _ _ _ F). cbn [bind]. rewrite (fixed_initial _ _ _ F).
  rewrite (floordiv_eq _ _ (Z.of_nat r)); [|exact (fx_pos _ _ _ F)|rewrite <- INR_IZR_INZ; lra]. cbn [bind].
  rewrite (rows_len_has _ _ _ Hn). cbn [bind]. rewrite row_index_mod by lia. rewrite Z.mod_small, Nat2Z.id by lia. reflexivity.
Qed.
Theorem image_late f dt t_in n t : fixed_step f dt t_in -> has_rows f "density" n -> t_in + INR n * dt <= t -> image_row f t = Exn IndexError.
Proof.
  intros F Hn B. unfold image_row. rewrite (fixed_attr _ _ _ F). cbn [bind]. rewrite (fixed_initial _ _ _ F).
  pose proof (fx_pos _ _ _ F) as P. destruct (floordiv_ok (t - t_in) dt P) as (z & -> & [L U]). cbn [bind].
  rewrite (rows_len_has _ _ _ Hn). cbn [bind]. rewrite INR_IZR_INZ in B.
  assert (Z.of_nat n < z + 1)%Z. { apply lt_IZR. rewrite plus_IZR. apply (Rmult_lt_reg_r dt); [exact P|]. lra. }
  unfold row_index. destruct (Z.leb_spec 0 z), (Z.ltb_spec z (Z.of_nat n)); try lia. cbn [andb].
  destruct (Z.ltb_spec z 0); [lia|]. reflexivity.
Qed.
(** before the first recorded time: counted from the end *)
Theorem image_early f dt t_in n t r : fixed_step f dt t_in -> has_rows f "density" n -> (0 < r <= n)%nat ->
  t_in - INR r * dt <= t < t_in - (INR r - 1) * dt -> image_row f t = Ok (n - r)%nat.
Proof.
  intros F Hn Hr B. unfold image_row. rewrite (fixed_attr _ _ _ F). cbn [bind]. rewrite (fixed_initial _ _ _ F).
  rewrite (floordiv_eq _ _ (- Z.of_nat r)); [|exact (fx_pos _ _ _ F)|rewrite opp_IZR, <- INR_IZR_INZ; lra]. cbn [bind].
  rewrite (rows_len_has _ _ _ Hn). cbn [bind]. rewrite row_index_mod by lia. apply (f_equal Ok).
  rewrite <- (Z_mod_plus (- Z.of_nat r) 1 (Z.of_nat n)) by lia. rewrite Z.mod_small by lia. lia.
Qed.
End File.

(** *** colour limits *)
Theorem clim_ok arr lo hi : arr <> [] -> exists m, next_clim arr (lo, hi) = Ok (- m, m) /\ (forall x, In x arr -> - m <= x <= m) /\
  (forall b, (forall x, In x arr -> - b <= x <= b) -> - b <= lo <= hi -> hi <= b -> m <= b).
Proof.
  intros Ne. unfold next_clim. destruct (np_max_ok _ Ne) as (vx & -> & [X1 X2]). destruct (np_min_ok _ Ne) as (vn & -> & [N1 N2]). cbn [bind fst snd].
  eexists. split; [reflexivity|].
  assert (G : forall x, In x arr -> - Rmax (Rabs vn) vx <= x <= Rmax (Rabs vn) vx).
  { intros x Hx. specialize (X2 x Hx). specialize (N2 x Hx). pose proof (Rmax_l (Rabs vn) vx). pose proof (Rmax_r (Rabs vn) vx).
    pose proof (Rle_abs (- vn)) as A. rewrite Rabs_Ropp in A. lra. }
  unfold new_cbar_max_smooth. split.
  - intros x Hx. specialize (G x Hx). destruct (Rlt_dec _ _); lra.
  - intros b Hb Bl Bh.
    assert (Rmax (Rabs vn) vx <= b). { apply Rmax_lub; [apply Rabs_le; apply Hb; exact N1|apply Hb; exact X1]. }
    assert (Rmax (Rabs lo) hi <= b). { apply Rmax_lub; [apply Rabs_le; lra|exact Bh]. }
    destruct (Rlt_dec _ _); lra.
Qed.
Theorem clim_limit arr m p k : arr <> [] -> (forall x, In x arr -> - m <= x <= m) -> (In m arr \/ In (- m) arr) -> 0 <= m <= p ->
  clims k arr (- p, p) = Ok (- (m + (p - m) / 2 ^ k), m + (p - m) / 2 ^ k).
Proof.
  intros Ne B At Hp. induction k as [|k IH].
  - cbn. do 2 f_equal; field.
  - cbn [clims]. rewrite IH. cbn [bind]. unfold next_clim.
    destruct (np_max_ok _ Ne) as (vx & -> & [X1 X2]). destruct (np_min_ok _ Ne) as (vn & -> & [N1 N2]). cbn [bind fst snd].
    set (q := (p - m) / 2 ^ k). assert (P2 : 0 < 2 ^ k) by (apply pow_lt; lra).
    assert (Q : 0 <= q) by (apply Rmult_le_pos; [lra|]; left; now apply Rinv_0_lt_compat).
    assert (E : Rmax (Rabs vn) vx = m).
    { apply Rle_antisym.
      - apply Rmax_lub; [apply Rabs_le; apply B; exact N1|apply B; exact X1].
      - destruct At as [A|A].
        + apply Rle_trans with vx; [apply X2; exact A|apply Rmax_r].
        + apply Rle_trans with (Rabs vn); [|apply Rmax_l]. specialize (N2 _ A). pose proof (Rle_abs (- vn)) as A'. rewrite Rabs_Ropp in A'. lra. }
    assert (E' : Rmax (Rabs (- (m + q))) (m + q) = m + q). { rewrite Rabs_Ropp, (Rabs_pos_eq (m + q)) by lra. apply Rmax_left. lra. }
    rewrite E, E'. unfold new_cbar_max_smooth. assert (Eq : m + (p - m) / 2 ^ S k = m + q / 2) by (unfold q; cbn; field; lra). rewrite Eq.
    destruct (Rlt_dec m (m + q)); do 2 f_equal; lra.
Qed.
Theorem coupled_ok imgs lo hi : (forall d, In d imgs -> d <> []) -> exists lo' hi', coupled_clim imgs (lo, hi) = Ok (lo', hi') /\
  least lo' (lo :: concat imgs) /\ greatest hi' (hi :: concat imgs).
Proof.
  revert lo hi. induction imgs as [|d l IH]; intros lo hi H.
  - exists lo, hi. split; [reflexivity|]. split; (split; [left; reflexivity|]; intros x [->|[]]; apply Rle_refl).
  - cbn [coupled_clim concat]. assert (Nd : d <> []) by (apply H; now left).
    destruct (np_min_ok _ Nd) as (vn & -> & [N1 N2]). destruct (np_max_ok _ Nd) as (vx & -> & [X1 X2]). cbn [bind fst snd].
    destruct (IH (Rmin vn lo) (Rmax vx hi)) as (lo' & hi' & E & [L1 L2] & [G1 G2]); [intros e He; apply H; now right|].
    exists lo', hi'. split; [exact E|]. split; split.
    + destruct L1 as [L1|L1].
      * rewrite <- L1. unfold Rmin. destruct (Rle_dec vn lo); [right; apply in_app_iff; now left|now left].
      * right. apply in_app_iff. now right.
    + pose proof (L2 _ (or_introl eq_refl)) as A. pose proof (Rmin_l vn lo). pose proof (Rmin_r vn lo).
      intros x [->|Hx]; [lra|]. apply in_app_iff in Hx. destruct Hx as [Hx|Hx]; [specialize (N2 x Hx); lra|]. apply L2. now right.
    + destruct G1 as [G1|G1].
      * rewrite <- G1. unfold Rmax. destruct (Rle_dec vx hi); [now left|right; apply in_app_iff; now left].
      * right. apply in_app_iff. now right.
    + pose proof (G2 _ (or_introl eq_refl)) as A. pose proof (Rmax_l vx hi). pose proof (Rmax_r vx hi).
      intros x [->|Hx]; [lra|]. apply in_app_iff in Hx. destruct Hx as [Hx|Hx]; [specialize (X2 x Hx); lra|]. apply G2. now right.
Qed.
Lemma cbar_overshoot : ~ (forall nm pm, nm <= pm -> nm <= new_cbar_max nm pm <= pm).
Proof.
  intros H. specialize (H 0 (1 / 4) ltac:(lra)). unfold new_cbar_max in H. destruct (Rlt_dec 0 (1 / 4)); [|lra].
  replace (1 / 4 - 0) with ((1 / 2) * (1 / 2)) in H by lra. rewrite sqrt_square in H by lra. lra.
Qed.

(** *** playback *)
Lemma playback speed dt (min_fps : Z) : 0 < dt -> 0 <= speed -> (0 < min_fps)%Z ->
  let s := skip_of speed dt min_fps in let fps := IZR (R_trunc (speed / dt)) / INR s in
  fps * (INR s * dt) <= speed < fps * (INR s * dt) + dt /\ fps < 2 * IZR min_fps /\
  (IZR min_fps * dt <= speed -> IZR min_fps <= fps) /\ (fps = 0 <-> speed < dt).
Proof.
  intros D Sp Pf s fps. assert (P : 0 <= speed / dt) by (apply Rmult_le_pos; [exact Sp|left; now apply Rinv_0_lt_compat]).
  unfold fps. rewrite R_trunc_pos by exact P. destruct (Int_part_bounds (speed / dt)) as [L U]. set (q := Int_part (speed / dt)) in *.
  assert (E : speed = speed / dt * dt) by (field; lra).
  assert (Pq : (0 <= q)%Z). { assert (-1 < q)%Z; [|lia]. apply lt_IZR. lra. }
  assert (Es : Z.of_nat s = Z.max 1 (q / min_fps)). { unfold s, skip_of. rewrite R_trunc_pos by exact P. fold q. rewrite Z2Nat.id; lia. }
  assert (Ps : 1 <= INR s). { rewrite INR_IZR_INZ, Es. apply IZR_le. lia. }
  assert (Eq : IZR q / INR s * (INR s * dt) = IZR q * dt) by (field; lra). rewrite Eq.
  assert (Dm : (q = min_fps * (q / min_fps) + q mod min_fps)%Z) by (apply Z.div_mod; lia).
  assert (Mb : (0 <= q mod min_fps < min_fps)%Z) by (apply Z.mod_pos_bound; lia).
  assert (Dp : (0 <= q / min_fps)%Z) by (apply Z.div_pos; lia).
  repeat split.
  - rewrite E. apply Rmult_le_compat_r; lra.
  - rewrite E. replace (IZR q * dt + dt) with ((IZR q + 1) * dt) by ring. apply Rmult_lt_compat_r; lra.
  - apply (Rmult_lt_reg_r (INR s)); [lra|]. unfold Rdiv. rewrite Rmult_assoc, Rinv_l by lra. rewrite Rmult_1_r.
    rewrite INR_IZR_INZ, <- !mult_IZR. apply IZR_lt. rewrite Es. destruct (Z.max_spec 1 (q / min_fps)) as [[? ->]|[? ->]]; nia.
  - intros Hm. assert (min_fps <= q)%Z.
    { assert (min_fps < q + 1)%Z; [|lia]. apply lt_IZR. rewrite plus_IZR. apply Rle_lt_trans with (speed / dt); [|lra].
      apply (Rmult_le_reg_r dt); [exact D|]. rewrite <- E. exact Hm. }
    assert (1 <= q / min_fps)%Z by (apply Z.div_le_lower_bound; lia).
    apply (Rmult_le_reg_r (INR s)); [lra|]. unfold Rdiv. rewrite (Rmult_assoc (IZR q)), Rinv_l by lra. rewrite Rmult_1_r.
    rewrite INR_IZR_INZ, <- mult_IZR. apply IZR_le. rewrite Es. rewrite Z.max_r by lia. nia.
  - intros H. assert (q = 0)%Z. { apply eq_IZR. replace (IZR q) with (IZR q / INR s * INR s) by (field; lra). rewrite H. ring. }
    rewrite E. replace dt with (1 * dt) at 3 by ring. apply Rmult_lt_compat_r; [exact D|]. replace q with 0%Z in U. cbn in U. lra.
  - intros H. assert (q = 0)%Z as ->; [|unfold Rdiv; ring]. assert (q < 1)%Z; [|lia]. apply lt_IZR. apply Rle_lt_trans with (speed / dt); [exact L|].
    apply (Rmult_lt_reg_r dt); [exact D|]. rewrite <- E. lra.
Qed.

(** *** colour map *)
Lemma linspace_range a b n x : In x (linspace_open a b n) -> in_unit a -> in_unit b -> in_unit x.
Proof.
  unfold linspace_open. cbn [nadd nmul nsub ndiv nofZ t_num TimeR NumR]. intros H [A1 A2] [B1 B2]. apply in_map_iff in H.
  destruct H as (i & <- & Hi). apply in_seq in Hi. rewrite <- !INR_IZR_INZ.
  assert (Pn : 0 < INR n) by (apply lt_0_INR; lia). set (u := INR i / INR n).
  assert (Hu : 0 <= u <= 1).
  { split; [apply Rmult_le_pos; [apply pos_INR|left; now apply Rinv_0_lt_compat]|]. apply (Rmult_le_reg_r (INR n)); [exact Pn|].
    unfold u, Rdiv. rewrite Rmult_assoc, Rinv_l by lra. rewrite Rmult_1_r, Rmult_1_l. apply le_INR. lia. }
  replace (INR i * ((b - a) / INR n) + a) with (u * b + (1 - u) * a) by (unfold u; field; lra).
  unfold in_unit. nra.
Qed.
Lemma colour_unit z : (0 <= z <= 256)%Z -> in_unit (colour z).
Proof. intros [A B]. unfold colour, in_unit. cbn [ndiv nofZ t_num TimeR NumR]. apply IZR_le in A, B. lra. Qed.
Definition colours_ok (p : Z * (Z * Z * Z)) : Prop := let '(_, (r, g, b)) := p in (0 <= r <= 256 /\ 0 <= g <= 256 /\ 0 <= b <= 256)%Z.
Lemma viridis_unit_list vals p l c : viridis_list vals p l = Ok c -> Forall colours_ok (p :: l) ->
  forall r g b, In (r, g, b) c -> in_unit r /\ in_unit g /\ in_unit b.
Proof.
  revert p c. induction l as [|q l IH]; intros p c E Fl r g b Hin.
  - cbn in E. injection E as <-. destruct Hin.
  - cbn [viridis_list] in E. destruct (viridis_segment vals p q) as [a|e] eqn:Ea; [|discriminate]. cbn [bind] in E.
    destruct (viridis_list vals q l) as [b'|e] eqn:Eb; [|discriminate]. cbn [bind] in E. injection E as <-.
    apply in_app_iff in Hin. destruct Hin as [Hin|Hin].
    2:{ eapply IH; [exact Eb| |exact Hin]. now inversion Fl. }
    clear IH Eb. destruct p as [x [[r1 g1] b1]], q as [x' [[r2 g2] b2]].
    inversion Fl as [|? ? P1 Fl']; subst. inversion Fl' as [|? ? P2 _]; subst. cbn in P1, P2. destruct P1 as (? & ? & ?), P2 as (? & ? & ?).
    unfold viridis_segment in Ea. destruct (t_int _) as [pts|e] in Ea; [|discriminate]. cbn [bind] in Ea.
    destruct (pts <? 0)%Z; [discriminate|]. injection Ea as <-. pose proof (in_combine_l _ _ _ _ Hin) as Hrg. pose proof (in_combine_r _ _ _ _ Hin) as Hb.
    pose proof (in_combine_l _ _ _ _ Hrg) as Hr. pose proof (in_combine_r _ _ _ _ Hrg) as Hg.
    repeat split; try (eapply linspace_range; [eassumption| |]; now apply colour_unit).
    all: apply linspace_range in Hr; apply linspace_range in Hg; apply linspace_range in Hb; try (now apply colour_unit); unfold in_unit in *; lra.
Qed.
Lemma table_ok : Forall colours_ok viridis_table.
Proof. repeat constructor; lia. Qed.
Theorem viridis_unit vals c : get_extended_viridis vals = Ok c -> forall r g b, In (r, g, b) c -> in_unit r /\ in_unit g /\ in_unit b.
Proof. intros E. apply (viridis_unit_list vals _ _ c E). exact table_ok. Qed.
Lemma viridis_count : ~ (exists c, get_extended_viridis (TN := TimeF64) 600 = Ok c /\ List.length c = 600%nat).
Proof.
  intros (c & E & L). assert (H : match get_extended_viridis (TN := TimeF64) 600 with Ok c => Nat.eqb (List.length c) 596 | Exn _ => false end = true)
    by (vm_compute; reflexivity). rewrite E in H. apply Nat.eqb_eq in H. lia.
Qed.
