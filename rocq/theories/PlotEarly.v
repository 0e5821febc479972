(** Statistics asked for from a time before the recording. *)
From Coq Require Import Arith ZArith Bool Reals Lra Lia String List.
Import List.
From Verif Require Import Num NdArray ModelIO ModelRun ModelRunHW ModelPlot SpecPlot PlotFacts PlotProps PlotCases ModelHelpers.
Import ListNotations.
Local Open Scope string_scope.
Local Open Scope R_scope.
#[local] Existing Instance TimeR.

Lemma from_end {X} (l : list X) s : (0 < s)%nat -> from_ l (- Z.of_nat s) = skipn (List.length l - s) l.
Proof. intros H. unfold from_. destruct (Z.ltb_spec (- Z.of_nat s) 0); [|lia]. now rewrite Z.opp_involutive, Nat2Z.id. Qed.
Lemma trace_early {V} (f : h5 V R) dt t_in label p data t0 i s : fixed_step f dt t_in -> holds f p data -> (i < List.length data)%nat -> (0 < s)%nat ->
  trace_curve f label p t0 (Z.of_nat i) (- Z.of_nat s)
  = Ok (Some (mkCurve label (map (fun k => t0 + INR k * dt) (seq 0 (List.length data - i))) (skipn i data) (skipn (List.length data - s) data))).
Proof.
  intros F H L Ps. unfold trace_curve. rewrite (nums_holds _ _ _ H). cbn [bind]. rewrite from_nat, from_end by assumption.
  assert (Ls : List.length (skipn i data) = (List.length data - i)%nat) by apply skipn_length.
  destruct (skipn i data) as [|a tl] eqn:E; [cbn in Ls; lia|]. rewrite <- E in *.
  unfold trace_x. rewrite (fixed_adaptive _ _ _ F), (fixed_attr _ _ _ F). cbn [bind].
  rewrite arange_eq by (pose proof (fx_pos _ _ _ F); lra). cbn [bind]. rewrite Ls, firstn_all2; [reflexivity|]. rewrite map_length, seq_length. lia.
Qed.
Lemma traces_early {V} (f : h5 V R) dt t_in latex props (data : string -> list R) t0 t0_std y_cutoff i s :
  fixed_step f dt t_in -> INR i * dt <= t0 < (INR i + 1) * dt -> (0 < s)%nat -> t_in - INR s * dt <= t0_std < t_in - (INR s - 1) * dt ->
  props <> [] -> (forall p, In p props -> holds f p (data p) /\ (i < List.length (data p))%nat) ->
  exists curves cut, plot_timetraces f latex props t0 t0_std y_cutoff = Ok (Figure curves cut) /\ List.length curves = List.length props /\
    forall n p c, nth_error props n = Some p -> nth_error curves n = Some c -> cv_y c = skipn i (data p) /\ cv_stat c = skipn (List.length (data p) - s) (data p).
Proof.
  intros F Bi Ps Bs Ne H. unfold plot_timetraces. rewrite (start_fixed _ _ _ _ _ F Bi). cbn [bind]. rewrite (longest_eq f i data props 0 H). cbn [bind].
  rewrite Nat.max_0_l. set (L := list_max (map (fun p => List.length (data p)) props)).
  assert (PL : (i < L)%nat).
  { destruct props as [|p l]; [contradiction|]. destruct (H p (or_introl eq_refl)) as [_ A]. unfold L. cbn. lia. }
  destruct (Z.ltb_spec (Z.of_nat L) (Z.of_nat i)); [lia|]. rewrite (fixed_initial _ _ _ F).
  assert (Es : start_index f (t0_std - t_in) = Ok (- Z.of_nat s)%Z).
  { unfold start_index. rewrite (fixed_adaptive _ _ _ F), (fixed_attr _ _ _ F). cbn [bind]. apply floordiv_eq; [exact (fx_pos _ _ _ F)|].
    rewrite opp_IZR, <- INR_IZR_INZ. lra. }
  rewrite Es. cbn [bind]. destruct (Z.ltb_spec (Z.of_nat L) (- Z.of_nat s)); [lia|].
  destruct (traces_loop_eq f latex props t0 (Z.of_nat i) (- Z.of_nat s) 0 [] (fun p => mkCurve "<class 'property'> "
     (map (fun k => t0 + INR k * dt) (seq 0 (List.length (data p) - i))) (skipn i (data p)) (skipn (List.length (data p) - s) (data p)))) as (m & E & I).
  { intros p Hp. destruct (H p Hp) as [A B]. split; [now apply trace_early with (t_in := t_in)|]. cbn. intros Z.
    apply (f_equal (@List.length R)) in Z. rewrite skipn_length in Z. cbn in Z. lia. }
  rewrite E. cbn [bind fst snd app]. eexists. eexists. split; [reflexivity|]. split; [apply map_length|].
  intros n p c Hp Hc. rewrite (map_nth_error _ _ _ Hp) in Hc. injection Hc as <-. split; reflexivity.
Qed.
(** all rows are recorded after t0_std, but only the last enters *)
Lemma stats_early : ~ (forall (f : h5 unit R) dt t_in data curves cut t0_std, fixed_step f dt t_in -> holds f "gamma_n" data -> t0_std <= t_in ->
  plot_timetraces f latex_format ["gamma_n"] 0 t0_std 100000 = Ok (Figure curves cut) -> forall c, In c curves -> cv_stat c = data).
Proof.
  intros H. set (f := file 301 [5; 6] 2). assert (F : fixed_step f 1 301) by apply file_fixed. assert (A : holds f "gamma_n" [5; 6]) by apply file_holds.
  destruct (traces_early f 1 301 latex_format ["gamma_n"] (fun _ => [5; 6]) 0 300 100000 0 1 F) as (cs & cut & E & L & G); try (cbn; lra); try lia; try discriminate.
  { intros p [<-|[]]. split; [exact A|cbn; lia]. }
  destruct cs as [|c cs]; [discriminate L|]. destruct (G 0%nat "gamma_n" c eq_refl eq_refl) as [_ S].
  rewrite (H f 1 301 [5; 6] (c :: cs) cut 300 F A ltac:(lra) E c (or_introl eq_refl)) in S. cbn in S. discriminate S.
Qed.
