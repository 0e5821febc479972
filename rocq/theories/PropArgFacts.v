(** Names of properties: what happens with those that cannot be computed. *)
From Coq Require Import Arith ZArith Bool String List Lia Permutation.
From Verif Require Import Num NdArray ModelIO ModelRun ModelPropArgs SpecIO SpecRun SpecNames IOFacts BufFacts RunFacts RunFiles RunProps RunFull Run2Props RunMisc.
Import ListNotations.
Local Open Scope string_scope.

(** ** The default list *)
Lemma mem_spec x l : existsb (String.eqb x) l = true <-> In x l.
Proof. apply existsb_In. Qed.
Lemma default_after_cons d call calls : default_after d (call :: calls) = default_after (snd (call_props d (fst call) (snd call))) calls.
Proof. reflexivity. Qed.
Lemma default_grows calls : forall d, exists l, default_after d calls = (d ++ l)%list.
Proof.
  induction calls as [|[arg show] calls IH]; intros d; [exists []; now rewrite app_nil_r|].
  rewrite default_after_cons. cbn [fst snd]. destruct arg as [q|]; cbn [call_props snd]; [apply IH|]. unfold effective_props.
  destruct (existsb (String.eqb show) d); [apply IH|]. destruct (IH (d ++ [show])%list) as [l E]. exists (show :: l). rewrite E, <- app_assoc. reflexivity.
Qed.
Lemma default_in calls : forall d x, In x (default_after d calls) <-> In x d \/ In (None, x) calls.
Proof.
  induction calls as [|[arg show] calls IH]; intros d x; [cbn; tauto|].
  rewrite default_after_cons. cbn [fst snd]. rewrite IH. destruct arg as [q|]; cbn [call_props snd].
  - cbn [In]. split; [intuition|]. intros [H|[H|H]]; [tauto|discriminate|tauto].
  - unfold effective_props. destruct (existsb (String.eqb show) d) eqn:E.
    + apply mem_spec in E. cbn [In]. split; [intuition|]. intros [H|[H|H]]; [tauto|injection H as <-; tauto|tauto].
    + rewrite in_app_iff. cbn [In]. split.
      * intros [[H|[<-|[]]]|H]; tauto.
      * intros [H|[H|H]]; [tauto|injection H as <-; tauto|tauto].
Qed.
Lemma default_nodup calls : forall d, NoDup d -> NoDup (default_after d calls).
Proof.
  induction calls as [|[arg show] calls IH]; intros d N; [exact N|]. rewrite default_after_cons. cbn [fst snd].
  apply IH. destruct arg as [q|]; cbn [call_props snd]; [exact N|]. unfold effective_props. destruct (existsb (String.eqb show) d) eqn:E; [exact N|].
  assert (H : ~ In show d) by (rewrite <- mem_spec; congruence).
  apply (Permutation_NoDup (l := show :: d)); [apply Permutation_cons_append|]. constructor; assumption.
Qed.

(** ** Tuples and strings *)
Section Call.
Context {V T : Type} {TN : TimeNum T}.
Variables (s : sim V T) (c : cfg V T).
Lemma call_type_error fuel pl0 d q show fs k : t_int (ndiv (c_end c) (c_step c)) = Ok k -> (c_snaps c =? 0)%Z = false ->
  seq_in show q = false -> (forall l, q <> PyList l) ->
  run2_call s c fuel pl0 d (Some q) show fs = (([], fs), Exn TypeError).
Proof.
  intros Hk Hs Hin Hq. unfold run2_call. rewrite Hk, bind_lift_ok, Hs. unfold ibind, ilift, call_props, with_show. cbn [fst].
  rewrite Hin. destruct q as [l|l|x]; [now contradiction (Hq l)| |]; reflexivity.
Qed.
Lemma call_names fuel pl0 d arg show l k : t_int (ndiv (c_end c) (c_step c)) = Ok k -> (c_snaps c =? 0)%Z = false ->
  fst (call_props d arg show) = Ok l -> forall fs, run2_call s c fuel pl0 d arg show fs = run2 s (with_props c l) fuel pl0 fs.
Proof. intros Hk Hs E fs. unfold run2_call. now rewrite Hk, bind_lift_ok, Hs, E, bind_lift_ok. Qed.

(** ** Names that cannot be computed *)
Lemma fullres_bad e l1 bad l2 pl :
  (forall p, In p l1 -> exists v, s_prop s p (p_density pl) (p_phi pl) (p_omega pl) (c_dx c) (c_c1 c) = Ok v) ->
  s_prop s bad (p_density pl) (p_phi pl) (p_omega pl) (c_dx c) (c_c1 c) = Exn e ->
  fullres s c (l1 ++ bad :: l2) pl = Exn e.
Proof.
  intros H B. induction l1 as [|p l1 IH]; cbn [app fullres]; [now rewrite B|].
  destruct (H p (or_introl eq_refl)) as [v ->]. cbn [bind]. rewrite IH; [reflexivity|]. intros q Hq. apply H. now right.
Qed.
Notation empty_file := (SpecNames.empty_file s c).
Hypothesis HP : NoDup (c_props c).
Lemma created fs : NoDup (keys (c_phys c)) -> exists f0 tr,
  runs (create_appendable_h5 (zero_like s) (s_zeroV s) (save_params_of c (c_phys c) (c_adaptive c)) ("time"%string :: map fr (c_props c)) (add_last c)) fs tr (Some f0) (Ok tt)
  /\ empty_file f0.
Proof.
  intros HN.
  destruct (create_ok (zero_like s) (s_zeroV s) (save_params_of c (c_phys c) (c_adaptive c)) ("time"%string :: map fr (c_props c)) (add_last c) fs) as [f0 [tr0 [R0 [G0 [A0 _]]]]].
  { constructor; [|now apply fr_nodup]. intros H. apply in_map_iff in H. destruct H as [p [H _]]. discriminate H. }
  { intros p [<-|H] H'.
    - cbn in H'. intuition discriminate.
    - apply in_map_iff in H. destruct H as [q' [<- _]]. apply in_app_iff in H'. destruct H' as [H'|H'].
      + cbn in H'. unfold fr in H'. intuition discriminate.
      + now apply fr_state in H'. }
  { apply save_params_nodup. exact HN. }
  exists f0, tr0. split; [exact R0|]. split; [exact A0|]. split.
  - intros k Hk. rewrite G0. unfold fresh_dset.
    assert (E : existsb (String.eqb k) (f3 ++ "time"%string :: map fr (c_props c)) = true).
    { apply existsb_true. unfold ks2 in Hk. apply in_app_iff in Hk. apply in_app_iff. cbn in Hk |- *. tauto. }
    now rewrite E.
  - intros k Hk. rewrite G0. unfold fresh_dset.
    assert (E : existsb (String.eqb k) (f3 ++ "time"%string :: map fr (c_props c)) = false).
    { apply existsb_false. intros H. apply in_app_iff in H. destruct H as [H|[H|H]].
      - cbn in H, Hk. intuition (subst; discriminate).
      - cbn in Hk. intuition (subst; discriminate).
      - apply in_map_iff in H. destruct H as [p [<- _]]. now apply fr_state in Hk. }
    rewrite E, (existsb_true k state_keys Hk), andb_true_r. reflexivity.
Qed.
Lemma files_create pl0 fs : (fs = None \/ c_force c = true) ->
  run2_files s c pl0 fs = ibind (run2_create s c pl0) (fun st => iret (Some st)) fs.
Proof. intros Hfs. unfold run2_files. rewrite bind_get. destruct Hfs as [->| ->]; [reflexivity|]. destruct fs; reflexivity. Qed.

(** at the first frame *)
Lemma run2_bad_first fuel pl0 ds fs q e :
  c_output c = true -> (fs = None \/ c_force c = true) -> (c_snaps c =? 0)%Z = false -> t_int (ndiv (c_end c) (c_step c)) = Ok q ->
  NoDup (keys (c_phys c)) -> truthy (c_rec c) = false -> downsampled c ds pl0 -> fullres s c (c_props c) pl0 = Exn e ->
  exists f, result_of (run2 s c fuel pl0) fs = Exn e /\ disk_of (run2 s c fuel pl0) fs = Some f /\ empty_file f.
Proof.
  intros Ho Hfs Hs Hq HN Hr Hd Hb. destruct (created fs HN) as (f0 & tr & R & E). exists f0.
  assert (RR : runs (run2 s c fuel pl0) fs tr (Some f0) (Exn e)).
  { unfold runs, run2. rewrite Hq, bind_lift_ok, Hs, Ho. cbn [negb].
    rewrite (bind_cong _ _ _ fs (files_create pl0 fs Hfs)). unfold run2_create. rewrite !bind_assoc.
    match goal with |- ?m ?fs = ((?tr, ?fs'), ?r) => change (runs m fs tr fs' r) end.
    rewrite <- (app_nil_r tr). eapply runs_bind; [exact R|]. cbv zeta. rewrite Hr. unfold runs, save_frame, new_val_of_2.
    rewrite (new_val_ok c ds pl0 _ Hd), Hb. reflexivity. }
  unfold result_of, disk_of. rewrite RR. auto.
Qed.

(** at the first recorded step *)
Lemma loop_bad phys traj t0 r e ds : forall m i bi fs, r = i + m -> 1 <= m ->
  (forall j, i <= j < r -> s_step s phys (traj j) (c_step c) (c_dx c) = Ok (traj (S j))) ->
  (forall j, i <= j < r -> nltb (t_round4 (time2 c t0 j)) (c_end c) = true) ->
  (forall j, i < j < r -> recorded c (time2 c t0) j = false) -> recorded c (time2 c t0) r = true ->
  downsampled c ds (traj r) -> fullres s c (c_props c) (traj r) = Exn e ->
  forall fuel, m <= fuel ->
  run2_loop s c phys fuel t0 (Z.of_nat i) (if c_adaptive c then repeat (c_step c) i else []) (time2 c t0 i) (traj i) bi fs = (([], fs), Exn e).
Proof.
  induction m as [|m IH]; intros i bi fs Er Hm Hst Ht Hu Hr Hd Hb fuel Hf; [lia|].
  destruct fuel as [|fuel]; [lia|]. cbn [run2_loop]. rewrite Ht by lia. rewrite Hst by lia. cbn [attempt]. rewrite bind_lift_ok. cbv zeta.
  assert (Tm : (if c_adaptive c then nadd t0 (t_sum (if c_adaptive c then ((if c_adaptive c then repeat (c_step c) i else []) ++ [c_step c])%list else if c_adaptive c then repeat (c_step c) i else []))
                  else nadd t0 (nmul (nofZ (Z.of_nat i + 1)) (c_step c))) = time2 c t0 (S i)).
  { unfold time2. destruct (c_adaptive c); [rewrite repeat_snoc; reflexivity|]. unfold time1.
    replace (Z.of_nat i + 1)%Z with (Z.of_nat (S i)) by lia. reflexivity. }
  assert (Us : (if c_adaptive c then ((if c_adaptive c then repeat (c_step c) i else []) ++ [c_step c])%list else if c_adaptive c then repeat (c_step c) i else [])
                 = (if c_adaptive c then repeat (c_step c) (S i) else [])).
  { destruct (c_adaptive c); [apply repeat_snoc|reflexivity]. }
  rewrite Tm, Us. replace (Z.of_nat i + 1)%Z with (Z.of_nat (S i)) by lia.
  change (nleb (c_rec c) (time2 c t0 (S i)) && (Z.of_nat (S i) mod c_snaps c =? 0)%Z) with (recorded c (time2 c t0) (S i)).
  destruct m as [|m'].
  - assert (Es : S i = r) by lia. rewrite Es, Hr. unfold ibind at 1, ilift at 1. unfold new_val_of_2. rewrite (new_val_ok c ds _ _ Hd), Hb. reflexivity.
  - rewrite Hu by lia. apply IH; try assumption; try lia.
    + intros j Hj. apply Hst. lia.
    + intros j Hj. apply Ht. lia.
    + intros j Hj. apply Hu. lia.
Qed.
Lemma run2_bad_later fuel pl0 phi traj r ds fs q e :
  c_output c = true -> (fs = None \/ c_force c = true) -> (c_snaps c =? 0)%Z = false -> t_int (ndiv (c_end c) (c_step c)) = Ok q ->
  NoDup (keys (c_phys c)) -> truthy (c_rec c) = true ->
  (let* dx := dlook (c_phys c) "dx" in s_phi s (c_phys c) (p_omega pl0) dx) = Ok phi ->
  evolves s c (c_phys c) (mkPlasma (p_density pl0) (p_omega pl0) phi (p_age pl0)) traj r -> 1 <= r <= fuel ->
  (forall j, j < r -> nltb (t_round4 (time2 c (nofZ 0) j)) (c_end c) = true) ->
  (forall j, 1 <= j < r -> recorded c (time2 c (nofZ 0)) j = false) -> recorded c (time2 c (nofZ 0)) r = true ->
  downsampled c ds (traj r) -> fullres s c (c_props c) (traj r) = Exn e ->
  exists f, result_of (run2 s c fuel pl0) fs = Exn e /\ disk_of (run2 s c fuel pl0) fs = Some f /\ empty_file f.
Proof.
  intros Ho Hfs Hs Hq HN Hr Hphi [E0 Ev] Hfu Ht Hu Hrec Hd Hb. destruct (created fs HN) as (f0 & tr & R & E). exists f0.
  assert (RR : runs (run2 s c fuel pl0) fs tr (Some f0) (Exn e)).
  { unfold runs, run2. rewrite Hq, bind_lift_ok, Hs, Ho. cbn [negb].
    rewrite (bind_cong _ _ _ fs (files_create pl0 fs Hfs)). unfold run2_create. rewrite !bind_assoc.
    match goal with |- ?m ?fs = ((?tr, ?fs'), ?r) => change (runs m fs tr fs' r) end.
    rewrite <- (app_nil_r tr). eapply runs_bind; [exact R|]. cbv zeta. rewrite Hr. unfold runs. rewrite !bind_ret_l.
    unfold run2_simulate. cbn [st_phys st_plasma st_time st_buf st_idx]. rewrite !bind_assoc, Hphi, bind_lift_ok. rewrite bind_assoc.
    pose proof (loop_bad (c_phys c) traj (nofZ 0) r e ds r 0 (buffer0_2 s c, 0) (Some f0) eq_refl ltac:(lia)) as L.
    cbn [repeat] in L. assert (Z0 : (if c_adaptive c then [] else []) = @nil T) by now destruct (c_adaptive c).
    rewrite Z0, E0 in L. cbn [Z.of_nat time2] in L.
    specialize (L ltac:(intros; apply Ev; lia) ltac:(intros; apply Ht; lia) ltac:(intros; apply Hu; lia) Hrec Hd Hb fuel ltac:(lia)).
    match goal with |- ?m ?fs = ((?tr, ?fs'), ?r) => change (runs m fs tr fs' r) end.
    apply runs_bind_exn. exact L. }
  unfold result_of, disk_of. rewrite RR. auto.
Qed.

(** the file left behind is neither continued nor replaced *)
Lemma empty_stuck (c' : cfg V T) fuel pl f k : empty_file f -> c_output c' = true -> c_force c' = false ->
  t_int (ndiv (c_end c') (c_step c')) = Ok k -> (c_snaps c' =? 0)%Z = false ->
  run2 s c' fuel pl (Some f) = (([], Some f), if c_continue c' then Exn IndexError else Ok tt) /\
  run s c' pl (Some f) = (([], Some f), if c_continue c' then Exn IndexError else Ok tt).
Proof.
  intros [_ [G S]] Ho Hf Hk Hs.
  assert (Cf : continue_h5_file (Some f) = Exn IndexError).
  { assert (K : forall x, In x field_keys -> In x (ks2 c)) by (intros; apply in_app_iff; now left).
    unfold continue_h5_file, load_field. cbn [append]. rewrite (S "state_density"), (S "state_omega"), (S "state_phi") by (cbn; tauto).
    unfold dlook. rewrite (G "density"), (G "omega"), (G "phi"), (G "time") by (apply K; cbn; tauto).
    destruct (add_last c); reflexivity. }
  split.
  - unfold run2. rewrite Hk, bind_lift_ok, Hs, Ho. cbn [negb]. unfold run2_files, run_continue, ibind, iget, ilift, iret. rewrite Hf.
    destruct (c_continue c'); [rewrite Cf|]; reflexivity.
  - unfold run. rewrite Ho. cbn [negb]. unfold run_files, run_continue, ibind, iget, ilift, iret. rewrite Hf.
    destruct (c_continue c'); [rewrite Cf|]; reflexivity.
Qed.
End Call.

(** ** run.py: a name without a function is a dataset of zeros *)
Lemma run_zeros {V T} {TN : TimeNum T} (s : sim V T) (c : cfg V T) P pl0 phi traj steps n ds fs tbl :
  c_output c = true -> (fs = None \/ c_force c = true) -> 1 <= c_blen c -> (c_snaps c =? 0)%Z = false -> NoDup (keys (c_phys c)) ->
  downsampled c ds pl0 -> goes s c (c_phys c) (nofZ 0) pl0 phi traj steps n ds ->
  apart1 c -> props_fine s c P (save_params_of c (c_phys c) false) tbl ->
  let l := fresh_log c pl0 (time1 c) traj n in
  frames_P P (fun k => map (fun tp => frame_row s ds (fst tp) (snd tp) k) l) ->
  exists g, result_of (run s c pl0) fs = Ok tt /\ disk_of (run s c pl0) fs = Some g /\ records s ds (fun _ => []) g l
   /\ forall k, In k (c_props c) -> dget (s_table s (save_params_of c (c_phys c) false)) k = None -> dget (dsets g) k = Some (Rows (repeat (RNum nzero) (length l))).
Proof.
  intros Ho Hf HB Hs HN Hd Hg Ha Hp l HP. destruct (run_fresh_full s c P pl0 phi traj steps n ds fs tbl Ho Hf HB Hs HN Hd Hg Ha Hp HP) as (g & R & D & Rec & _ & _ & Pr & _).
  exists g. split; [exact R|]. split; [exact D|]. split; [exact Rec|]. intros k Hk Ek. rewrite (Pr k Hk). unfold prop_rows.
  destruct Hp as (_ & Hnf & _ & Cm & _).
  assert (E : dget tbl k = None).
  { revert Ek. clear - Cm. unfold computes in Cm. induction Cm as [|[a f] [b h] l1 l2 [E _] _ IH]; [reflexivity|]. cbn [fst] in E. subst b. cbn [dget].
    destruct (String.eqb k a); [discriminate|exact IH]. }
  rewrite E, map_length. do 2 f_equal. unfold zero_like. specialize (Hnf k Hk).
  destruct (existsb (String.eqb k) ["density"; "omega"; "phi"]) eqn:Ef; [|reflexivity].
  apply existsb_In in Ef. exfalso. apply Hnf. cbn in Ef |- *. intuition.
Qed.

Lemma lists_used d l show :
  (In show l -> fst (call_props d (Some (PyList l)) show) = Ok l /\ fst (call_props d (Some (PyTuple l)) show) = Ok l) /\
  (~ In show l -> fst (call_props d (Some (PyList l)) show) = Ok (l ++ [show])%list /\ fst (call_props d (Some (PyTuple l)) show) = Exn TypeError).
Proof.
  unfold call_props, with_show, seq_in. cbn [fst]. rewrite <- (mem_spec show l).
  destruct (existsb (String.eqb show) l); split; intros H; try discriminate; try (split; reflexivity). now contradiction H.
Qed.
Lemma prefix_app s t : String.prefix s (s ++ t) = true.
Proof. induction s as [|a s IH]; [now destruct t|]. cbn. destruct (Ascii.ascii_dec a a); [exact IH|contradiction]. Qed.
Lemma index_app b s t : String.index 0 s (b ++ s ++ t) <> None.
Proof.
  induction b as [|a b IH]; cbn [append].
  - pose proof (prefix_app s t) as E. destruct (s ++ t) eqn:Q; cbn [String.index]; [destruct s; [discriminate|discriminate E]|]. rewrite E. discriminate.
  - cbn [String.index]. destruct (String.prefix s _); [discriminate|]. destruct (String.index 0 s (b ++ s ++ t)); [discriminate|contradiction].
Qed.
Lemma string_used d b show t : fst (call_props d (Some (PyStr (b ++ show ++ t))) show) = Ok (chars (b ++ show ++ t)).
Proof.
  unfold call_props, with_show, seq_in. cbn [fst]. pose proof (index_app b show t). destruct (String.index 0 show _); [reflexivity|contradiction].
Qed.
