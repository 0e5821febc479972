(** run.py: what a fresh and a continued run leave in the file. *)
From Coq Require Import Arith ZArith Bool String List Lia.
From Verif Require Import Num NdArray ModelIO ModelRun SpecIO SpecRun IOFacts BufFacts RunFacts RunFiles.
Import ListNotations.

Lemma NoDup_dset {X} (d : list (string * X)) k v : NoDup (keys d) -> NoDup (keys (dset_ d k v)).
Proof.
  assert (K : forall d : list (string * X), forall k', In k' (keys (dset_ d k v)) -> k' = k \/ In k' (keys d)).
  { clear d. induction d as [|[k0 v0] d IH]; cbn [dset_].
    - cbn. intuition.
    - intros k'. destruct (String.eqb_spec k k0) as [->|]; cbn [keys map fst In]; [intuition|].
      intros [H|H]; [auto|]. destruct (IH k' H); auto. }
  induction d as [|[k0 v0] d IH]; intros N; cbn [dset_].
  - constructor; [intros []|constructor].
  - cbn [keys map fst] in N. apply NoDup_cons_iff in N. destruct N as [N1 N2].
    destruct (String.eqb_spec k k0) as [->|Hk]; cbn [keys map fst]; constructor; auto.
    intros H. destruct (K d k0 H) as [E|E]; [congruence|contradiction].
Qed.

Section RunProps.
Context {V T : Type} {TN : TimeNum T}.
Variable s : sim V T.
Variable c : cfg V T.
Notation zl := (zero_like s).
Notation save_all := (save_all zl (s_f32V s) (s_f32T s) (c_blen c)).
Notation save_and_flush := (save_and_flush zl (s_f32V s) (s_f32T s) (c_blen c)).
Notation column := (column zl (s_f32V s) (s_f32T s)).

Definition sks : list string := if add_last c then state_keys else [].
Definition items (l : log V T) : list (item V T) :=
  map (fun tp => item_of c (new_val_of c (snd tp) (fst tp)) (snd tp)) l.

Lemma items_complete ds l : Forall (fun tp => downsampled c ds (snd tp)) l -> complete field_keys sks (items l).
Proof.
  intros H. apply Forall_forall. intros it Hit. apply in_map_iff in Hit. destruct Hit as [tp [<- Htp]].
  rewrite Forall_forall in H. specialize (H tp Htp). unfold item_of. cbn [fst snd]. rewrite (new_val_ok c ds _ _ H). split.
  - intros k Hk. cbn in Hk. intuition (subst; eexists; reflexivity).
  - unfold last_state_of, sks. destruct (add_last c); reflexivity.
Qed.
Lemma items_column ds l k : Forall (fun tp => downsampled c ds (snd tp)) l -> In k field_keys ->
  column k (items l) = map (fun tp => frame_row s ds (fst tp) (snd tp) k) l.
Proof.
  intros H Hk. unfold SpecIO.column, items. rewrite map_map. apply map_ext_in. intros tp Htp.
  rewrite Forall_forall in H. specialize (H tp Htp). unfold stored, item_of. cbn [fst]. rewrite (new_val_ok c ds _ _ H).
  cbn in Hk. intuition (subst; reflexivity).
Qed.
Lemma items_length l : length (items l) = length l.
Proof. apply map_length. Qed.
Lemma items_state f l m k : add_last c = true -> In k state_keys ->
  state_after f (items l) m k = match m with
    | 0 => dget (dsets f) k
    | S m' => match nth_error l m' with Some tp => Some (Whole (state_of (snd tp) k)) | None => None end end.
Proof.
  intros Ha Hk. destruct m as [|m]; [reflexivity|]. cbn [state_after]. unfold items. rewrite nth_error_map.
  destruct (nth_error l m) as [tp|]; [|reflexivity]. cbn [option_map item_of snd]. unfold last_state_of. rewrite Ha.
  cbn in Hk. intuition (subst; reflexivity).
Qed.

Lemma holds_records ds old f0 g l a st : Forall (fun tp => downsampled c ds (snd tp)) l ->
  holds zl (s_f32V s) (s_f32T s) field_keys sks old f0 g (items l) a st -> a = length l ->
  records s ds old g l /\ attrs g = attrs f0 /\
  (add_last c = true -> holds_state (dget (dsets f0)) g l st) /\
  (forall k, ~ In k field_keys -> ~ In k sks -> dget (dsets g) k = dget (dsets f0) k).
Proof.
  intros F [A [R [S O]]] ->. split; [|split; [exact A|split; [|exact O]]].
  - intros k Hk. rewrite (R k Hk), (items_column ds l k F Hk). rewrite firstn_all2; [reflexivity|]. now rewrite map_length.
  - intros Ha k Hk. rewrite S by (unfold sks; now rewrite Ha). now apply items_state.
Qed.
Lemma between_torn ds old f0 g l a b : Forall (fun tp => downsampled c ds (snd tp)) l ->
  between zl (s_f32V s) (s_f32T s) field_keys sks old f0 g (items l) a b ->
  torn_records s ds old g l a b /\
  (add_last c = true -> forall k, In k state_keys ->
     (exists st, (st = a \/ st = b) /\ dget (dsets g) k = match st with
        | 0 => dget (dsets f0) k
        | S m => match nth_error l m with Some tp => Some (Whole (state_of (snd tp) k)) | None => None end end)).
Proof.
  intros F [A [R [S O]]]. split.
  - intros k Hk rows. specialize (R k Hk). rewrite (items_column ds l k F Hk) in R. unfold rows. rewrite <- !firstn_map. exact R.
  - intros Ha k Hk. destruct (S k) as [Q|Q]; [unfold sks; now rewrite Ha| |].
    + exists a. split; [now left|]. rewrite Q. now apply items_state.
    + exists b. split; [now right|]. rewrite Q. now apply items_state.
Qed.

Lemma fields_nodup : NoDup field_keys.
Proof. repeat constructor; cbn; intuition discriminate. Qed.
Lemma sks_nodup : NoDup sks.
Proof. unfold sks. destruct (add_last c); [|constructor]. repeat constructor; cbn; intuition discriminate. Qed.

Lemma ready_file old (f : h5 V T) : 1 <= c_blen c ->
  (forall k, In k field_keys -> dget (dsets f) k = Some (Rows (old k))) ->
  (add_last c = true -> forall k, In k state_keys -> exists v, dget (dsets f) k = Some (Whole v)) ->
  ready (c_blen c) field_keys sks old f (buffer0 s c).
Proof.
  intros HB HR HS. constructor.
  - exact HB.
  - reflexivity.
  - exact fields_nodup.
  - intros k rows H. unfold buffer0 in H. apply in_map_iff in H. destruct H as [n [E _]]. injection E as _ <-. apply repeat_length.
  - exact HR.
  - exact sks_nodup.
  - intros k. unfold sks. destruct (add_last c); [now apply HS|intros []].
Qed.

(** ** Fresh runs *)
Notation goes := (SpecRun.goes s c).
Lemma frames_range time n j : In j (frames c time n) -> 1 <= j <= n.
Proof. intros H. apply filter_In in H. destruct H as [H _]. apply in_seq in H. lia. Qed.

Lemma loop_log_down ds time traj n : (forall j, 1 <= j <= n -> downsampled c ds (traj j)) ->
  Forall (fun tp => downsampled c ds (snd tp)) (loop_log c time traj n).
Proof.
  intros H. apply Forall_forall. intros tp Htp. apply in_map_iff in Htp. destruct Htp as [j [<- Hj]]. cbn [snd].
  apply H. now apply (frames_range time).
Qed.

Lemma items_loop time traj n :
  map (fun j => item_of c (new_val_of c (traj j) (time j)) (traj j)) (frames c time n) = items (loop_log c time traj n).
Proof. unfold items, loop_log. now rewrite map_map. Qed.

Lemma run_create_saves pl0 phi traj steps n ds fs :
  c_output c = true -> (c_snaps c =? 0)%Z = false -> downsampled c ds pl0 ->
  goes (c_phys c) (nofZ 0) pl0 phi traj steps n ds ->
  ibind (run_create s c pl0) (run_simulate s c) fs =
  ibind (create_appendable_h5 zl (s_zeroV s) (save_params_of c (c_phys c) false) ["time"%string] (add_last c))
    (fun _ => save_and_flush (items (fresh_log c pl0 (time1 c) traj n)) (buffer0 s c, 0)) fs.
Proof.
  intros Ho Hsn Hd0 [H1 [H2 [H3 [H4 H5]]]]. unfold run_create. rewrite bind_assoc. apply bind_ext. intros [] fs1. cbv zeta.
  unfold fresh_log. destruct (truthy (c_rec c)).
  - rewrite bind_ret_l. cbn [app].
    rewrite (run_simulate_saves s c (mkStart pl0 (c_phys c) (nofZ 0) (buffer0 s c) 0) phi traj ds n steps fs1 Ho Hsn H1 H2 H3 H4 H5). cbn [st_buf st_idx]. now rewrite items_loop.
  - rewrite bind_assoc. unfold SpecIO.save_and_flush. cbn [app items map].
    cbn [SpecIO.save_all fst snd]. rewrite bind_assoc.
    rewrite (bind_cong _ _ _ fs1 (save_frame_eq s c _ pl0 (buffer0 s c, 0) fs1 _ (new_val_ok c ds pl0 _ Hd0))).
    cbn [fst snd]. apply bind_ext. intros [b i] fs2. cbn [fst snd]. rewrite bind_ret_l.
    rewrite (run_simulate_saves s c (mkStart pl0 (c_phys c) (nofZ 0) b i) phi traj ds n steps fs2 Ho Hsn H1 H2 H3 H4 H5). cbn [st_buf st_idx].
    rewrite items_loop. reflexivity.
Qed.

Lemma save_params_nodup adaptive : NoDup (keys (c_phys c)) -> NoDup (keys (save_params_of c (c_phys c) adaptive)).
Proof. intros H. unfold save_params_of, get_save_params. repeat apply NoDup_dset. exact H. Qed.

Lemma run_fresh_eq pl0 fs :
  c_output c = true -> (fs = None \/ c_force c = true) ->
  run s c pl0 fs = ibind (ibind (run_create s c pl0) (run_simulate s c)) (fun _ => run_properties_ s c) fs.
Proof.
  intros Ho Hf. unfold run. rewrite Ho. cbn [negb]. unfold run_files.
  assert (E : ibind iget (fun fs => match fs, c_force c with Some _, false => run_continue s c (buffer0 s c)
                | _, _ => ibind (run_create s c pl0) (fun st => iret (Some st)) end) fs
              = ibind (run_create s c pl0) (fun st => iret (Some st)) fs).
  { rewrite bind_get. destruct Hf as [->| ->]; [reflexivity|]. destruct fs; reflexivity. }
  rewrite (bind_cong _ _ _ fs E). rewrite !bind_assoc. apply bind_ext. intros st fs1. now rewrite bind_ret_l.
Qed.

(** the main statement about a fresh run *)
Lemma run_fresh pl0 phi traj steps n ds fs :
  c_output c = true -> (fs = None \/ c_force c = true) -> c_props c = [] ->
  1 <= c_blen c -> (c_snaps c =? 0)%Z = false -> NoDup (keys (c_phys c)) ->
  downsampled c ds pl0 -> goes (c_phys c) (nofZ 0) pl0 phi traj steps n ds ->
  let l := fresh_log c pl0 (time1 c) traj n in
  exists g, result_of (run s c pl0) fs = Ok tt /\ disk_of (run s c pl0) fs = Some g
   /\ records s ds (fun _ => []) g l
   /\ attrs g = save_params_of c (c_phys c) false
   /\ (add_last c = true -> holds_state (fun _ => Some (Whole (s_zeroV s))) g l (c_blen c * (length l / c_blen c)))
   /\ (exists j0, (forall j, j < j0 -> crash_after zl j (run s c pl0) fs = fs \/
          exists g, crash_after zl j (run s c pl0) fs = Some g /\ forall k, In k field_keys -> dget (dsets g) k = None \/ dget (dsets g) k = Some (Rows []))
        /\ forall j, j0 <= j -> exists g a b, crash_after zl j (run s c pl0) fs = Some g /\ (exists q, a = c_blen c * q)
            /\ a <= b /\ b <= a + c_blen c /\ b <= length l /\ torn_records s ds (fun _ => []) g l a b).
Proof.
  intros Ho Hf Hp HB Hsn HN Hd0 Hg l.
  assert (FL : Forall (fun tp => downsampled c ds (snd tp)) l).
  { unfold l, fresh_log. apply Forall_app. split.
    - destruct (truthy (c_rec c)); constructor; [exact Hd0|constructor].
    - apply loop_log_down. apply Hg. }
  destruct (create_ok zl (s_zeroV s) (save_params_of c (c_phys c) false) ["time"%string] (add_last c) fs) as [f0 [tr0 [R0 [G0 [A0 C0]]]]].
  { repeat constructor. intros []. }
  { intros p [<-|[]] H. cbn in H. intuition discriminate. }
  { now apply save_params_nodup. }
  assert (RD : ready (c_blen c) field_keys sks (fun _ => []) f0 (buffer0 s c)).
  { apply ready_file; [exact HB| |].
    - intros k Hk. rewrite G0. cbn in Hk. intuition (subst; reflexivity).
    - intros Ha k Hk. exists (s_zeroV s). rewrite G0, Ha. cbn in Hk. intuition (subst; reflexivity). }
  destruct (save_and_flush_spec zl (s_f32V s) (s_f32T s) _ _ _ _ _ _ (items l) RD (items_complete ds l FL)) as [g [R1 [D1 [H1 C1]]]].
  rewrite items_length in *.
  destruct (holds_records ds _ f0 g l _ _ FL H1 eq_refl) as [HR [HA [HS _]]].
  assert (RR : exists tr1, runs (run s c pl0) fs (tr0 ++ tr1) (Some g) (Ok tt) /\
            runs (save_and_flush (items l) (buffer0 s c, 0)) (Some f0) tr1 (Some g) (Ok tt)).
  { unfold result_of, disk_of in R1, D1.
    destruct (save_and_flush (items l) (buffer0 s c, 0) (Some f0)) as [[tr1 d1] r1] eqn:E1. cbn [fst snd] in R1, D1. subst d1 r1.
    exists tr1. split; [|exact E1]. unfold runs. rewrite (run_fresh_eq pl0 fs Ho Hf).
    rewrite (bind_cong _ _ _ fs (run_create_saves pl0 phi traj steps n ds fs Ho Hsn Hd0 Hg)).
    unfold run_properties_. rewrite Hp.
    rewrite <- (app_nil_r (tr0 ++ tr1)).
    match goal with |- ?m ?fs = ((?tr, ?fs'), ?r) => change (runs m fs tr fs' r) end.
    eapply runs_bind; [|apply runs_ret]. eapply runs_bind; [exact R0|exact E1]. }
  destruct RR as [tr1 [RR E1]].
  exists g. unfold result_of, disk_of. rewrite RR. cbn [fst snd]. split; [reflexivity|]. split; [reflexivity|]. split; [exact HR|]. split; [|split].
  - congruence.
  - intros Ha k Hk. rewrite (HS Ha k Hk). destruct (c_blen c * (length l / c_blen c)); [|reflexivity].
    rewrite G0, Ha. cbn in Hk. intuition (subst; reflexivity).
  - exists (S (length tr0)).
    assert (CR : forall j, crash_after zl j (run s c pl0) fs = replay zl (firstn j (tr0 ++ tr1)) fs).
    { intros j. unfold crash_after, trace_of. now rewrite RR. }
    destruct (faithful_runs zl _ _ _ _ _ (faithful_create zl _ _ _ _) R0) as [AL RE].
    split.
    + intros j Hj. rewrite CR. rewrite (crash_split zl tr0 tr1 fs (Some f0) j AL RE).
      assert (E : (j <=? length tr0) = true) by (apply Nat.leb_le; lia). rewrite E.
      destruct (C0 j) as [Q|[g' [Q Hg']]]; unfold crash_after, trace_of in Q; rewrite R0 in Q; cbn [fst] in Q.
      * now left.
      * right. exists g'. split; [exact Q|]. intros k Hk. destruct (Hg' k) as [W|[W|[W _]]]; auto.
        exfalso. cbn in W, Hk. intuition (subst; discriminate).
    + intros j Hj. rewrite CR. rewrite (crash_split zl tr0 tr1 fs (Some f0) j AL RE).
      assert (E : (j <=? length tr0) = false) by (apply Nat.leb_gt; lia). rewrite E.
      destruct (C1 (j - length tr0)) as [g' [a [b [Q [Hq [Ha [Hb [Hc Bt]]]]]]]].
      unfold crash_after, trace_of in Q. rewrite E1 in Q. cbn [fst] in Q.
      exists g', a, b. split; [exact Q|]. split; [exact Hq|]. split; [exact Ha|]. split; [exact Hb|]. split; [exact Hc|].
      apply (between_torn ds _ f0 g' l a b FL Bt).
Qed.

(** ** Continued runs *)
Notation continues := (SpecRun.continues s).
Lemma run_continue_eq f phys pl buf : c_continue c = true -> continues f phys pl ->
  run_continue s c buf (Some f) = (([], Some f), Ok (Some (mkStart pl phys (p_age pl) buf 0))).
Proof.
  intros Hc [ld [E [-> Hk]]]. unfold run_continue. rewrite Hc, bind_get, E, bind_lift_ok, Hk, bind_lift_ok. reflexivity.
Qed.

Lemma run_continued pl0 f phys pl phi traj steps n ds old :
  c_output c = true -> c_force c = false -> c_continue c = true -> c_props c = [] ->
  1 <= c_blen c -> (c_snaps c =? 0)%Z = false ->
  continues f phys pl ->
  (forall k, In k field_keys -> dget (dsets f) k = Some (Rows (old k))) ->
  (add_last c = true -> forall k, In k state_keys -> exists v, dget (dsets f) k = Some (Whole v)) ->
  goes phys (p_age pl) pl phi traj steps n ds ->
  let l := loop_log c (time1 c) traj n in
  exists g, result_of (run s c pl0) (Some f) = Ok tt /\ disk_of (run s c pl0) (Some f) = Some g
   /\ records s ds old g l /\ attrs g = attrs f
   /\ (add_last c = true -> holds_state (dget (dsets f)) g l (c_blen c * (length l / c_blen c)))
   /\ (forall k, ~ In k field_keys -> ~ (add_last c = true /\ In k state_keys) -> dget (dsets g) k = dget (dsets f) k)
   /\ forall j, exists g a b, crash_after zl j (run s c pl0) (Some f) = Some g /\ (exists q, a = c_blen c * q)
            /\ a <= b /\ b <= a + c_blen c /\ b <= length l /\ torn_records s ds old g l a b.
Proof.
  intros Ho Hf Hc Hp HB Hsn Hk Hold Hst Hg l.
  assert (FL : Forall (fun tp => downsampled c ds (snd tp)) l) by (apply loop_log_down; apply Hg).
  assert (RD : ready (c_blen c) field_keys sks old f (buffer0 s c)) by (now apply ready_file).
  destruct (save_and_flush_spec zl (s_f32V s) (s_f32T s) _ _ _ _ _ _ (items l) RD (items_complete ds l FL)) as [g [R1 [D1 [H1 C1]]]].
  rewrite items_length in *.
  destruct (holds_records ds _ f g l _ _ FL H1 eq_refl) as [HR [HA [HS HO]]].
  assert (RR : run s c pl0 (Some f) = save_and_flush (items l) (buffer0 s c, 0) (Some f)).
  { unfold run. rewrite Ho. cbn [negb]. unfold run_files.
    assert (E : ibind iget (fun fs => match fs, c_force c with Some _, false => run_continue s c (buffer0 s c)
                | _, _ => ibind (run_create s c pl0) (fun st => iret (Some st)) end) (Some f)
              = ilift (Ok (Some (mkStart pl phys (p_age pl) (buffer0 s c) 0))) (Some f)).
    { rewrite bind_get, Hf. apply (run_continue_eq f phys pl _ Hc Hk). }
    rewrite (bind_cong _ _ _ _ E), bind_lift_ok. destruct Hg as [G1 [G2 [G3 [G4 G5]]]].
    rewrite (bind_cong _ _ _ _ (run_simulate_saves s c (mkStart pl phys (p_age pl) (buffer0 s c) 0) phi traj ds n steps (Some f) Ho Hsn G1 G2 G3 G4 G5)).
    unfold run_properties_. rewrite Hp. cbn [st_buf st_idx]. rewrite items_loop. fold l.
    unfold ibind. unfold result_of in R1. destruct (save_and_flush (items l) (buffer0 s c, 0) (Some f)) as [[tr d] r].
    cbn [snd] in R1. subst r. cbn [iret]. unfold iret. now rewrite app_nil_r. }
  exists g. unfold crash_after, trace_of, result_of, disk_of in *. rewrite RR.
  split; [exact R1|]. split; [exact D1|]. split; [exact HR|]. split; [exact HA|]. split; [exact HS|]. split.
  - intros k N1 N2. apply HO; [exact N1|]. unfold sks. destruct (add_last c); [|intros []]. intros H. apply N2. auto.
  - intros j. try rewrite RR. destruct (C1 j) as [g' [a [b [Q [Hq [Ha [Hb [Hcc Bt]]]]]]]]. exists g', a, b.
    split; [exact Q|]. split; [exact Hq|]. split; [exact Ha|]. split; [exact Hb|]. split; [exact Hcc|].
    apply (between_torn ds _ f g' l a b FL Bt).
Qed.
End RunProps.
