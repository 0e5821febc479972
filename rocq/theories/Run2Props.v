(** run2.py: what a fresh and a continued run leave in the file. *)
From Coq Require Import Arith ZArith Bool String List Lia.
From Verif Require Import Num NdArray ModelIO ModelRun SpecIO SpecRun IOFacts BufFacts RunFacts RunFiles RunProps PropsFacts RunFull.
Import ListNotations.

Lemma fr_inj p q : fr p = fr q -> p = q.
Proof. unfold fr. cbn. intros H. injection H as H. exact H. Qed.
Lemma fr_field p : ~ In (fr p) field_keys.
Proof. cbn. unfold fr. intuition discriminate. Qed.
Lemma fr_state p : ~ In (fr p) state_keys.
Proof. cbn. unfold fr. intuition discriminate. Qed.
Lemma fr_nodup l : NoDup l -> NoDup (map fr l).
Proof.
  induction l as [|p l IH]; intros N; [constructor|]. apply NoDup_cons_iff in N. destruct N as [N1 N2].
  cbn [map]. constructor; [|auto]. intros H. apply in_map_iff in H. destruct H as [q [E Hq]]. apply fr_inj in E. now subst.
Qed.
Lemma nodup_app {X} (l l' : list X) : NoDup l -> NoDup l' -> (forall x, In x l -> In x l' -> False) -> NoDup (l ++ l').
Proof.
  induction l as [|x l IH]; intros N N' D; [exact N'|]. apply NoDup_cons_iff in N. destruct N as [N1 N2].
  cbn [app]. constructor.
  - intros H. apply in_app_iff in H. destruct H as [H|H]; [contradiction|]. apply (D x); [now left|exact H].
  - apply IH; auto. intros y H H'. apply (D y); [now right|exact H'].
Qed.

Section Run2.
Context {V T : Type} {TN : TimeNum T}.
Variable s : sim V T.
Variable c : cfg V T.
Notation zl := (zero_like s).
Notation save_all := (save_all zl (s_f32V s) (s_f32T s) (c_blen c)).
Notation save_and_flush := (save_and_flush zl (s_f32V s) (s_f32T s) (c_blen c)).
Notation column := (column zl (s_f32V s) (s_f32T s)).
Hypothesis HP : NoDup (c_props c).

Notation ks2 := (SpecRun.ks2 c).
Notation has_props := (SpecRun.has_props s c).
Notation records2 := (SpecRun.records2 s c).
Notation goes2 := (SpecRun.goes2 s c).
Notation props_apart := (SpecRun.props_apart c).

Definition items2 (l : log V T) : list (item V T) :=
  map (fun tp => item_of c (new_val_of_2 s c (snd tp) (fst tp)) (snd tp)) l.

Lemma fullres_ok pv pl : has_props pv pl ->
  forall ps, (forall p, In p ps -> In p (c_props c)) -> fullres s c ps pl = Ok (map (fun p => (fr p, RNum (pv pl p))) ps).
Proof.
  intros H. induction ps as [|p ps IH]; intros Hs; [reflexivity|]. cbn [fullres map].
  rewrite (H p (Hs p (or_introl eq_refl))). cbn [bind]. rewrite IH by (intros q Hq; apply Hs; now right). reflexivity.
Qed.

Lemma new_val2_ok ds pv pl t : downsampled c ds pl -> has_props pv pl ->
  new_val_of_2 s c pl t = Ok ([("density", RFrame (ds (p_density pl))); ("omega", RFrame (ds (p_omega pl)));
     ("phi", RFrame (ds (p_phi pl))); ("time", RNum t)]%string ++ map (fun p => (fr p, RNum (pv pl p))) (c_props c))%list.
Proof.
  intros H H'. unfold new_val_of_2. rewrite (new_val_ok c ds pl t H). cbn [bind].
  rewrite (fullres_ok pv pl H' (c_props c)) by auto. reflexivity.
Qed.

Lemma dget_app {X} (d d' : list (string * X)) k :
  dget (d ++ d') k = match dget d k with Some v => Some v | None => dget d' k end.
Proof.
  induction d as [|[k0 v0] d IH]; [reflexivity|]. cbn [app dget]. destruct (String.eqb k k0); [reflexivity|exact IH].
Qed.
Lemma dget_frs {X} (g : string -> X) ps p : In p ps -> dget (map (fun p => (fr p, g p)) ps) (fr p) = Some (g p).
Proof.
  induction ps as [|q ps IH]; intros H; [destruct H|]. cbn [map dget].
  destruct (String.eqb_spec (fr p) (fr q)) as [E|E]; [apply fr_inj in E; now subst|].
  apply IH. destruct H as [->|H]; [contradiction|exact H].
Qed.

Definition good2 (ds : V -> V) (pv : plasma V T -> string -> T) (tp : T * plasma V T) : Prop :=
  downsampled c ds (snd tp) /\ has_props pv (snd tp).

Lemma items2_complete ds pv l : Forall (good2 ds pv) l -> complete ks2 (sks c) (items2 l).
Proof.
  intros H. apply Forall_forall. intros it Hit. apply in_map_iff in Hit. destruct Hit as [tp [<- Htp]].
  rewrite Forall_forall in H. destruct (H tp Htp) as [H1 H2]. unfold item_of. cbn [fst snd]. rewrite (new_val2_ok ds pv _ _ H1 H2). split.
  - intros k Hk. rewrite dget_app. apply in_app_iff in Hk. destruct Hk as [Hk|Hk].
    + cbn in Hk. intuition (subst; eexists; reflexivity).
    + apply in_map_iff in Hk. destruct Hk as [p [<- Hp]]. rewrite (dget_frs _ _ _ Hp). destruct (dget _ (fr p)); eauto.
  - unfold last_state_of, sks. destruct (add_last c); reflexivity.
Qed.
Lemma items2_column ds pv l k : Forall (good2 ds pv) l -> In k field_keys ->
  column k (items2 l) = map (fun tp => frame_row s ds (fst tp) (snd tp) k) l.
Proof.
  intros H Hk. unfold SpecIO.column, items2. rewrite map_map. apply map_ext_in. intros tp Htp.
  rewrite Forall_forall in H. destruct (H tp Htp) as [H1 H2]. unfold stored, item_of. cbn [fst]. rewrite (new_val2_ok ds pv _ _ H1 H2).
  rewrite dget_app. cbn in Hk. intuition (subst; reflexivity).
Qed.
Lemma items2_column_fr ds pv l p : Forall (good2 ds pv) l -> In p (c_props c) ->
  column (fr p) (items2 l) = map (fun tp => RNum (s_f32T s (pv (snd tp) p))) l.
Proof.
  intros H Hk. unfold SpecIO.column, items2. rewrite map_map. apply map_ext_in. intros tp Htp.
  rewrite Forall_forall in H. destruct (H tp Htp) as [H1 H2]. unfold stored, item_of. cbn [fst]. rewrite (new_val2_ok ds pv _ _ H1 H2).
  rewrite dget_app. change (dget _ (fr p)) with (@None (row V T)) at 1. now rewrite (dget_frs _ _ _ Hk).
Qed.
Lemma items2_length l : length (items2 l) = length l.
Proof. apply map_length. Qed.
Lemma items2_state f l m k : add_last c = true -> In k state_keys ->
  state_after f (items2 l) m k = match m with
    | 0 => dget (dsets f) k
    | S m' => match nth_error l m' with Some tp => Some (Whole (state_of (snd tp) k)) | None => None end end.
Proof.
  intros Ha Hk. destruct m as [|m]; [reflexivity|]. cbn [state_after]. unfold items2. rewrite nth_error_map.
  destruct (nth_error l m) as [tp|]; [|reflexivity]. cbn [option_map item_of snd]. unfold last_state_of. rewrite Ha.
  cbn in Hk. intuition (subst; reflexivity).
Qed.

(** the buffer *)
Lemma buffer2_shape (ps : list string) : forall b : buffer V T, NoDup ps -> (forall p, In p ps -> ~ In (fr p) (keys b)) ->
  (forall k rows, In (k, rows) b -> length rows = c_blen c) ->
  let b' := fold_left (fun b n => dset_ b (fr n) (repeat (zl (fr n)) (c_blen c))) ps b in
  keys b' = (keys b ++ map fr ps)%list /\ (forall k rows, In (k, rows) b' -> length rows = c_blen c).
Proof.
  induction ps as [|p ps IH]; intros b N H L b'; unfold b'; clear b'.
  - cbn [fold_left map]. rewrite app_nil_r. auto.
  - apply NoDup_cons_iff in N. destruct N as [N1 N2]. cbn [fold_left].
    assert (Dn : forall b : buffer V T, ~ In (fr p) (keys b) -> dset_ b (fr p) (repeat (zl (fr p)) (c_blen c)) = (b ++ [(fr p, repeat (zl (fr p)) (c_blen c))])%list).
    { clear. induction b as [|[k r] b IH]; intros H; [reflexivity|]. cbn [dset_ app]. destruct (String.eqb_spec (fr p) k) as [E|_].
      - exfalso. apply H. left. now symmetry.
      - rewrite IH; [reflexivity|]. intros H'. apply H. now right. }
    rewrite Dn by (apply H; now left).
    destruct (IH (b ++ [(fr p, repeat (zl (fr p)) (c_blen c))])%list N2) as [K Q].
    + intros q Hq Hin. unfold keys in Hin. rewrite map_app in Hin. apply in_app_iff in Hin. destruct Hin as [Hin|Hin].
      * apply (H q); [now right|exact Hin].
      * cbn in Hin. destruct Hin as [Hin|[]]. apply fr_inj in Hin. now subst.
    + intros k rows Hin. apply in_app_iff in Hin. destruct Hin as [Hin|[Hin|[]]]; [now apply (L k)|].
      injection Hin as _ <-. apply repeat_length.
    + split; [|exact Q]. rewrite K. unfold keys. rewrite map_app, <- app_assoc. reflexivity.
Qed.
Lemma buffer2_ok : keys (buffer0_2 s c) = ks2 /\ (forall k rows, In (k, rows) (buffer0_2 s c) -> length rows = c_blen c).
Proof.
  apply (buffer2_shape (c_props c) (buffer0 s c) HP).
  - intros p Hp. apply fr_field.
  - intros k rows H. unfold buffer0 in H. apply in_map_iff in H. destruct H as [n [E _]]. injection E as _ <-. apply repeat_length.
Qed.
Lemma ks2_nodup : NoDup ks2.
Proof.
  apply nodup_app; [exact fields_nodup|now apply fr_nodup|]. intros x H H'. apply in_map_iff in H'. destruct H' as [p [<- _]]. now apply fr_field in H.
Qed.
Lemma ready_file2 old (f : h5 V T) : 1 <= c_blen c ->
  (forall k, In k ks2 -> dget (dsets f) k = Some (Rows (old k))) ->
  (add_last c = true -> forall k, In k state_keys -> exists v, dget (dsets f) k = Some (Whole v)) ->
  ready (c_blen c) ks2 (sks c) old f (buffer0_2 s c).
Proof.
  intros HB HR HS. destruct buffer2_ok as [K L]. constructor; auto.
  - exact ks2_nodup.
  - apply sks_nodup.
  - intros k. unfold sks. destruct (add_last c); [now apply HS|intros []].
Qed.

Lemma holds_records2 ds pv old f0 g l a st : Forall (good2 ds pv) l ->
  holds zl (s_f32V s) (s_f32T s) ks2 (sks c) old f0 g (items2 l) a st ->
  records2 ds pv old g (firstn a l) /\ attrs g = attrs f0 /\
  (add_last c = true -> holds_state (dget (dsets f0)) g l st).
Proof.
  intros F [A [R [S O]]]. split; [split|split; [exact A|]].
  - intros k Hk. rewrite (R k) by (apply in_app_iff; now left). rewrite (items2_column ds pv l k F Hk). now rewrite firstn_map.
  - intros p Hp. rewrite (R (fr p)) by (apply in_app_iff; right; now apply in_map). rewrite (items2_column_fr ds pv l p F Hp). now rewrite firstn_map.
  - intros Ha k Hk. rewrite S by (unfold sks; now rewrite Ha). now apply items2_state.
Qed.

Lemma loop_log_good2 ds pv time traj n : (forall j, 1 <= j <= n -> downsampled c ds (traj j) /\ has_props pv (traj j)) ->
  Forall (good2 ds pv) (loop_log c time traj n).
Proof.
  intros H. apply Forall_forall. intros tp Htp. apply in_map_iff in Htp. destruct Htp as [j [<- Hj]].
  apply H. now apply (frames_range c time).
Qed.
Lemma items2_loop time traj n :
  map (fun j => item_of c (new_val_of_2 s c (traj j) (time j)) (traj j)) (frames c time n) = items2 (loop_log c time traj n).
Proof. unfold items2, loop_log. now rewrite map_map. Qed.

Definition finish (cur : T) (bi : buffer V T * nat) : IO V T unit :=
  if nltb (c_rec c) cur && (0 <? snd bi) then append_h5 zl (fst bi) (snd bi) else iret tt.

(** save the log and finish: all entries, or only the full buffers *)
Lemma save_finish ds pv old f l cur : ready (c_blen c) ks2 (sks c) old f (buffer0_2 s c) -> Forall (good2 ds pv) l ->
  let B := c_blen c in
  let m := if nltb (c_rec c) cur then length l else B * (length l / B) in
  exists tr g, runs (ibind (save_all (items2 l) (buffer0_2 s c, 0)) (finish cur)) (Some f) tr (Some g) (Ok tt)
    /\ records2 ds pv old g (firstn m l) /\ attrs g = attrs f
    /\ (add_last c = true -> holds_state (dget (dsets f)) g l (B * (length l / B))).
Proof.
  intros RD FL B m. unfold finish, m. destruct (nltb (c_rec c) cur).
  - cbn [andb]. destruct (save_and_flush_spec zl (s_f32V s) (s_f32T s) _ _ _ _ _ _ (items2 l) RD (items2_complete ds pv l FL)) as [g [R1 [D1 [H1 _]]]].
    rewrite items2_length in *. unfold result_of, disk_of in R1, D1.
    destruct (save_and_flush (items2 l) (buffer0_2 s c, 0) (Some f)) as [[tr d] r] eqn:E. cbn [fst snd] in R1, D1. subst d r.
    exists tr, g. split; [exact E|]. destruct (holds_records2 ds pv old f g l _ _ FL H1) as [Q1 [Q2 Q3]]. auto.
  - cbn [andb]. destruct (save_all_spec zl (s_f32V s) (s_f32T s) _ _ _ _ _ _ (items2 l) RD (items2_complete ds pv l FL)) as [g [b [i [R1 [D1 [_ [_ H1]]]]]]].
    rewrite items2_length in *. unfold result_of, disk_of in R1, D1.
    destruct (save_all (items2 l) (buffer0_2 s c, 0) (Some f)) as [[tr d] r] eqn:E. cbn [fst snd] in R1, D1. subst d r.
    exists (tr ++ [])%list, g. split; [eapply runs_bind; [exact E|apply runs_ret]|].
    destruct (holds_records2 ds pv old f g l _ _ FL H1) as [Q1 [Q2 Q3]]. auto.
Qed.

Lemma run2_simulate_eq st phi traj n ds pv fuel fs : c_output c = true ->
  goes2 (st_phys st) (st_time st) (st_plasma st) phi traj n ds pv -> n < fuel ->
  run2_simulate s c fuel st fs =
  ibind (save_all (items2 (loop_log c (time2 c (st_time st)) traj n)) (st_buf st, st_idx st)) (finish (time2 c (st_time st) n)) fs.
Proof.
  intros Ho [G1 [G2 [G3 G4]]] Hf.
  rewrite (run2_simulate_saves s c st phi traj
     (fun j => ([("density", RFrame (ds (p_density (traj j)))); ("omega", RFrame (ds (p_omega (traj j))));
     ("phi", RFrame (ds (p_phi (traj j)))); ("time", RNum (time2 c (st_time st) j))]%string ++ map (fun p => (fr p, RNum (pv (traj j) p))) (c_props c))%list)
     n fuel fs Ho G1 G2); [now rewrite items2_loop| |exact G4|exact Hf].
  intros j Hj _. destruct (G3 j Hj) as [H1 H2]. apply (new_val2_ok ds pv _ _ H1 H2).
Qed.

Lemma not_in_props k : (forall p, In p (c_props c) -> p <> k) -> existsb (String.eqb k) (c_props c) = false.
Proof. intros H. apply existsb_false. intros Hk. now apply (H k Hk). Qed.

Lemma records2_rows ds pv old g l : records2 ds pv old g l -> (forall k k', In k field_keys -> In k' field_keys -> length (old k) = length (old k')) ->
  let rows k := (old k ++ map (fun tp => frame_row s ds (fst tp) (snd tp) k) l)%list in
  dget (dsets g) "density" = Some (Rows (rows "density"%string)) /\ dget (dsets g) "phi" = Some (Rows (rows "phi"%string)) /\
  dget (dsets g) "omega" = Some (Rows (rows "omega"%string)) /\
  length (rows "density"%string) = length (rows "phi"%string) /\ length (rows "phi"%string) = length (rows "omega"%string).
Proof.
  intros [R _] L rows. assert (Lr : forall k k', In k field_keys -> In k' field_keys -> length (rows k) = length (rows k')).
  { intros k k' H H'. unfold rows. rewrite !app_length, !map_length, (L k k' H H'). reflexivity. }
  repeat split; try (apply R; cbn; tauto); apply Lr; cbn; tauto.
Qed.

(** simulation from a ready file, then the properties *)
Lemma run2_tail P st phi traj n ds pv fuel f old l0 tbl :
  c_output c = true -> 1 <= c_blen c -> ready (c_blen c) ks2 (sks c) old f (buffer0_2 s c) ->
  (forall k k', In k field_keys -> In k' field_keys -> length (old k) = length (old k')) ->
  Forall (good2 ds pv) l0 -> props_apart -> props_fine s c P (attrs f) tbl ->
  goes2 (st_phys st) (st_time st) (st_plasma st) phi traj n ds pv -> n < fuel ->
  let l := (l0 ++ loop_log c (time2 c (st_time st)) traj n)%list in
  let B := c_blen c in
  let m := if nltb (c_rec c) (time2 c (st_time st) n) then length l else B * (length l / B) in
  frames_P P (fun k => (old k ++ map (fun tp => frame_row s ds (fst tp) (snd tp) k) (firstn m l))%list) ->
  exists tr g, runs (ibind (ibind (save_all (items2 l0) (buffer0_2 s c, 0)) (fun bi => run2_simulate s c fuel (mkStart (st_plasma st) (st_phys st) (st_time st) (fst bi) (snd bi))))
       (fun _ => run_properties_ s c)) (Some f) tr (Some g) (Ok tt)
    /\ records2 ds pv old g (firstn m l) /\ attrs g = attrs f
    /\ (add_last c = true -> holds_state (dget (dsets f)) g l (B * (length l / B)))
    /\ (forall k, In k (c_props c) -> dget (dsets g) k = Some (Rows (prop_rows zl (s_f32V s) (s_f32T s) tbl
           (old "density" ++ map (fun tp => frame_row s ds (fst tp) (snd tp) "density") (firstn m l))
           (old "phi" ++ map (fun tp => frame_row s ds (fst tp) (snd tp) "phi") (firstn m l))
           (old "omega" ++ map (fun tp => frame_row s ds (fst tp) (snd tp) "omega") (firstn m l)) k))%string).
Proof.
  intros Ho HB RD HL F0 Hap Hpf Hg Hf l B m HPf.
  assert (FL : Forall (good2 ds pv) l).
  { unfold l. apply Forall_app. split; [exact F0|]. apply loop_log_good2. apply Hg. }
  destruct (save_finish ds pv old f l (time2 c (st_time st) n) RD FL) as [tr [g [R [Rec [A S]]]]]. fold B m in Rec, S.
  assert (RR : runs (ibind (save_all (items2 l0) (buffer0_2 s c, 0)) (fun bi => run2_simulate s c fuel (mkStart (st_plasma st) (st_phys st) (st_time st) (fst bi) (snd bi)))) (Some f) tr (Some g) (Ok tt)).
  { unfold runs. rewrite <- R. unfold l, items2. rewrite map_app. fold (items2 l0) (items2 (loop_log c (time2 c (st_time st)) traj n)).
    assert (SA : forall l1 l2 bi fs, save_all (l1 ++ l2) bi fs = ibind (save_all l1 bi) (save_all l2) fs).
    { clear. induction l1 as [|it l1 IH]; intros l2 bi fs; cbn [app SpecIO.save_all]; [now rewrite bind_ret_l|].
      rewrite bind_assoc. apply bind_ext. intros x fs'. apply IH. }
    rewrite (bind_cong _ _ _ _ (SA _ _ _ _)), bind_assoc. apply bind_ext. intros [b i] fs'. cbn [fst snd].
    rewrite (run2_simulate_eq (mkStart (st_plasma st) (st_phys st) (st_time st) b i) phi traj n ds pv fuel fs' Ho Hg Hf). reflexivity. }
  destruct (records2_rows ds pv old g _ Rec HL) as [Rn [Rp [Ro [L1 L2]]]].
  destruct (props_after s c P g tbl _ _ _ HB ltac:(rewrite A; exact Hpf) Rn Rp Ro L1 L2 (HPf "density"%string ltac:(cbn; tauto)) (HPf "phi"%string ltac:(cbn; tauto)) (HPf "omega"%string ltac:(cbn; tauto))) as [tr' [g' [R' [A' G']]]].
  exists (tr ++ tr')%list, g'. split; [eapply runs_bind; [exact RR|exact R']|].
  assert (Keep : forall k, In k ks2 \/ In k state_keys -> dget (dsets g') k = dget (dsets g) k).
  { intros k Hk. rewrite G'. rewrite not_in_props; [reflexivity|]. intros p Hp ->. destruct (Hap k Hp). tauto. }
  split; [split|split; [congruence|split]].
  - intros k Hk. rewrite Keep by (left; apply in_app_iff; now left). now apply Rec.
  - intros p Hp. rewrite Keep by (left; apply in_app_iff; right; now apply in_map). now apply Rec.
  - intros Ha k Hk. rewrite Keep by now right. now apply S.
  - intros k Hk. rewrite G', (existsb_true k _ Hk). reflexivity.
Qed.

(** ** A fresh run of run2 *)
Lemma run2_fresh P pl0 phi traj n ds pv fuel fs tbl q :
  c_output c = true -> (fs = None \/ c_force c = true) -> 1 <= c_blen c -> (c_snaps c =? 0)%Z = false ->
  t_int (ndiv (c_end c) (c_step c)) = Ok q ->
  NoDup (keys (c_phys c)) -> downsampled c ds pl0 -> has_props pv pl0 ->
  props_apart -> props_fine s c P (save_params_of c (c_phys c) (c_adaptive c)) tbl ->
  goes2 (c_phys c) (nofZ 0) pl0 phi traj n ds pv -> n < fuel ->
  let l := fresh_log c pl0 (time2 c (nofZ 0)) traj n in
  let B := c_blen c in
  let m := if nltb (c_rec c) (time2 c (nofZ 0) n) then length l else B * (length l / B) in
  frames_P P (fun k => map (fun tp => frame_row s ds (fst tp) (snd tp) k) (firstn m l)) ->
  exists g, result_of (run2 s c fuel pl0) fs = Ok tt /\ disk_of (run2 s c fuel pl0) fs = Some g
    /\ records2 ds pv (fun _ => []) g (firstn m l) /\ attrs g = save_params_of c (c_phys c) (c_adaptive c)
    /\ (add_last c = true -> holds_state (fun _ => Some (Whole (s_zeroV s))) g l (B * (length l / B)))
    /\ (forall k, In k (c_props c) -> dget (dsets g) k = Some (Rows (prop_rows zl (s_f32V s) (s_f32T s) tbl
           (map (fun tp => frame_row s ds (fst tp) (snd tp) "density") (firstn m l))
           (map (fun tp => frame_row s ds (fst tp) (snd tp) "phi") (firstn m l))
           (map (fun tp => frame_row s ds (fst tp) (snd tp) "omega") (firstn m l)) k))%string).
Proof.
  intros Ho Hfs HB Hsn Hq HN Hd0 Hp0 Hap Hpf Hg Hf l B m HPf.
  destruct (create_ok zl (s_zeroV s) (save_params_of c (c_phys c) (c_adaptive c)) ("time"%string :: map fr (c_props c)) (add_last c) fs) as [f0 [tr0 [R0 [G0 [A0 _]]]]].
  { constructor; [|now apply fr_nodup]. intros H. apply in_map_iff in H. destruct H as [p [H _]]. discriminate H. }
  { intros p [<-|H] H'.
    - cbn in H'. intuition discriminate.
    - apply in_map_iff in H. destruct H as [q' [<- _]]. apply in_app_iff in H'. destruct H' as [H'|H'].
      + cbn in H'. unfold fr in H'. intuition discriminate.
      + now apply fr_state in H'. }
  { apply save_params_nodup. exact HN. }
  assert (RD : ready (c_blen c) ks2 (sks c) (fun _ => []) f0 (buffer0_2 s c)).
  { apply ready_file2; [exact HB| |].
    - intros k Hk. rewrite G0. unfold fresh_dset.
      assert (E : existsb (String.eqb k) (f3 ++ "time"%string :: map fr (c_props c)) = true).
      { apply existsb_true. unfold ks2 in Hk. apply in_app_iff in Hk. apply in_app_iff. cbn in Hk |- *. tauto. }
      now rewrite E.
    - intros Ha k Hk. exists (s_zeroV s). rewrite G0, Ha. unfold fresh_dset.
      assert (E : existsb (String.eqb k) (f3 ++ "time"%string :: map fr (c_props c)) = false).
      { apply existsb_false. intros H. apply in_app_iff in H. destruct H as [H|[H|H]].
        - cbn in H, Hk. intuition (subst; discriminate).
        - cbn in Hk. intuition (subst; discriminate).
        - apply in_map_iff in H. destruct H as [p [<- _]]. now apply fr_state in Hk. }
      rewrite E, (existsb_true k state_keys Hk). reflexivity. }
  set (l0 := if truthy (c_rec c) then [] else [(nofZ 0, pl0)] : log V T).
  assert (F0 : Forall (good2 ds pv) l0).
  { unfold l0. destruct (truthy (c_rec c)); constructor; [split; assumption|constructor]. }
  destruct (run2_tail P (mkStart pl0 (c_phys c) (nofZ 0) [] 0) phi traj n ds pv fuel f0 (fun _ => []) l0 tbl Ho HB RD ltac:(reflexivity) F0 Hap ltac:(rewrite A0; exact Hpf) Hg Hf HPf)
    as [tr1 [g [R1 [Rec [A1 [S1 P1]]]]]].
  cbn [st_plasma st_phys st_time] in *. fold (fresh_log c pl0 (time2 c (nofZ 0)) traj n) in Rec, S1, P1.
  change (l0 ++ loop_log c (time2 c (nofZ 0)) traj n)%list with l in *. fold B m in Rec, S1, P1.
  assert (RR : runs (run2 s c fuel pl0) fs (tr0 ++ tr1) (Some g) (Ok tt)).
  { unfold runs, run2. rewrite Hq, bind_lift_ok, Hsn, Ho. cbn [negb]. unfold run2_files.
    assert (E : ibind iget (fun fs => match fs, c_force c with Some _, false => run_continue s c (buffer0_2 s c)
                | _, _ => ibind (run2_create s c pl0) (fun st => iret (Some st)) end) fs
              = ibind (run2_create s c pl0) (fun st => iret (Some st)) fs).
    { rewrite bind_get. destruct Hfs as [->| ->]; [reflexivity|]. destruct fs; reflexivity. }
    rewrite (bind_cong _ _ _ fs E). unfold run2_create. rewrite !bind_assoc.
    match goal with |- ?m ?fs = ((?tr, ?fs'), ?r) => change (runs m fs tr fs' r) end.
    eapply runs_bind; [exact R0|]. cbv zeta. unfold runs. rewrite <- R1. unfold l0. destruct (truthy (c_rec c)).
    - rewrite !bind_ret_l. cbn [items2 map]. rewrite bind_assoc. unfold items2. cbn [map SpecIO.save_all]. now rewrite bind_ret_l.
    - unfold items2. cbn [map SpecIO.save_all fst snd]. rewrite !bind_assoc.
      rewrite (bind_cong _ _ _ (Some f0) (save_frame_eq s c _ pl0 (buffer0_2 s c, 0) (Some f0) _ (new_val2_ok ds pv pl0 _ Hd0 Hp0))).
      cbn [fst snd]. apply bind_ext. intros [b i] fs'. rewrite !bind_ret_l. reflexivity. }
  exists g. unfold result_of, disk_of. rewrite RR. cbn [fst snd].
  split; [reflexivity|]. split; [reflexivity|]. split; [exact Rec|]. split; [congruence|]. split; [|exact P1].
  intros Ha k Hk. rewrite (S1 Ha k Hk). destruct (B * (length l / B)); [|reflexivity].
  destruct (rd_state _ _ _ _ _ _ RD k) as [v Ev]; [unfold sks; now rewrite Ha|].
  rewrite G0 in Ev |- *. unfold fresh_dset in *. destruct (existsb (String.eqb k) (f3 ++ "time"%string :: map fr (c_props c))); [discriminate|].
  rewrite Ha, (existsb_true k state_keys Hk). reflexivity.
Qed.

(** ** A continued run of run2 *)
Lemma run2_continued P pl0 f phys pl phi traj n ds pv fuel old tbl q :
  c_output c = true -> c_force c = false -> c_continue c = true -> 1 <= c_blen c -> (c_snaps c =? 0)%Z = false ->
  t_int (ndiv (c_end c) (c_step c)) = Ok q ->
  continues s f phys pl ->
  (forall k, In k ks2 -> dget (dsets f) k = Some (Rows (old k))) ->
  (forall k k', In k field_keys -> In k' field_keys -> length (old k) = length (old k')) ->
  (add_last c = true -> forall k, In k state_keys -> exists v, dget (dsets f) k = Some (Whole v)) ->
  props_apart -> props_fine s c P (attrs f) tbl ->
  goes2 phys (p_age pl) pl phi traj n ds pv -> n < fuel ->
  let l := loop_log c (time2 c (p_age pl)) traj n in
  let B := c_blen c in
  let m := if nltb (c_rec c) (time2 c (p_age pl) n) then length l else B * (length l / B) in
  frames_P P (fun k => (old k ++ map (fun tp => frame_row s ds (fst tp) (snd tp) k) (firstn m l))%list) ->
  exists g, result_of (run2 s c fuel pl0) (Some f) = Ok tt /\ disk_of (run2 s c fuel pl0) (Some f) = Some g
    /\ records2 ds pv old g (firstn m l) /\ attrs g = attrs f
    /\ (add_last c = true -> holds_state (dget (dsets f)) g l (B * (length l / B)))
    /\ (forall k, In k (c_props c) -> dget (dsets g) k = Some (Rows (prop_rows zl (s_f32V s) (s_f32T s) tbl
           (old "density" ++ map (fun tp => frame_row s ds (fst tp) (snd tp) "density") (firstn m l))
           (old "phi" ++ map (fun tp => frame_row s ds (fst tp) (snd tp) "phi") (firstn m l))
           (old "omega" ++ map (fun tp => frame_row s ds (fst tp) (snd tp) "omega") (firstn m l)) k))%string).
Proof.
  intros Ho Hfo Hc HB Hsn Hq Hk Hold HL Hst Hap Hpf Hg Hf l B m HPf.
  assert (RD : ready (c_blen c) ks2 (sks c) old f (buffer0_2 s c)) by (now apply ready_file2).
  destruct (run2_tail P (mkStart pl phys (p_age pl) [] 0) phi traj n ds pv fuel f old [] tbl Ho HB RD HL ltac:(constructor) Hap Hpf Hg Hf HPf)
    as [tr1 [g [R1 [Rec [A1 [S1 P1]]]]]].
  cbn [st_plasma st_phys st_time app] in *. fold l in Rec, S1, P1. fold B m in Rec, S1, P1.
  assert (RR : runs (run2 s c fuel pl0) (Some f) tr1 (Some g) (Ok tt)).
  { unfold runs, run2. rewrite Hq, bind_lift_ok, Hsn, Ho. cbn [negb]. unfold run2_files.
    assert (E : ibind iget (fun fs => match fs, c_force c with Some _, false => run_continue s c (buffer0_2 s c)
                | _, _ => ibind (run2_create s c pl0) (fun st => iret (Some st)) end) (Some f)
              = ilift (Ok (Some (mkStart pl phys (p_age pl) (buffer0_2 s c) 0))) (Some f)).
    { rewrite bind_get, Hfo. apply (run_continue_eq s c f phys pl _ Hc Hk). }
    rewrite (bind_cong _ _ _ _ E), bind_lift_ok. rewrite <- R1. unfold items2. cbn [map SpecIO.save_all]. rewrite bind_assoc.
    now rewrite bind_ret_l. }
  exists g. unfold result_of, disk_of. rewrite RR. cbn [fst snd].
  split; [reflexivity|]. split; [reflexivity|]. split; [exact Rec|]. split; [exact A1|]. split; [exact S1|exact P1].
Qed.
End Run2.
