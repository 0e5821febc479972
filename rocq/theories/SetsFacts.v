(** No driver creates a dataset other than its own. *)
From Coq Require Import Arith ZArith Bool String List Lia.
From Verif Require Import Num NdArray ModelIO ModelRun SpecIO SpecRun SpecSets IOFacts BufFacts RunFiles KeepFacts RunForce RunFull Run2Props RunTop2.
Import ListNotations.

Section Sets.
Context {V T : Type}.
Variable K : string -> Prop.
(** every dataset was there before or is one of [K] *)
Definition sets_from (fs fs' : disk V T) : Prop :=
  forall g' k, fs' = Some g' -> dget (dsets g') k <> None -> (exists g, fs = Some g /\ dget (dsets g) k <> None) \/ K k.
#[export] Instance sets_pre : PreO sets_from.
Proof.
  constructor.
  - intros fs g' k -> H. left. eauto.
  - intros a b c H1 H2 g' k -> H. destruct (H2 g' k eq_refl H) as [(g & -> & Hg)|Hp]; [|now right]. exact (H1 g k eq_refl Hg).
Qed.
Variable zl : string -> row V T.
Notation keeps := (keeps zl sets_from).
Lemma sets_same f g : (forall k, dget (dsets g) k <> None -> dget (dsets f) k <> None \/ K k) -> sets_from (Some f) (Some g).
Proof. intros E g' k H. injection H as <-. intros H. destruct (E k H); eauto. Qed.
Lemma sets_empty fs a : sets_from fs (Some (mkH5 [] a)).
Proof. intros g' k H. injection H as <-. intros H. now contradiction H. Qed.
Lemma sets_on_ds f name g fs' : @on_ds V T f name g = Ok fs' -> sets_from (Some f) fs'.
Proof.
  unfold on_ds, dlook. destruct (dget (dsets f) name) as [d|] eqn:E; cbn [bind]; [|discriminate]. destruct (g d) as [d'|]; cbn [bind]; [|discriminate].
  intros H. injection H as <-. apply sets_same. intros k. cbn [dsets]. destruct (String.eqb_spec name k) as [<-|N]; [intros _; left; congruence|].
  rewrite dget_dset_other by congruence. now left.
Qed.
Lemma op_sets o : match o with CreateDs k _ => K k | _ => True end -> keeps (iop zl o).
Proof.
  intros Ho. apply (keeps_op zl sets_from). intros [f|] fs' E; destruct o; cbn in E; try discriminate;
    try (injection E as <-; (apply sets_empty || now apply sets_same; auto)); try now apply sets_on_ds in E.
  - destruct (dhas _ _); [discriminate|]. injection E as <-. apply sets_same. intros k. cbn [dsets].
    destruct (String.eqb_spec name k) as [<-|N]; [intros _; now right|]. rewrite dget_dset_other by congruence. now left.
  - destruct (dhas _ _); [|discriminate]. injection E as <-. apply sets_same. intros k. cbn [dsets]. intros H. left. intros H'. apply H.
    destruct (String.eqb_spec name k) as [<-|N]; [now apply dget_ddel_same|]. rewrite dget_ddel_other by congruence. exact H'.
Qed.
End Sets.

Section SetsRun.
Context {V T : Type} {TN : TimeNum T}.
Variable s : sim V T.
Variable c : cfg V T.
Variable K : string -> Prop.
Notation zl := (zero_like s).
Notation RR := (sets_from K).
Notation keeps := (keeps zl RR).
Notation keeps_bind := (KeepFacts.keeps_bind zl RR).
Notation keeps_ret := (KeepFacts.keeps_ret zl RR).
Notation keeps_lift := (KeepFacts.keeps_lift zl RR).
Notation keeps_fail := (KeepFacts.keeps_fail zl RR).
Notation keeps_get := (KeepFacts.keeps_get zl RR).
Notation keeps_iseq := (KeepFacts.keeps_iseq zl RR).
Ltac op := apply op_sets; exact I.

Lemma k_append buf n : keeps (append_h5 zl buf n).
Proof.
  apply keeps_bind; [op|]. intros _. apply keeps_iseq. intros m Hm. apply in_map_iff in Hm. destruct Hm as [kv [<- _]].
  apply keeps_bind; [op|]. intros _. op.
Qed.
Lemma k_update ls : keeps (update_last_state zl ls).
Proof. apply keeps_bind; [op|]. intros _. apply keeps_iseq. intros m Hm. apply in_map_iff in Hm. destruct Hm as [kv [<- _]]. op. Qed.
Lemma k_frame nv pl bi : keeps (save_frame s c nv pl bi).
Proof.
  apply keeps_bind; [apply keeps_lift|]. intros x. apply keeps_bind; [apply keeps_lift|]. intros b. cbv zeta.
  destruct (_ =? _); [|apply keeps_ret]. apply keeps_bind; [apply k_append|]. intros _.
  apply keeps_bind; [|intros _; apply keeps_ret]. destruct (last_state_of c pl); [apply keeps_ret|apply k_update].
Qed.
Lemma k_loop phys k : forall it pl bi, keeps (run_loop s c phys k it pl bi).
Proof.
  induction k as [|k IH]; intros it pl bi; cbn [run_loop]; [apply keeps_ret|].
  apply keeps_bind; [apply keeps_lift|]. intros pl'. apply keeps_bind.
  - destruct (_ && _); [apply k_frame|apply keeps_ret].
  - intros bi'. destruct (s_nan _ _); [apply keeps_ret|apply IH].
Qed.
Lemma k_simulate st : keeps (run_simulate s c st).
Proof.
  apply keeps_bind; [apply keeps_lift|]. intros phi. apply keeps_bind; [apply keeps_lift|]. intros n.
  destruct (_ =? _)%Z; [apply keeps_fail|]. apply keeps_bind; [apply k_loop|]. intros bi.
  destruct (0 <? _); [apply k_append|apply keeps_ret].
Qed.
Hypothesis KP : forall p, In p (c_props c) -> K p.
Lemma k_props : keeps (run_properties_ s c).
Proof using KP.
  unfold run_properties_. destruct (c_props c) as [|p l]; [apply keeps_ret|].
  apply (keeps_calculate zl RR); [op|]. intros q Hq. split; [op|split; intros; [apply op_sets; now apply KP|op]].
Qed.
Lemma k_continue buf : keeps (run_continue s c buf).
Proof.
  unfold run_continue. destruct (c_continue c); [|apply keeps_ret]. apply keeps_bind; [apply keeps_get|]. intros fs.
  apply keeps_bind; [apply keeps_lift|]. intros [ld phys]. cbv zeta. apply keeps_bind; [apply keeps_lift|]. intros _. apply keeps_ret.
Qed.
Hypothesis KF : forall k, In k ["density"; "omega"; "phi"]%string -> K k.
Hypothesis KS : add_last c = true -> forall k, In k ["state_density"; "state_phi"; "state_omega"]%string -> K k.
Lemma k_create z P props : (forall k, In k props -> K k) -> keeps (create_appendable_h5 zl z P props (add_last c)).
Proof using KF KS.
  intros HP. apply keeps_bind; [op|]. intros _.
  apply keeps_bind; [apply keeps_iseq; intros m Hm; apply in_map_iff in Hm; destruct Hm as [kv [<- Hk]]; apply op_sets; now apply KF|]. intros _.
  apply keeps_bind; [apply keeps_iseq; intros m Hm; apply in_map_iff in Hm; destruct Hm as [kv [<- Hk]]; apply op_sets; now apply HP|]. intros _.
  apply keeps_bind.
  - destruct (add_last c); [|apply keeps_ret]. specialize (KS eq_refl). apply keeps_iseq; intros m Hm; apply in_map_iff in Hm; destruct Hm as [kv [<- Hk]].
    apply op_sets. apply KS. destruct Hk as [<-|[<-|[<-|[]]]]; cbn; auto.
  - intros _. apply keeps_iseq. intros m Hm. apply in_map_iff in Hm. destruct Hm as [[k a] [<- H]]. op.
Qed.
Lemma k_loop2 phys : forall fuel t0 it used cur pl bi, keeps (run2_loop s c phys fuel t0 it used cur pl bi).
Proof.
  induction fuel as [|fuel IH]; intros t0 it used cur pl bi; cbn [run2_loop]; destruct (nltb _ _); try apply keeps_ret; try apply keeps_fail.
  apply keeps_bind; [apply keeps_lift|]. intros pl'. cbv zeta. destruct (_ && _); [|apply IH].
  apply keeps_bind; [apply keeps_lift|]. intros nv. apply keeps_bind.
  - destruct (c_output c); [apply k_frame|apply keeps_ret].
  - intros bi'. destruct (s_nan _ _); [apply keeps_ret|apply IH].
Qed.
Lemma k_simulate2 fuel st : keeps (run2_simulate s c fuel st).
Proof.
  apply keeps_bind; [apply keeps_lift|]. intros phi. apply keeps_bind; [apply k_loop2|]. intros [cur bi].
  destruct (_ && _); [apply k_append|apply keeps_ret].
Qed.
Hypothesis KT : K "time"%string.
Lemma k_run pl0 : keeps (run s c pl0).
Proof using KP KF KS KT.
  unfold run. destruct (negb _); [apply keeps_fail|].
  apply keeps_bind.
  - apply keeps_bind; [apply keeps_get|]. intros fs.
    assert (C : keeps (ibind (run_create s c pl0) (fun st => iret (Some st)))).
    { apply keeps_bind; [|intros st; apply keeps_ret].
      apply keeps_bind; [apply k_create; intros k [<-|[]]; exact KT|]. intros _. cbv zeta. destruct (truthy _); [apply keeps_ret|].
      apply keeps_bind; [apply k_frame|]. intros bi. apply keeps_ret. }
    destruct fs as [f|]; [destruct (c_force c)|]; try exact C. apply k_continue.
  - intros [st|]; [|apply keeps_ret]. apply keeps_bind; [apply k_simulate|]. intros _. apply k_props.
Qed.
Hypothesis KR : forall p, In p (c_props c) -> K (String.append "fullres_" p).
Lemma k_run2 fuel pl0 : keeps (run2 s c fuel pl0).
Proof using KP KF KS KT KR.
  unfold run2. apply keeps_bind; [apply keeps_lift|]. intros q.
  destruct (_ =? _)%Z; [apply keeps_fail|]. destruct (negb _); [apply keeps_fail|].
  apply keeps_bind.
  - apply keeps_bind; [apply keeps_get|]. intros fs.
    assert (C : keeps (ibind (run2_create s c pl0) (fun st => iret (Some st)))).
    { apply keeps_bind; [|intros st; apply keeps_ret].
      apply keeps_bind. { apply k_create. intros k [<-|Hk]; [exact KT|]. apply in_map_iff in Hk. destruct Hk as [p [<- Hp]]. now apply KR. }
      intros _. cbv zeta. destruct (truthy _); [apply keeps_ret|].
      apply keeps_bind; [apply k_frame|]. intros bi. apply keeps_ret. }
    destruct fs as [f|]; [destruct (c_force c)|]; try exact C. apply k_continue.
  - intros [st|]; [|apply keeps_ret]. apply keeps_bind; [apply k_simulate2|]. intros _. apply k_props.
Qed.
End SetsRun.

Section SetsTop.
Context {V T : Type} {TN : TimeNum T}.
Variable s : sim V T.
Variable c : cfg V T.
Notation zl := (zero_like s).

Lemma add_last_keeps : add_last c = true <-> keeps_state c.
Proof.
  unfold add_last, keeps_state. destruct (c_down c); split; intros H; auto.
  - left. discriminate.
  - destruct H as [H|H]; [now contradiction H|exact H].
Qed.
Lemma doc_run pl0 : keeps zl (sets_from (documented c false)) (run s c pl0).
Proof.
  apply k_run.
  - intros p H. right. now left.
  - intros k H. left. cbn in *. tauto.
  - intros H k Hk. right. right. right. split; [now apply add_last_keeps|]. cbn in *. tauto.
  - left. cbn. tauto.
Qed.
Lemma doc_run2 fuel pl0 : keeps zl (sets_from (documented c true)) (run2 s c fuel pl0).
Proof.
  apply k_run2.
  - intros p H. right. now left.
  - intros k H. left. cbn in *. tauto.
  - intros H k Hk. right. right. right. split; [now apply add_last_keeps|]. cbn in *. tauto.
  - left. cbn. tauto.
  - intros p H. right. right. left. eauto.
Qed.
Lemma sets_run pl0 fs j g k : crash_after zl j (run s c pl0) fs = Some g -> dget (dsets g) k <> None ->
  (exists f, fs = Some f /\ dget (dsets f) k <> None) \/ documented c false k.
Proof. intros E. exact (proj2 (doc_run pl0) fs j g k E). Qed.
Lemma sets_run2 fuel pl0 fs j g k : crash_after zl j (run2 s c fuel pl0) fs = Some g -> dget (dsets g) k <> None ->
  (exists f, fs = Some f /\ dget (dsets f) k <> None) \/ documented c true k.
Proof. intros E. exact (proj2 (doc_run2 fuel pl0) fs j g k E). Qed.
Lemma sets_run_done pl0 fs g k : fs = None \/ (c_output c = true /\ c_force c = true) -> disk_of (run s c pl0) fs = Some g -> dget (dsets g) k <> None ->
  documented c false k.
Proof.
  intros Hf E H. assert (E' : disk_of (run s c pl0) None = Some g).
  { destruct fs as [f|]; [|exact E]. destruct Hf as [Hf|[Ho Hf]]; [discriminate|]. unfold disk_of in *. now rewrite <- (run_forced s c pl0 f Ho Hf). }
  destruct (doc_run pl0) as [F KK]. rewrite <- (crash_all zl _ _ _ F (le_n _)) in E'. destruct (KK None _ _ _ E' H) as [(f & X & _)|D]; [discriminate|exact D].
Qed.
Lemma sets_run2_done fuel pl0 fs g k q : fs = None \/ (c_output c = true /\ c_force c = true /\ t_int (ndiv (c_end c) (c_step c)) = Ok q /\ (c_snaps c =? 0)%Z = false) ->
  disk_of (run2 s c fuel pl0) fs = Some g -> dget (dsets g) k <> None -> documented c true k.
Proof.
  intros Hf E H. assert (E' : disk_of (run2 s c fuel pl0) None = Some g).
  { destruct fs as [f|]; [|exact E]. destruct Hf as [Hf|[Ho [Hf [Hq Hs]]]]; [discriminate|]. unfold disk_of in *. now rewrite <- (run2_forced s c fuel pl0 f q Ho Hq Hs Hf). }
  destruct (doc_run2 fuel pl0) as [F KK]. rewrite <- (crash_all zl _ _ _ F (le_n _)) in E'. destruct (KK None _ _ _ E' H) as [(f & X & _)|D]; [discriminate|exact D].
Qed.
(** the state is kept *)
Lemma state_run P pl0 phi traj steps n ds fs tbl :
  c_output c = true -> (fs = None \/ c_force c = true) -> 1 <= c_blen c -> (c_snaps c =? 0)%Z = false -> NoDup (keys (c_phys c)) ->
  downsampled c ds pl0 -> goes s c (c_phys c) (nofZ 0) pl0 phi traj steps n ds ->
  apart1 c -> props_fine s c P (save_params_of c (c_phys c) false) tbl ->
  let l := fresh_log c pl0 (time1 c) traj n in
  frames_P P (fun k => map (fun tp => frame_row s ds (fst tp) (snd tp) k) l) ->
  keeps_state c ->
  exists g, disk_of (run s c pl0) fs = Some g /\ holds_state (fun _ => Some (Whole (s_zeroV s))) g l (c_blen c * (length l / c_blen c)).
Proof.
  intros H1 H2 H3 H4 H5 H6 H7 H8 H9 l H10 Hk.
  destruct (run_fresh_full s c P pl0 phi traj steps n ds fs tbl H1 H2 H3 H4 H5 H6 H7 H8 H9 H10) as (g & _ & D & _ & _ & S & _).
  exists g. split; [exact D|]. apply S. now apply add_last_keeps.
Qed.
Lemma state_run2 P pl0 phi traj n ds pv fuel fs tbl q :
  c_output c = true -> (fs = None \/ c_force c = true) -> 1 <= c_blen c -> (c_snaps c =? 0)%Z = false -> NoDup (c_props c) ->
  t_int (ndiv (c_end c) (c_step c)) = Ok q ->
  NoDup (keys (c_phys c)) -> downsampled c ds pl0 -> has_props s c pv pl0 ->
  props_apart c -> props_fine s c P (save_params_of c (c_phys c) (c_adaptive c)) tbl ->
  goes2 s c (c_phys c) (nofZ 0) pl0 phi traj n ds pv -> n < fuel ->
  let l := fresh_log c pl0 (time2 c (nofZ 0)) traj n in
  let B := c_blen c in
  let m := if nltb (c_rec c) (time2 c (nofZ 0) n) then length l else B * (length l / B) in
  frames_P P (fun k => map (fun tp => frame_row s ds (fst tp) (snd tp) k) (firstn m l)) ->
  keeps_state c ->
  exists g, disk_of (run2 s c fuel pl0) fs = Some g /\ holds_state (fun _ => Some (Whole (s_zeroV s))) g l (B * (length l / B)).
Proof.
  intros H1 H2 H3 H4 H5 H6 H7 H8 H9 H10 H11 H12 H13 l B m H14 Hk.
  destruct (top_run2_fresh V T TN s c P pl0 phi traj n ds pv fuel fs tbl q H1 H2 H3 H4 H5 H6 H7 H8 H9 H10 H11 H12 H13 H14) as (g & _ & D & _ & _ & S & _).
  exists g. split; [exact D|]. apply S. now apply add_last_keeps.
Qed.
End SetsTop.
