(** Without properties the driver run.py creates no other datasets than the
    fields, the times and the last state. *)
From Coq Require Import Arith ZArith Bool String List Lia.
From Verif Require Import Num NdArray ModelIO ModelRun SpecIO SpecRun IOFacts BufFacts RunFiles KeepFacts.
Import ListNotations.

Section Names.
Context {V T : Type}.
Variable P : list string.
(** every dataset was there before or has a name of [P] *)
Definition names_from (fs fs' : disk V T) : Prop :=
  forall g' k, fs' = Some g' -> dhas (dsets g') k = true -> (exists g, fs = Some g /\ dhas (dsets g) k = true) \/ In k P.
#[export] Instance names_pre : PreO names_from.
Proof.
  constructor.
  - intros fs g' k -> H. left. eauto.
  - intros a b c H1 H2 g' k -> H. destruct (H2 g' k eq_refl H) as [(g & -> & Hg)|Hp]; [|now right]. exact (H1 g k eq_refl Hg).
Qed.
Variable zl : string -> row V T.
Notation keeps := (keeps zl names_from).
Lemma n_same f g : dsets g = dsets f -> names_from (Some f) (Some g).
Proof. intros E g' k H. injection H as <-. rewrite E. intros H. left. eauto. Qed.
Lemma n_empty fs a : names_from fs (Some (mkH5 [] a)).
Proof. intros g' k H. injection H as <-. discriminate. Qed.
Lemma dhas_dset {X} (d : list (string * X)) k v k' : dhas (dset_ d k v) k' = (String.eqb k' k || dhas d k')%bool.
Proof. unfold dhas. rewrite dget_dset. destruct (String.eqb k' k); reflexivity. Qed.
Lemma n_ds f name g fs' : @on_ds V T f name g = Ok fs' -> names_from (Some f) fs'.
Proof.
  unfold on_ds. destruct (dlook _ _) as [d|] eqn:Ed; cbn [bind]; [|discriminate]. destruct (g d) as [d'|]; cbn [bind]; [|discriminate].
  intros E. injection E as <-. intros g' k H. injection H as <-. cbn [dsets]. rewrite dhas_dset. intros H. left. exists f. split; [reflexivity|].
  destruct (String.eqb_spec k name) as [E0|]; [rewrite E0; clear H E0|exact H]. unfold dlook in Ed. unfold dhas. destruct (dget (dsets f) name); [reflexivity|discriminate].
Qed.
Lemma n_op o : match o with CreateDs k _ => In k P | _ => True end -> keeps (iop zl o).
Proof.
  intros Ho. apply (keeps_op zl names_from). intros [f|] fs' E; destruct o; cbn in E; try discriminate;
    try (injection E as <-; (apply n_empty || now apply n_same)); try now apply n_ds in E.
  - destruct (dhas _ _); [discriminate|]. injection E as <-. intros g' k H. injection H as <-. cbn [dsets]. rewrite dhas_dset.
    destruct (String.eqb_spec k name) as [E0|]; [rewrite E0; now right|]. intros H. left. eauto.
  - destruct (dhas (dsets f) name); [|discriminate]. injection E as <-. intros g' k H. injection H as <-. cbn [dsets]. intros H. left. exists f.
    split; [reflexivity|]. unfold dhas in *. destruct (String.eqb_spec k name) as [E0|Hn].
    + rewrite E0 in H. rewrite dget_ddel_same in H. discriminate.
    + now rewrite dget_ddel_other in H.
Qed.
End Names.

Section NameRun.
Context {V T : Type} {TN : TimeNum T}.
Variable s : sim V T.
Variable c : cfg V T.
Notation zl := (zero_like s).
Notation P := (field_keys ++ state_keys)%list.
Notation RR := (names_from P).
Notation keeps := (keeps zl RR).
Notation keeps_bind := (KeepFacts.keeps_bind zl RR).
Notation keeps_ret := (KeepFacts.keeps_ret zl RR).
Notation keeps_lift := (KeepFacts.keeps_lift zl RR).
Notation keeps_fail := (KeepFacts.keeps_fail zl RR).
Notation keeps_get := (KeepFacts.keeps_get zl RR).
Notation keeps_iseq := (KeepFacts.keeps_iseq zl RR).
Ltac op := apply n_op; try exact I.

Lemma n_append buf n : keeps (append_h5 zl buf n).
Proof.
  apply keeps_bind; [op|]. intros _. apply keeps_iseq. intros m Hm. apply in_map_iff in Hm. destruct Hm as [kv [<- _]].
  apply keeps_bind; [op|]. intros _. op.
Qed.
Lemma n_update ls : keeps (update_last_state zl ls).
Proof. apply keeps_bind; [op|]. intros _. apply keeps_iseq. intros m Hm. apply in_map_iff in Hm. destruct Hm as [kv [<- _]]. op. Qed.
Lemma n_frame nv pl bi : keeps (save_frame s c nv pl bi).
Proof.
  apply keeps_bind; [apply keeps_lift|]. intros x. apply keeps_bind; [apply keeps_lift|]. intros b. cbv zeta.
  destruct (_ =? _); [|apply keeps_ret]. apply keeps_bind; [apply n_append|]. intros _.
  apply keeps_bind; [|intros _; apply keeps_ret]. destruct (last_state_of c pl); [apply keeps_ret|apply n_update].
Qed.
Lemma n_loop phys k : forall it pl bi, keeps (run_loop s c phys k it pl bi).
Proof.
  induction k as [|k IH]; intros it pl bi; cbn [run_loop]; [apply keeps_ret|].
  apply keeps_bind; [apply keeps_lift|]. intros pl'. apply keeps_bind.
  - destruct (_ && _); [apply n_frame|apply keeps_ret].
  - intros bi'. destruct (s_nan _ _); [apply keeps_ret|apply IH].
Qed.
Lemma n_simulate st : keeps (run_simulate s c st).
Proof.
  apply keeps_bind; [apply keeps_lift|]. intros phi. apply keeps_bind; [apply keeps_lift|]. intros n.
  destruct (_ =? _)%Z; [apply keeps_fail|]. apply keeps_bind; [apply n_loop|]. intros bi.
  destruct (0 <? _); [apply n_append|apply keeps_ret].
Qed.
Lemma n_continue buf : keeps (run_continue s c buf).
Proof.
  unfold run_continue. destruct (c_continue c); [|apply keeps_ret]. apply keeps_bind; [apply keeps_get|]. intros fs.
  apply keeps_bind; [apply keeps_lift|]. intros [ld phys]. cbv zeta. apply keeps_bind; [apply keeps_lift|]. intros _. apply keeps_ret.
Qed.
Lemma n_create z ps : keeps (create_appendable_h5 zl z ps ["time"%string] (add_last c)).
Proof.
  apply keeps_bind; [op|]. intros _.
  apply keeps_bind; [apply keeps_iseq; intros m Hm; apply in_map_iff in Hm; destruct Hm as [kv [<- H]]; op; cbn in *; tauto|]. intros _.
  apply keeps_bind; [apply keeps_iseq; intros m Hm; apply in_map_iff in Hm; destruct Hm as [kv [<- H]]; op; cbn in *; tauto|]. intros _.
  apply keeps_bind.
  - destruct (add_last c); [|apply keeps_ret]. apply keeps_iseq; intros m Hm; apply in_map_iff in Hm; destruct Hm as [kv [<- H]]; op.
    cbn in H. destruct H as [<-|[<-|[<-|[]]]]; cbn; tauto.
  - intros _. apply keeps_iseq. intros m Hm. apply in_map_iff in Hm. destruct Hm as [[k a] [<- H]]. op.
Qed.
Lemma names_run pl0 : c_props c = [] -> keeps (run s c pl0).
Proof.
  intros Hp. unfold run. destruct (negb _); [apply keeps_fail|].
  apply keeps_bind.
  - apply keeps_bind; [apply keeps_get|]. intros fs.
    assert (C : keeps (ibind (run_create s c pl0) (fun st => iret (Some st)))).
    { apply keeps_bind; [|intros st; apply keeps_ret].
      apply keeps_bind; [apply n_create|]. intros _. cbv zeta. destruct (truthy _); [apply keeps_ret|].
      apply keeps_bind; [apply n_frame|]. intros bi. apply keeps_ret. }
    destruct fs as [f|]; [destruct (c_force c)|]; try exact C. apply n_continue.
  - intros [st|]; [|apply keeps_ret]. apply keeps_bind; [apply n_simulate|]. intros _. unfold run_properties_. rewrite Hp. apply keeps_ret.
Qed.
End NameRun.
