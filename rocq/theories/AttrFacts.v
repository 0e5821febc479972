(** No driver ever writes an attribute other than those of its own run. *)
From Coq Require Import Arith ZArith Bool String List Lia.
From Verif Require Import Num NdArray ModelIO ModelRun SpecIO SpecRun IOFacts BufFacts RunFiles KeepFacts.
Import ListNotations.

Section Attr.
Context {V T : Type}.
Variable P : list (string * attr T).
(** every attribute was there before or is one of [P] *)
Definition attr_from (fs fs' : disk V T) : Prop :=
  forall g' k a, fs' = Some g' -> dget (attrs g') k = Some a -> (exists g, fs = Some g /\ dget (attrs g) k = Some a) \/ In (k, a) P.
#[export] Instance attr_pre : PreO attr_from.
Proof.
  constructor.
  - intros fs g' k a -> H. left. eauto.
  - intros a b c H1 H2 g' k x -> H. destruct (H2 g' k x eq_refl H) as [(g & -> & Hg)|Hp]; [|now right]. exact (H1 g k x eq_refl Hg).
Qed.
Variable zl : string -> row V T.
Notation keeps := (keeps zl attr_from).
Lemma from_same f g : attrs g = attrs f -> attr_from (Some f) (Some g).
Proof. intros E g' k a H. injection H as <-. rewrite E. intros H. left. eauto. Qed.
Lemma from_empty fs d : attr_from fs (Some (mkH5 d [])).
Proof. intros g' k a H. injection H as <-. discriminate. Qed.
Lemma op_ds f name g fs' : @on_ds V T f name g = Ok fs' -> attr_from (Some f) fs'.
Proof.
  unfold on_ds. destruct (dlook _ _) as [d|]; cbn [bind]; [|discriminate]. destruct (g d) as [d'|]; cbn [bind]; [|discriminate].
  intros E. injection E as <-. now apply from_same.
Qed.
Lemma op_attr o : match o with SetAttr k a => In (k, a) P | _ => True end -> keeps (iop zl o).
Proof.
  intros Ho. apply (keeps_op zl attr_from). intros [f|] fs' E; destruct o; cbn in E; try discriminate;
    try (injection E as <-; (apply from_empty || now apply from_same)); try now apply op_ds in E.
  - destruct (dhas _ _); [discriminate|]. injection E as <-. now apply from_same.
  - destruct (dhas _ _); [|discriminate]. injection E as <-. now apply from_same.
  - injection E as <-. intros g' k x H. injection H as <-. cbn [attrs]. rewrite dget_dset. destruct (String.eqb_spec k name) as [->|_].
    + intros H. injection H as <-. now right.
    + intros H. left. eauto.
Qed.
End Attr.

Section AttrRun.
Context {V T : Type} {TN : TimeNum T}.
Variable s : sim V T.
Variable c : cfg V T.
Variable ad : bool.
Notation zl := (zero_like s).
Notation P := (save_params_of c (c_phys c) ad).
Notation RR := (attr_from P).
Notation keeps := (keeps zl RR).
Notation keeps_bind := (KeepFacts.keeps_bind zl RR).
Notation keeps_ret := (KeepFacts.keeps_ret zl RR).
Notation keeps_lift := (KeepFacts.keeps_lift zl RR).
Notation keeps_fail := (KeepFacts.keeps_fail zl RR).
Notation keeps_get := (KeepFacts.keeps_get zl RR).
Notation keeps_iseq := (KeepFacts.keeps_iseq zl RR).
Ltac op := apply op_attr; exact I.

Lemma a_append buf n : keeps (append_h5 zl buf n).
Proof.
  apply keeps_bind; [op|]. intros _. apply keeps_iseq. intros m Hm. apply in_map_iff in Hm. destruct Hm as [kv [<- _]].
  apply keeps_bind; [op|]. intros _. op.
Qed.
Lemma a_update ls : keeps (update_last_state zl ls).
Proof. apply keeps_bind; [op|]. intros _. apply keeps_iseq. intros m Hm. apply in_map_iff in Hm. destruct Hm as [kv [<- _]]. op. Qed.
Lemma a_frame nv pl bi : keeps (save_frame s c nv pl bi).
Proof.
  apply keeps_bind; [apply keeps_lift|]. intros x. apply keeps_bind; [apply keeps_lift|]. intros b. cbv zeta.
  destruct (_ =? _); [|apply keeps_ret]. apply keeps_bind; [apply a_append|]. intros _.
  apply keeps_bind; [|intros _; apply keeps_ret]. destruct (last_state_of c pl); [apply keeps_ret|apply a_update].
Qed.
Lemma a_loop phys k : forall it pl bi, keeps (run_loop s c phys k it pl bi).
Proof.
  induction k as [|k IH]; intros it pl bi; cbn [run_loop]; [apply keeps_ret|].
  apply keeps_bind; [apply keeps_lift|]. intros pl'. apply keeps_bind.
  - destruct (_ && _); [apply a_frame|apply keeps_ret].
  - intros bi'. destruct (s_nan _ _); [apply keeps_ret|apply IH].
Qed.
Lemma a_simulate st : keeps (run_simulate s c st).
Proof.
  apply keeps_bind; [apply keeps_lift|]. intros phi. apply keeps_bind; [apply keeps_lift|]. intros n.
  destruct (_ =? _)%Z; [apply keeps_fail|]. apply keeps_bind; [apply a_loop|]. intros bi.
  destruct (0 <? _); [apply a_append|apply keeps_ret].
Qed.
Lemma a_props : keeps (run_properties_ s c).
Proof.
  unfold run_properties_. destruct (c_props c) as [|p l]; [apply keeps_ret|].
  apply (keeps_calculate zl RR); [op|]. intros q _. split; [op|split; intros; op].
Qed.
Lemma a_continue buf : keeps (run_continue s c buf).
Proof.
  unfold run_continue. destruct (c_continue c); [|apply keeps_ret]. apply keeps_bind; [apply keeps_get|]. intros fs.
  apply keeps_bind; [apply keeps_lift|]. intros [ld phys]. cbv zeta. apply keeps_bind; [apply keeps_lift|]. intros _. apply keeps_ret.
Qed.
Lemma a_create z props : keeps (create_appendable_h5 zl z P props (add_last c)).
Proof.
  apply keeps_bind; [op|]. intros _.
  apply keeps_bind; [apply keeps_iseq; intros m Hm; apply in_map_iff in Hm; destruct Hm as [kv [<- _]]; op|]. intros _.
  apply keeps_bind; [apply keeps_iseq; intros m Hm; apply in_map_iff in Hm; destruct Hm as [kv [<- _]]; op|]. intros _.
  apply keeps_bind.
  - destruct (add_last c); [|apply keeps_ret]. apply keeps_iseq; intros m Hm; apply in_map_iff in Hm; destruct Hm as [kv [<- _]]; op.
  - intros _. apply keeps_iseq. intros m Hm. apply in_map_iff in Hm. destruct Hm as [[k a] [<- H]]. apply op_attr. exact H.
Qed.
Lemma a_loop2 phys : forall fuel t0 it used cur pl bi, keeps (run2_loop s c phys fuel t0 it used cur pl bi).
Proof.
  induction fuel as [|fuel IH]; intros t0 it used cur pl bi; cbn [run2_loop]; destruct (nltb _ _); try apply keeps_ret; try apply keeps_fail.
  apply keeps_bind; [apply keeps_lift|]. intros pl'. cbv zeta. destruct (_ && _); [|apply IH].
  apply keeps_bind; [apply keeps_lift|]. intros nv. apply keeps_bind.
  - destruct (c_output c); [apply a_frame|apply keeps_ret].
  - intros bi'. destruct (s_nan _ _); [apply keeps_ret|apply IH].
Qed.
Lemma a_simulate2 fuel st : keeps (run2_simulate s c fuel st).
Proof.
  apply keeps_bind; [apply keeps_lift|]. intros phi. apply keeps_bind; [apply a_loop2|]. intros [cur bi].
  destruct (_ && _); [apply a_append|apply keeps_ret].
Qed.
End AttrRun.

Lemma attr_run {V T} {TN : TimeNum T} (s : sim V T) (c : cfg V T) pl0 : keeps (zero_like s) (attr_from (save_params_of c (c_phys c) false)) (run s c pl0).
Proof.
  unfold run. destruct (negb _); [apply keeps_fail; typeclasses eauto|].
  apply keeps_bind; [typeclasses eauto| |].
  - apply keeps_bind; [typeclasses eauto|apply keeps_get; typeclasses eauto|]. intros fs.
    assert (C : keeps (zero_like s) (attr_from (save_params_of c (c_phys c) false)) (ibind (run_create s c pl0) (fun st => iret (Some st)))).
    { apply keeps_bind; [typeclasses eauto| |intros st; apply keeps_ret; typeclasses eauto].
      apply keeps_bind; [typeclasses eauto|apply a_create|]. intros _. cbv zeta. destruct (truthy _); [apply keeps_ret; typeclasses eauto|].
      apply keeps_bind; [typeclasses eauto|apply a_frame|]. intros bi. apply keeps_ret; typeclasses eauto. }
    destruct fs as [f|]; [destruct (c_force c)|]; try exact C. apply a_continue.
  - intros [st|]; [|apply keeps_ret; typeclasses eauto]. apply keeps_bind; [typeclasses eauto|apply a_simulate|]. intros _. apply a_props.
Qed.
Lemma attr_run2 {V T} {TN : TimeNum T} (s : sim V T) (c : cfg V T) fuel pl0 : keeps (zero_like s) (attr_from (save_params_of c (c_phys c) (c_adaptive c))) (run2 s c fuel pl0).
Proof.
  unfold run2. apply keeps_bind; [typeclasses eauto|apply keeps_lift; typeclasses eauto|]. intros q.
  destruct (_ =? _)%Z; [apply keeps_fail; typeclasses eauto|]. destruct (negb _); [apply keeps_fail; typeclasses eauto|].
  apply keeps_bind; [typeclasses eauto| |].
  - apply keeps_bind; [typeclasses eauto|apply keeps_get; typeclasses eauto|]. intros fs.
    assert (C : keeps (zero_like s) (attr_from (save_params_of c (c_phys c) (c_adaptive c))) (ibind (run2_create s c pl0) (fun st => iret (Some st)))).
    { apply keeps_bind; [typeclasses eauto| |intros st; apply keeps_ret; typeclasses eauto].
      apply keeps_bind; [typeclasses eauto|apply a_create|]. intros _. cbv zeta. destruct (truthy _); [apply keeps_ret; typeclasses eauto|].
      apply keeps_bind; [typeclasses eauto|apply a_frame|]. intros bi. apply keeps_ret; typeclasses eauto. }
    destruct fs as [f|]; [destruct (c_force c)|]; try exact C. apply a_continue.
  - intros [st|]; [|apply keeps_ret; typeclasses eauto]. apply keeps_bind; [typeclasses eauto|apply a_simulate2|]. intros _. apply a_props.
Qed.
