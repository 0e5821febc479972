(** Files made by the drivers. *)
From Coq Require Import Arith ZArith Bool String List Lia.
From Verif Require Import Num NdArray ModelIO ModelRun SpecIO SpecRun IOFacts BufFacts RunFacts.
Import ListNotations.

(** ** Creating a file *)
Section Create.
Context {V T : Type}.
Variable zl : string -> row V T.
Notation h5 := (h5 V T).

Lemma create_list (names : list string) (d : dataset V T) : forall f : h5,
  NoDup names -> (forall n, In n names -> dget (dsets f) n = None) ->
  exists f' tr, runs (iseq (map (fun n => iop zl (CreateDs n d)) names)) (Some f) tr (Some f') (Ok tt)
  /\ tr = map (fun n => CreateDs n d) names
  /\ attrs f' = attrs f
  /\ (forall n, dget (dsets f') n = if existsb (String.eqb n) names then Some d else dget (dsets f) n)
  /\ (forall j, exists g, replay zl (firstn j tr) (Some f) = Some g /\
        forall n, dget (dsets g) n = dget (dsets f) n \/ (In n names /\ dget (dsets f) n = None /\ dget (dsets g) n = Some d)).
Proof.
  induction names as [|n names IH]; intros f N H.
  - exists f, []. repeat split; auto. intros j. exists f. rewrite firstn_nil. split; [reflexivity|auto].
  - apply NoDup_cons_iff in N. destruct N as [N1 N2].
    set (f1 := fset f n d).
    assert (E : exec1 zl (CreateDs n d) (Some f) = Ok (Some f1)).
    { cbn [exec1]. unfold dhas. now rewrite (H n (or_introl eq_refl)). }
    assert (G1 : forall m, dget (dsets f1) m = if String.eqb m n then Some d else dget (dsets f) m) by (intros m; apply fset_get).
    destruct (IH f1 N2) as [f' [tr [R [Tr [A [G C]]]]]].
    { intros m Hm. rewrite G1. destruct (String.eqb_spec m n); [subst; contradiction|]. apply H. now right. }
    exists f', ([CreateDs n d] ++ tr)%list. split; [|split; [|split; [|split]]].
    + cbn [map iseq]. eapply runs_bind; [apply runs_op; exact E|exact R].
    + now rewrite Tr.
    + exact A.
    + intros m. rewrite G, G1. cbn [existsb]. destruct (String.eqb m n); cbn [orb]; [|reflexivity].
      destruct (existsb (String.eqb m) names); reflexivity.
    + intros [|j].
      * exists f. split; [reflexivity|auto].
      * destruct (C j) as [g [Rg Hg]]. exists g. cbn [app firstn replay]. rewrite E. split; [exact Rg|].
        intros m. destruct (Hg m) as [Q|[Q0 [Q1 Q2]]].
        -- rewrite Q, G1. destruct (String.eqb_spec m n) as [->|_]; [right; split; [now left|split; [apply H; now left|reflexivity]]|now left].
        -- rewrite G1 in Q1. destruct (String.eqb_spec m n); [discriminate|]. right. split; [now right|auto].
Qed.

Lemma attr_list (ps : list (string * attr T)) : forall f : h5, NoDup (keys ps) ->
  exists f' tr, runs (iseq (map (fun kv => iop zl (SetAttr (fst kv) (snd kv))) ps)) (Some f) tr (Some f') (Ok tt)
  /\ dsets f' = dsets f
  /\ attrs f' = fold_left (fun d kv => dset_ d (fst kv) (snd kv)) ps (attrs f)
  /\ (forall j, exists g, replay zl (firstn j tr) (Some f) = Some g /\ dsets g = dsets f).
Proof.
  induction ps as [|[k a] ps IH]; intros f N.
  - exists f, []. repeat split. intros j. exists f. rewrite firstn_nil. auto.
  - apply NoDup_cons_iff in N. destruct N as [N1 N2]. cbn [fst] in N1.
    destruct (IH (mkH5 (dsets f) (dset_ (attrs f) k a)) N2) as [f' [tr [R [D [G C]]]]].
    exists f', ([SetAttr k a] ++ tr)%list. split; [|split; [|split]].
    + cbn [map iseq fst snd]. eapply runs_bind; [apply runs_op; reflexivity|exact R].
    + exact D.
    + rewrite G. reflexivity.
    + intros [|j]; [exists f; auto|]. destruct (C j) as [g [Rg Dg]]. exists g. cbn [app firstn replay exec1]. auto.
Qed.

Lemma dset_new {X} (d : list (string * X)) k v : ~ In k (keys d) -> dset_ d k v = (d ++ [(k, v)])%list.
Proof.
  induction d as [|[k0 v0] d IH]; intros H; [reflexivity|]. cbn [dset_ app]. destruct (String.eqb_spec k k0) as [->|_].
  - exfalso. apply H. now left.
  - rewrite IH; [reflexivity|]. intros H'. apply H. now right.
Qed.
Lemma fold_dset {X} (ps : list (string * X)) : forall d, NoDup (keys (d ++ ps)) ->
  fold_left (fun d kv => dset_ d (fst kv) (snd kv)) ps d = (d ++ ps)%list.
Proof.
  induction ps as [|[k v] ps IH]; intros d N; [now rewrite app_nil_r|]. cbn [fold_left fst snd].
  unfold keys in N. rewrite map_app in N. cbn [map fst] in N. pose proof (NoDup_remove_2 _ _ _ N) as N2.
  rewrite dset_new by (intros H; apply N2; apply in_app_iff; now left).
  rewrite IH; [now rewrite <- app_assoc|]. unfold keys. rewrite !map_app. rewrite <- app_assoc. exact N.
Qed.

Definition f3 : list string := ["density"; "omega"; "phi"]%string.
(** the datasets of a fresh file *)
Definition fresh_dset (zeroV : V) (props : list string) (al : bool) (k : string) : option (dataset V T) :=
  if existsb (String.eqb k) (f3 ++ props) then Some (Rows [])
  else if al && existsb (String.eqb k) state_keys then Some (Whole zeroV) else None.

Lemma existsb_false (k : string) l : ~ In k l -> existsb (String.eqb k) l = false.
Proof.
  intros H. destruct (existsb (String.eqb k) l) eqn:E; [|reflexivity]. exfalso. apply H.
  apply existsb_exists in E. destruct E as [x [Hx E]]. apply String.eqb_eq in E. now subst.
Qed.
Lemma existsb_true (k : string) l : In k l -> existsb (String.eqb k) l = true.
Proof. intros H. apply existsb_exists. exists k. split; [exact H|apply String.eqb_refl]. Qed.
Lemma existsb_In (k : string) l : existsb (String.eqb k) l = true <-> In k l.
Proof.
  split; [|apply existsb_true]. intros E. apply existsb_exists in E. destruct E as [x [Hx E]].
  apply String.eqb_eq in E. now subst.
Qed.

Lemma create_ok zeroV params props al fs :
  NoDup props -> (forall p, In p props -> ~ In p (f3 ++ state_keys)) -> NoDup (keys params) ->
  exists f0 tr, runs (create_appendable_h5 zl zeroV params props al) fs tr (Some f0) (Ok tt)
  /\ (forall k, dget (dsets f0) k = fresh_dset zeroV props al k)
  /\ attrs f0 = params
  /\ (forall j, crash_after zl j (create_appendable_h5 zl zeroV params props al) fs = fs \/
        exists g, crash_after zl j (create_appendable_h5 zl zeroV params props al) fs = Some g /\
          forall k, dget (dsets g) k = None \/ dget (dsets g) k = Some (Rows []) \/ (In k state_keys /\ dget (dsets g) k = Some (Whole zeroV))).
Proof.
  intros NP HP NA.
  set (e := mkH5 [] [] : h5).
  assert (Nf3 : NoDup f3) by (repeat constructor; cbn; intuition discriminate).
  destruct (create_list f3 (Rows []) e Nf3 ltac:(reflexivity)) as [f1 [tr1 [R1 [T1 [A1 [G1 C1]]]]]].
  destruct (create_list props (Rows []) f1 NP) as [f2 [tr2 [R2 [T2 [A2 [G2 C2]]]]]].
  { intros p Hp. rewrite G1. rewrite existsb_false; [reflexivity|]. intros H. apply (HP p Hp). apply in_app_iff. now left. }
  assert (G2' : forall k, dget (dsets f2) k = if existsb (String.eqb k) (f3 ++ props) then Some (Rows []) else None).
  { intros k. rewrite G2, G1, existsb_app. destruct (existsb (String.eqb k) f3), (existsb (String.eqb k) props); reflexivity. }
  assert (SK : exists f3' tr3, runs (if al then iseq (map (fun n => iop zl (CreateDs ("state_" ++ n) (Whole zeroV))) ["density"; "phi"; "omega"])
                                 else iret tt)%string (Some f2) tr3 (Some f3') (Ok tt)
      /\ attrs f3' = attrs f2 /\ (forall k, dget (dsets f3') k = fresh_dset zeroV props al k)
      /\ (forall j, exists g, replay zl (firstn j tr3) (Some f2) = Some g /\
        forall n, dget (dsets g) n = dget (dsets f2) n \/ (In n state_keys /\ dget (dsets f2) n = None /\ dget (dsets g) n = Some (Whole zeroV)))).
  { destruct al.
    - destruct (create_list ["state_density"; "state_phi"; "state_omega"]%string (Whole zeroV) f2) as [f3' [tr3 [R3 [T3 [A3 [G3 C3]]]]]].
      + repeat constructor; cbn; intuition discriminate.
      + intros n Hn. rewrite G2', existsb_false; [reflexivity|]. intros H. apply in_app_iff in H. destruct H as [H|H].
        * cbn in H, Hn. intuition (subst; discriminate).
        * apply (HP n H). apply in_app_iff. right. cbn in Hn |- *. tauto.
      + exists f3', tr3. split; [exact R3|]. split; [exact A3|]. split.
        2:{ intros j. destruct (C3 j) as [g [Rg Hg]]. exists g. split; [exact Rg|]. intros n. destruct (Hg n) as [Q|[Q0 Q1]]; [now left|].
            right. split; [cbn in Q0 |- *; tauto|exact Q1]. }
        intros k. rewrite G3, G2'. unfold fresh_dset. cbn [andb].
        assert (P : existsb (String.eqb k) ["state_density"; "state_phi"; "state_omega"]%string = existsb (String.eqb k) state_keys).
        { cbn [existsb state_keys]. destruct (String.eqb k "state_density"), (String.eqb k "state_phi"), (String.eqb k "state_omega"); reflexivity. }
        rewrite P. destruct (existsb (String.eqb k) (f3 ++ props)) eqn:E1; [|reflexivity].
        destruct (existsb (String.eqb k) state_keys) eqn:E2; [|reflexivity]. exfalso.
        apply existsb_In in E1, E2. apply in_app_iff in E1. destruct E1 as [E1|E1].
        * cbn in E1, E2. intuition (subst; discriminate).
        * apply (HP k E1). apply in_app_iff. now right.
    - exists f2, []. split; [reflexivity|]. split; [reflexivity|]. split.
      + intros k. rewrite G2'. reflexivity.
      + intros j. exists f2. rewrite firstn_nil. auto. }
  destruct SK as [g3 [tr3 [R3 [A3 [G3 C3]]]]].
  destruct (attr_list params g3 NA) as [g4 [tr4 [R4 [D4 [G4 C4]]]]].
  assert (RR : runs (create_appendable_h5 zl zeroV params props al) fs ([OpenW] ++ tr1 ++ tr2 ++ tr3 ++ tr4) (Some g4) (Ok tt)).
  { unfold create_appendable_h5. eapply runs_bind; [apply runs_op; reflexivity|].
    eapply runs_bind; [exact R1|]. eapply runs_bind; [exact R2|]. eapply runs_bind; [exact R3|exact R4]. }
  exists g4, ([OpenW] ++ tr1 ++ tr2 ++ tr3 ++ tr4)%list. split; [exact RR|]. split; [|split].
  - intros k. rewrite D4. apply G3.
  - rewrite G4, A3, A2, A1. cbn [e attrs]. now apply (fold_dset params []).
  - intros j. unfold crash_after, trace_of. rewrite RR. cbn [fst]. destruct j as [|j]; [now left|]. right.
    rewrite RR. cbn [fst app firstn replay exec1]. fold e.
    assert (fai : forall names d, faithful zl (iseq (map (fun n => iop zl (CreateDs n d)) names))).
    { intros names d. apply faithful_iseq. intros m Hm. apply in_map_iff in Hm. destruct Hm as [x [<- _]]. apply faithful_op. }
    destruct (faithful_runs zl _ _ _ _ _ (fai f3 (Rows [])) R1) as [B1 E1].
    destruct (faithful_runs zl _ _ _ _ _ (fai props (Rows [])) R2) as [B2 E2].
    assert (F3 : faithful zl (if al then iseq (map (fun n => iop zl (CreateDs ("state_" ++ n) (Whole zeroV))) ["density"; "phi"; "omega"])
                                 else iret tt)%string).
    { destruct al; [|apply faithful_ret]. apply faithful_iseq. intros m Hm. apply in_map_iff in Hm. destruct Hm as [x [<- _]]. apply faithful_op. }
    destruct (faithful_runs zl _ _ _ _ _ F3 R3) as [B3 E3].
    assert (K2 : forall k, dget (dsets f2) k = None \/ dget (dsets f2) k = Some (Rows [])).
    { intros k. rewrite G2'. destruct (existsb (String.eqb k) (f3 ++ props)); auto. }
    rewrite (crash_split zl tr1 _ (Some e) (Some f1) j B1 E1). destruct (j <=? length tr1).
    { destruct (C1 j) as [g [Rg Hg]]. exists g. split; [exact Rg|]. intros k. destruct (Hg k) as [Q|[Q0 [_ Q]]]; [rewrite Q; now left|auto]. }
    rewrite (crash_split zl tr2 _ (Some f1) (Some f2) _ B2 E2). destruct (j - length tr1 <=? length tr2).
    { destruct (C2 (j - length tr1)) as [g [Rg Hg]]. exists g. split; [exact Rg|]. intros k. destruct (Hg k) as [Q|[Q0 [_ Q]]]; [|auto].
      rewrite Q, G1. destruct (existsb (String.eqb k) f3); auto. }
    rewrite (crash_split zl tr3 _ (Some f2) (Some g3) _ B3 E3). destruct (j - length tr1 - length tr2 <=? length tr3).
    { destruct (C3 (j - length tr1 - length tr2)) as [g [Rg Hg]]. exists g. split; [exact Rg|]. intros k. destruct (Hg k) as [Q|[Q0 [_ Q]]]; [|auto].
      rewrite Q. destruct (K2 k) as [->| ->]; auto. }
    destruct (C4 (j - length tr1 - length tr2 - length tr3)) as [g [Rg Hg]]. exists g. split; [exact Rg|].
    intros k. rewrite Hg, G3. unfold fresh_dset. destruct (existsb (String.eqb k) (f3 ++ props)); auto.
    destruct (al && existsb (String.eqb k) state_keys) eqn:Es; auto. right. right. split; [|reflexivity].
    apply andb_prop in Es. now apply existsb_In.
Qed.
Lemma faithful_create zeroV params props al : faithful zl (create_appendable_h5 zl zeroV params props al).
Proof.
  assert (fl : forall X (g : X -> fop V T) l, faithful zl (iseq (map (fun n => iop zl (g n)) l))).
  { intros X g l. apply faithful_iseq. intros m Hm. apply in_map_iff in Hm. destruct Hm as [x [<- _]]. apply faithful_op. }
  unfold create_appendable_h5.
  apply faithful_bind; [apply faithful_op|]. intros _.
  apply faithful_bind; [apply fl|]. intros _.
  apply faithful_bind; [apply fl|]. intros _.
  apply faithful_bind; [destruct al; [apply (fl _ (fun n => CreateDs (String.append "state_" n) (Whole zeroV)))|apply faithful_ret]|]. intros _.
  apply (fl _ (fun kv => SetAttr (fst kv) (snd kv))).
Qed.
End Create.
