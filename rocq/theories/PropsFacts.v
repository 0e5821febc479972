(** calculate_properties: one value per frame, whatever the batch size. *)
From Coq Require Import Arith ZArith Bool String List Lia.
From Verif Require Import Num NdArray ModelIO SpecIO IOFacts.
Import ListNotations.

Section Zip.
Context {X Y : Type}.
Implicit Types (h : X -> X -> X -> Y).
Lemma zip3_length h n : forall p o, length n = length p -> length p = length o -> length (zip3 h n p o) = length n.
Proof.
  induction n as [|a n IH]; intros [|b p] [|c o] H1 H2; try discriminate; [reflexivity|].
  cbn [zip3 length]. f_equal. apply IH; cbn [length] in *; lia.
Qed.
Lemma zip3_firstn h m : forall n p o, firstn m (zip3 h n p o) = zip3 h (firstn m n) (firstn m p) (firstn m o).
Proof.
  induction m as [|m IH]; intros n p o; [reflexivity|]. destruct n as [|a n], p as [|b p], o as [|c o]; try reflexivity.
  cbn [zip3 firstn]. now rewrite IH.
Qed.
Lemma zip3_skipn h m : forall n p o, length n = length p -> length p = length o ->
  skipn m (zip3 h n p o) = zip3 h (skipn m n) (skipn m p) (skipn m o).
Proof.
  induction m as [|m IH]; intros n p o H1 H2; [reflexivity|]. destruct n as [|a n], p as [|b p], o as [|c o]; try discriminate; try reflexivity.
  cbn [zip3 skipn]. apply IH; cbn [length] in *; lia.
Qed.
End Zip.

Section Props.
Context {V T : Type}.
Variable zl : string -> row V T.
Variables (f32V : V -> V) (f32T : T -> T).
Notation row := (row V T). Notation h5 := (h5 V T).
Notation f32 := (f32 f32V f32T).

Lemma sel_chk (force : bool) (f : h5) name : dhas (dsets f) name && force = true -> dhas (dsets f) name = true.
Proof. intros H. apply andb_prop in H. apply H. Qed.

(** ** prepare *)
Definition selected (f : h5) (force : bool) (name : string) : bool := force || negb (dhas (dsets f) name).
Lemma prepare_ok steps force (pl : list string) : forall f : h5, NoDup pl ->
  exists tr f', runs (prepare zl pl steps force) (Some f) tr (Some f') (Ok (filter (selected f force) pl))
  /\ attrs f' = attrs f
  /\ (forall k, dget (dsets f') k = if existsb (String.eqb k) pl && selected f force k then Some (Rows (repeat (zl k) steps)) else dget (dsets f) k).
Proof.
  induction pl as [|name pl IH]; intros f N.
  - exists [], f. repeat split.
  - apply NoDup_cons_iff in N. destruct N as [N1 N2].
    (* delete *)
    assert (D : exists tr1 f1, runs (with_file (fun f => if dhas (dsets f) name && force then iop zl (DeleteDs name) else iret tt)) (Some f) tr1 (Some f1) (Ok tt)
       /\ attrs f1 = attrs f /\ dhas (dsets f1) name = negb (selected f force name) /\ (forall k, k <> name -> dget (dsets f1) k = dget (dsets f) k)
       /\ (dhas (dsets f1) name = true -> f1 = f)).
    { unfold with_file, runs. rewrite bind_get. unfold selected.
      destruct (dhas (dsets f) name) eqn:Eh, force; cbn [andb orb negb].
      - exists [DeleteDs name], (mkH5 (ddel (dsets f) name) (attrs f)). split; [|split; [reflexivity|split; [|split]]].
        + unfold iop. cbn [exec1]. rewrite Eh. reflexivity.
        + unfold dhas. cbn [dsets]. now rewrite dget_ddel_same.
        + intros k Hk. cbn [dsets]. now apply dget_ddel_other.
        + unfold dhas. cbn [dsets]. rewrite dget_ddel_same. discriminate.
      - exists [], f. repeat split; auto.
      - exists [], f. repeat split; auto.
      - exists [], f. repeat split; auto. }
    destruct D as [tr1 [f1 [R1 [A1 [Dh [O1 Same]]]]]].
    (* create *)
    assert (C : exists tr2 f2, runs (with_file (fun f => if dhas (dsets f) name then iret []
             else ibind (iop zl (CreateDs name (Rows (repeat (zl name) steps)))) (fun _ => iret [name]))) (Some f1) tr2 (Some f2)
             (Ok (if selected f force name then [name] else []))
       /\ attrs f2 = attrs f
       /\ (forall k, dget (dsets f2) k = if String.eqb k name && selected f force k then Some (Rows (repeat (zl k) steps)) else dget (dsets f) k)).
    { unfold with_file, runs. rewrite bind_get. rewrite Dh.
      destruct (selected f force name) eqn:Es; cbn [negb].
      - exists [CreateDs name (Rows (repeat (zl name) steps))], (fset f1 name (Rows (repeat (zl name) steps))).
        split; [|split].
        + unfold ibind, iop. cbn [exec1]. rewrite Dh. reflexivity.
        + exact A1.
        + intros k. rewrite fset_get. destruct (String.eqb_spec k name) as [->|Hk]; cbn [andb]; [now rewrite Es|now apply O1].
      - exists [], f1. cbn [negb] in Dh. rewrite (Same Dh). split; [reflexivity|]. split; [reflexivity|].
        intros k. destruct (String.eqb_spec k name) as [->|Hk]; cbn [andb]; [now rewrite Es|reflexivity]. }
    destruct C as [tr2 [f2 [R2 [A2 G2]]]].
    assert (SelEq : forall k, In k pl -> selected f2 force k = selected f force k).
    { intros k Hk. unfold selected, dhas. rewrite G2. destruct (String.eqb_spec k name) as [->|_]; [contradiction|reflexivity]. }
    destruct (IH f2 N2) as [tr3 [f3 [R3 [A3 G3]]]].
    exists (tr1 ++ (tr2 ++ (tr3 ++ [])))%list, f3. split; [|split].
    + cbn [prepare]. eapply runs_bind; [exact R1|]. cbv beta. eapply runs_bind; [exact R2|]. eapply runs_bind; [exact R3|].
      unfold runs, iret. f_equal. f_equal. cbn [filter].
      rewrite (filter_ext_in _ _ _ SelEq). destruct (selected f force name); reflexivity.
    + congruence.
    + intros k. rewrite G3, G2. cbn [existsb]. destruct (String.eqb_spec k name) as [->|Hk]; cbn [andb orb].
      * assert (Ef : existsb (String.eqb name) pl = false).
        { destruct (existsb (String.eqb name) pl) eqn:E; [|reflexivity]. apply existsb_exists in E. destruct E as [x [Hx E]].
          apply String.eqb_eq in E. subst. contradiction. }
        rewrite Ef. reflexivity.
      * destruct (existsb (String.eqb k) pl) eqn:E; cbn [andb]; [|reflexivity].
        apply existsb_exists in E. destruct E as [x [Hx E]]. apply String.eqb_eq in E. subst x. now rewrite SelEq.
Qed.

(** ** one batch *)
Variable n p o : list row.
Hypothesis Hnp : length n = length p.
Hypothesis Hpo : length p = length o.
(** the frames satisfy [P] *)
Variable P : row -> Prop.
Hypothesis Pn : Forall P n.
Hypothesis Pp : Forall P p.
Hypothesis Po : Forall P o.

(** the table: names with the property of a single frame *)
Variable tbl : list (string * (row -> row -> row -> row)).
Variable table : prop_table V T.
Variable sel : list string.
Hypothesis Htbl : computes P sel table tbl.
Hypothesis Hnd : NoDup (keys tbl).

Definition value (k : string) : list row := match dget tbl k with Some h => map f32 (zip3 h n p o) | None => [] end.

Lemma slice_zip (h : row -> row -> row -> row) i b : zip3 h (slice_rows n i b) (slice_rows p i b) (slice_rows o i b) = slice_rows (zip3 h n p o) i b.
Proof. unfold slice_rows. rewrite zip3_skipn by assumption. now rewrite zip3_firstn. Qed.
Lemma slice_len (l : list row) i b : length (slice_rows l i b) = Nat.min b (length l - i).
Proof. unfold slice_rows. now rewrite firstn_length, skipn_length. Qed.

Lemma overwrite_slice (z : row) (full : list row) i b : i <= length full ->
  overwrite (firstn i full ++ repeat z (length full - i)) i (slice_rows full i b)
  = (firstn (Nat.min (i + b) (length full)) full ++ repeat z (length full - Nat.min (i + b) (length full)))%list.
Proof.
  intros H. unfold overwrite. rewrite slice_len. set (m := Nat.min (i + b) (length full)).
  assert (Li : length (firstn i full) = i) by (rewrite firstn_length; lia).
  rewrite firstn_app, Li, Nat.sub_diag. cbn [firstn]. rewrite app_nil_r.
  rewrite firstn_firstn, Nat.min_id.
  rewrite skipn_app, Li. rewrite (skipn_all2 (firstn i full)) by lia. cbn [app].
  replace (i + Nat.min b (length full - i) - i) with (Nat.min b (length full - i)) by lia.
  assert (R : skipn (Nat.min b (length full - i)) (repeat z (length full - i)) = repeat z (length full - m)).
  { replace (length full - i) with (Nat.min b (length full - i) + (length full - m)) at 2 by lia.
    rewrite repeat_app, skipn_app, repeat_length, Nat.sub_diag. rewrite skipn_all2 by (rewrite repeat_length; lia). reflexivity. }
  rewrite R, app_assoc. f_equal. unfold slice_rows.
  rewrite <- (firstn_skipn i (firstn m full)). rewrite firstn_firstn. replace (Nat.min i m) with i by lia. f_equal.
  rewrite skipn_firstn_comm. destruct (le_lt_dec (i + b) (length full)) as [L|L].
  - f_equal. lia.
  - rewrite !firstn_all2; [reflexivity|rewrite skipn_length; lia|rewrite skipn_length; lia].
Qed.

Definition partial (k : string) (m : nat) : list row := (firstn m (value k) ++ repeat (zl k) (length n - m))%list.

Lemma value_length k h : dget tbl k = Some h -> length (value k) = length n.
Proof. intros H. unfold value. rewrite H, map_length. now apply zip3_length. Qed.
Lemma slice_map (g : row -> row) l i b : slice_rows (map g l) i b = map g (slice_rows l i b).
Proof. unfold slice_rows. now rewrite skipn_map, firstn_map. Qed.

Lemma slice_P (l : list row) i b : Forall P l -> Forall P (slice_rows l i b).
Proof.
  intros H. rewrite Forall_forall in *. intros x Hx. apply H. unfold slice_rows in Hx.
  rewrite <- (firstn_skipn i l). apply in_app_iff. right.
  rewrite <- (firstn_skipn b (skipn i l)). apply in_app_iff. now left.
Qed.

Lemma batch_entries b i : i <= length n -> forall (ta : prop_table V T) ti (f : h5),
  computes P sel ta ti -> NoDup (keys ti) ->
  (forall e, In e ti -> dget tbl (fst e) = Some (snd e)) ->
  (forall k, In k sel -> In k (keys ti) -> dget (dsets f) k = Some (Rows (partial k i))) ->
  exists tr f', runs (iseq (map (fun e => add_data zl f32V f32T i b sel (fst e) (snd e (slice_rows n i b) (slice_rows p i b) (slice_rows o i b))) ta)) (Some f) tr (Some f') (Ok tt)
  /\ attrs f' = attrs f
  /\ (forall k, dget (dsets f') k = if existsb (String.eqb k) sel && existsb (String.eqb k) (keys ti)
        then Some (Rows (partial k (Nat.min (i + b) (length n)))) else dget (dsets f) k).
Proof.
  intros Hi. induction ta as [|e ta IH]; intros ti f F N Ht Hs; inversion F as [|? e' ? ti' [E1 E2] F']; subst.
  - exists [], f. repeat split. intros k. cbn. now rewrite andb_false_r.
  - cbn [keys map fst] in N. apply NoDup_cons_iff in N. destruct N as [N1 N2].
    assert (He : dget tbl (fst e') = Some (snd e')) by (apply Ht; now left).
    assert (S1 : exists tr1 f1, runs (add_data zl f32V f32T i b sel (fst e) (snd e (slice_rows n i b) (slice_rows p i b) (slice_rows o i b))) (Some f) tr1 (Some f1) (Ok tt)
       /\ attrs f1 = attrs f /\ (forall k, dget (dsets f1) k = if existsb (String.eqb k) sel && String.eqb k (fst e')
             then Some (Rows (partial k (Nat.min (i + b) (length n)))) else dget (dsets f) k)).
    { unfold add_data. rewrite E1. destruct (existsb (String.eqb (fst e')) sel) eqn:Es.
      - assert (Hin : In (fst e') sel).
        { apply existsb_exists in Es. destruct Es as [x [Hx E]]. apply String.eqb_eq in E. now subst. }
        rewrite E2; [|now rewrite E1|rewrite !slice_len; lia|rewrite !slice_len; lia|now apply slice_P|now apply slice_P|now apply slice_P]. rewrite slice_zip.
        assert (Hrow : dget (dsets f) (fst e') = Some (Rows (partial (fst e') i))) by (apply Hs; [exact Hin|now left]).
        assert (Lp : length (partial (fst e') i) = length n).
        { unfold partial. rewrite app_length, firstn_length, repeat_length, (value_length _ _ He). lia. }
        assert (EW : exec1 zl (WriteAt (fst e') i b (map f32 (slice_rows (zip3 (snd e') n p o) i b))) (Some f)
                 = Ok (Some (fset f (fst e') (Rows (partial (fst e') (Nat.min (i + b) (length n))))))).
        { cbn [exec1]. unfold on_ds, dlook. rewrite Hrow. cbn [bind]. rewrite map_length, slice_len, Lp, (zip3_length (snd e') n p o Hnp Hpo).
          replace (Nat.min (i + b) (length n) - i) with (Nat.min b (length n - i)) by lia. rewrite Nat.eqb_refl. cbn [bind].
          unfold fset. do 4 f_equal.
          pose proof (overwrite_slice (zl (fst e')) (value (fst e')) i b) as OV. rewrite (value_length _ _ He) in OV.
          unfold partial. rewrite <- OV by lia. unfold value. rewrite He. rewrite slice_map. reflexivity. }
        exists ([] ++ [WriteAt (fst e') i b (map f32 (slice_rows (zip3 (snd e') n p o) i b))])%list, (fset f (fst e') (Rows (partial (fst e') (Nat.min (i + b) (length n))))).
        split; [|split; [reflexivity|]].
        + eapply runs_bind; [apply runs_lift|]. apply runs_op. exact EW.
        + intros k. rewrite fset_get. destruct (String.eqb_spec k (fst e')) as [->|Hk]; [rewrite Es; reflexivity|now rewrite andb_false_r].
      - exists [], f. split; [reflexivity|]. split; [reflexivity|]. intros k.
        destruct (String.eqb_spec k (fst e')) as [->|Hk]; [rewrite Es; reflexivity|now rewrite andb_false_r]. }
    destruct S1 as [tr1 [f1 [R1 [A1 G1]]]].
    assert (NE : forall k, In k (keys ti') -> String.eqb k (fst e') = false).
    { intros k Hk. apply String.eqb_neq. intros ->. contradiction. }
    destruct (IH ti' f1 F' N2) as [tr2 [f2 [R2 [A2 G2]]]].
    { intros x Hx. apply Ht. now right. }
    { intros k Hk1 Hk2. rewrite G1, (NE k Hk2), andb_false_r. apply Hs; [exact Hk1|now right]. }
    exists (tr1 ++ tr2)%list, f2. split; [|split].
    + cbn [map iseq]. eapply runs_bind; [exact R1|exact R2].
    + congruence.
    + intros k. rewrite G2, G1. cbn [keys map existsb]. change (map fst ti') with (keys ti').
      destruct (existsb (String.eqb k) sel); cbn [andb]; [|reflexivity].
      destruct (existsb (String.eqb k) (keys ti')) eqn:E; [now rewrite orb_true_r|rewrite orb_false_r].
      destruct (String.eqb k (fst e')); reflexivity.
Qed.

(** the selected names avoid the fields *)
Hypothesis Hsel : forall k, In k sel -> ~ In k ["density"; "phi"; "omega"]%string.

Definition state (f0 f : h5) (m : nat) : Prop :=
  attrs f = attrs f0 /\
  forall k, dget (dsets f) k = if existsb (String.eqb k) sel && existsb (String.eqb k) (keys tbl)
        then Some (Rows (partial k m)) else dget (dsets f0) k.

Lemma batch_ok f0 f b i : i <= length n -> state f0 f i ->
  dget (dsets f0) "density" = Some (Rows n) -> dget (dsets f0) "phi" = Some (Rows p) -> dget (dsets f0) "omega" = Some (Rows o) ->
  exists tr f', runs (do_batch zl f32V f32T table sel b i) (Some f) tr (Some f') (Ok tt) /\ state f0 f' (Nat.min (i + b) (length n)).
Proof.
  intros Hi [SA SG] Hn Hp Ho.
  assert (Field : forall k, In k ["density"; "phi"; "omega"]%string -> dget (dsets f) k = dget (dsets f0) k).
  { intros k Hk. rewrite SG. destruct (existsb (String.eqb k) sel) eqn:E; [|reflexivity].
    apply existsb_exists in E. destruct E as [x [Hx E]]. apply String.eqb_eq in E. subst x. exfalso. now apply (Hsel k). }
  destruct (batch_entries b i Hi table tbl f Htbl Hnd) as [tr [f' [R [A G]]]].
  { intros [k h] Hin. cbn [fst snd]. now apply In_dget. }
  { intros k H1 H2. rewrite SG. assert (E1 : existsb (String.eqb k) sel = true) by (apply existsb_exists; exists k; split; [exact H1|apply String.eqb_refl]).
    assert (E2 : existsb (String.eqb k) (keys tbl) = true) by (apply existsb_exists; exists k; split; [exact H2|apply String.eqb_refl]).
    now rewrite E1, E2. }
  exists tr, f'. split.
  - unfold do_batch, with_file, runs. rewrite bind_get. unfold rows_of, dlook.
    rewrite (Field "density"%string), (Field "phi"%string), (Field "omega"%string) by (cbn; tauto). rewrite Hn, Hp, Ho. cbn [bind].
    rewrite !bind_lift_ok. exact R.
  - split; [congruence|]. intros k. rewrite G, SG. destruct (existsb (String.eqb k) sel && existsb (String.eqb k) (keys tbl)); reflexivity.
Qed.

Lemma batches_ok f0 b : 1 <= b ->
  dget (dsets f0) "density" = Some (Rows n) -> dget (dsets f0) "phi" = Some (Rows p) -> dget (dsets f0) "omega" = Some (Rows o) ->
  forall k j f, state f0 f (Nat.min (j * b) (length n)) -> (forall j', j <= j' < j + k -> j' * b <= length n) ->
  exists tr f', runs (iseq (map (do_batch zl f32V f32T table sel b) (map (fun j => j * b) (seq j k)))) (Some f) tr (Some f') (Ok tt)
   /\ state f0 f' (Nat.min ((j + k) * b) (length n)).
Proof.
  intros Hb Hn Hp Ho. induction k as [|k IH]; intros j f St L.
  - exists [], f. split; [reflexivity|]. now rewrite Nat.add_0_r.
  - pose proof (L j ltac:(lia)) as Lj. rewrite Nat.min_l in St by exact Lj.
    destruct (batch_ok f0 f b (j * b) Lj St Hn Hp Ho) as [tr1 [f1 [R1 S1]]].
    replace (j * b + b) with (S j * b) in S1 by lia.
    destruct (IH (S j) f1 S1) as [tr2 [f2 [R2 S2]]]; [intros j' Hj'; apply L; lia|].
    exists (tr1 ++ tr2)%list, f2. split.
    + cbn [seq map iseq]. eapply runs_bind; [exact R1|exact R2].
    + replace (j + S k) with (S j + k) by lia. exact S2.
Qed.
End Props.

Section Calc.
Context {V T : Type}.
Variable zl : string -> row V T.
Variables (f32V : V -> V) (f32T : T -> T).

Lemma batch_cover steps b : 1 <= b -> steps <= (steps + b - 1) / b * b /\ forall j, j < (steps + b - 1) / b -> j * b <= steps.
Proof.
  intros Hb. pose proof (Nat.div_mod (steps + b - 1) b ltac:(lia)) as D.
  pose proof (Nat.mod_upper_bound (steps + b - 1) b ltac:(lia)) as M. set (q := (steps + b - 1) / b) in *. split; [nia|].
  intros j Hj. nia.
Qed.

Notation prop_rows := (SpecIO.prop_rows zl f32V f32T).

Lemma computes_incl (P : row V T -> Prop) a b (ta : prop_table V T) ti : incl b a -> computes P a ta ti -> computes P b ta ti.
Proof.
  intros H C. unfold computes in *. induction C as [|e e' l l' [H1 H2] F IH]; constructor; [|exact IH].
  split; [exact H1|]. intros Hin. apply H2. now apply H.
Qed.

Lemma calculate_ok (P : row V T -> Prop) (table : list (string * attr T) -> prop_table V T) tbl b plist force f n p o aa :
  1 <= b -> NoDup plist -> (forall k, In k plist -> ~ In k ["density"; "phi"; "omega"]%string) ->
  pick (attrs f) ["k0"; "x_save"; "c1"; "frame_dt"]%string = Ok aa ->
  dget (dsets f) "density" = Some (Rows n) -> dget (dsets f) "phi" = Some (Rows p) -> dget (dsets f) "omega" = Some (Rows o) ->
  length n = length p -> length p = length o -> Forall P n -> Forall P p -> Forall P o ->
  computes P plist (table (attrs f)) tbl -> NoDup (keys tbl) ->
  exists tr g, runs (calculate_properties zl f32V f32T table b plist force) (Some f) tr (Some g) (Ok tt)
    /\ attrs g = attrs f
    /\ forall k, dget (dsets g) k = if existsb (String.eqb k) plist && (force || negb (dhas (dsets f) k))
                 then Some (Rows (prop_rows tbl n p o k)) else dget (dsets f) k.
Proof.
  intros Hb Hnd Hav Hpick Hn Hp Ho L1 L2 Pn Pp Po Htbl Hk.
  destruct (prepare_ok zl (length n) force plist f Hnd) as [tr1 [f1 [R1 [A1 G1]]]].
  set (sel := filter (selected f force) plist) in *.
  assert (Esel : forall k, existsb (String.eqb k) sel = existsb (String.eqb k) plist && selected f force k).
  { intros k. unfold sel. clear. induction plist as [|x l IH]; [reflexivity|]. cbn [filter existsb].
    destruct (selected f force x) eqn:E; cbn [existsb]; rewrite IH; destruct (String.eqb_spec k x) as [->|]; cbn [orb andb]; try reflexivity.
    - now rewrite E.
    - rewrite E. destruct (existsb (String.eqb x) l); reflexivity. }
  assert (Hsel : forall k, In k sel -> ~ In k ["density"; "phi"; "omega"]%string).
  { intros k H. apply Hav. now apply filter_In in H. }
  assert (Keep : forall k, In k ["density"; "phi"; "omega"]%string -> dget (dsets f1) k = dget (dsets f) k).
  { intros k H. rewrite G1. rewrite <- Esel. destruct (existsb (String.eqb k) sel) eqn:E; [|reflexivity].
    apply existsb_exists in E. destruct E as [x [Hx E]]. apply String.eqb_eq in E. subst x. exfalso. now apply (Hsel k). }
  assert (S0 : state zl f32V f32T n p o tbl sel f1 f1 0).
  { split; [reflexivity|]. intros k. destruct (existsb (String.eqb k) sel) eqn:E1; [|reflexivity].
    destruct (existsb (String.eqb k) (keys tbl)); [|reflexivity]. cbn [andb]. rewrite G1, <- Esel, E1. unfold partial. cbn [firstn app].
    now rewrite Nat.sub_0_r. }
  assert (Htbl' : computes P sel (table (attrs f)) tbl).
  { apply (computes_incl P plist); [|exact Htbl]. intros k H. now apply filter_In in H. }
  destruct (batch_cover (length n) b Hb) as [BC1 BC2].
  destruct (batches_ok zl f32V f32T n p o L1 L2 P Pn Pp Po tbl (table (attrs f)) sel Htbl' Hk Hsel f1 b Hb
     ltac:(rewrite Keep; [exact Hn|cbn; tauto]) ltac:(rewrite Keep; [exact Hp|cbn; tauto]) ltac:(rewrite Keep; [exact Ho|cbn; tauto])
     ((length n + b - 1) / b) 0 f1) as [tr2 [g [R2 [SA SG]]]].
  { cbn [Nat.mul Nat.min]. exact S0. }
  { intros j Hj. apply BC2. lia. }
  exists ([OpenRP] ++ (tr1 ++ tr2))%list, g. split; [|split].
  - unfold calculate_properties. eapply runs_bind; [apply runs_op; reflexivity|].
    unfold runs, with_file. rewrite bind_get, Hpick, bind_lift_ok. unfold rows_of at 1, dlook. rewrite Hn. cbn [bind]. rewrite bind_lift_ok. cbv zeta.
    match goal with |- ?m ?fs = ((?tr, ?fs'), ?r) => change (runs m fs tr fs' r) end.
    eapply runs_bind; [exact R1|]. destruct (Nat.eqb_spec b 0) as [|_]; [lia|]. exact R2.
  - congruence.
  - intros k. rewrite SG, Esel, G1. unfold selected. cbn [Nat.add] in *. rewrite Nat.min_r by exact BC1.
    destruct (existsb (String.eqb k) plist && (force || negb (dhas (dsets f) k))); cbn [andb]; [|reflexivity].
    unfold prop_rows, partial, value. rewrite Nat.sub_diag. cbn [repeat]. rewrite app_nil_r.
    destruct (existsb (String.eqb k) (keys tbl)) eqn:E.
    + apply existsb_exists in E. destruct E as [x [Hx E]]. apply String.eqb_eq in E. subst x.
      destruct (dget_some_keys _ _ Hx) as [h Eh]. rewrite Eh. rewrite firstn_all2; [reflexivity|].
      rewrite map_length, zip3_length by assumption. lia.
    + destruct (dget tbl k) eqn:Ek; [|reflexivity]. apply dget_In in Ek. apply (in_map fst) in Ek. cbn [fst] in Ek.
      assert (existsb (String.eqb k) (keys tbl) = true) by (apply existsb_exists; exists k; split; [exact Ek|apply String.eqb_refl]). congruence.
Qed.
End Calc.
