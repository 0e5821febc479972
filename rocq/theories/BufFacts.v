(** The buffered writer: invariant, crash points, final content. *)
From Coq Require Import Arith ZArith Bool String List Lia.
From Verif Require Import Num NdArray ModelIO SpecIO IOFacts.
Import ListNotations.

Section BufFacts.
Context {V T : Type}.
Variable zero_like : string -> row V T.
Variables (f32V : V -> V) (f32T : T -> T).
Notation row := (row V T). Notation h5 := (h5 V T). Notation disk := (disk V T).
Notation fop := (fop V T). Notation IO := (IO V T). Notation buffer := (buffer V T).
Notation item := (item V T).
Notation f32 := (f32 f32V f32T).
Notation column := (column zero_like f32V f32T).
Notation stored := (stored zero_like f32V f32T).
Notation save := (save_to_buffered_h5 zero_like f32V f32T).
Notation save_all := (save_all zero_like f32V f32T).

Lemma faithful_append buf n : faithful zero_like (append_h5 zero_like buf n).
Proof.
  apply faithful_bind; [apply faithful_op|]. intros _. apply faithful_iseq. intros m Hm.
  apply in_map_iff in Hm. destruct Hm as [kv [<- _]]. apply faithful_bind; [apply faithful_op|]. intros _. apply faithful_op.
Qed.
Lemma faithful_update ls : faithful zero_like (update_last_state zero_like ls).
Proof.
  apply faithful_bind; [apply faithful_op|]. intros _. apply faithful_iseq. intros m Hm.
  apply in_map_iff in Hm. destruct Hm as [kv [<- _]]. apply faithful_op.
Qed.
Lemma faithful_save buf B i nv ls : faithful zero_like (save buf B i nv ls).
Proof.
  apply faithful_bind; [apply faithful_lift|]. intros b. cbv zeta.
  destruct (S i =? B); [|apply faithful_ret].
  apply faithful_bind; [apply faithful_append|]. intros _.
  apply faithful_bind; [destruct ls; [apply faithful_ret|apply faithful_update]|]. intros _. apply faithful_ret.
Qed.
Lemma faithful_save_all B l : forall bi, faithful zero_like (save_all B l bi).
Proof.
  induction l as [|it l IH]; intros bi; cbn [SpecIO.save_all]; [apply faithful_ret|].
  apply faithful_bind; [apply faithful_save|exact IH].
Qed.
Lemma faithful_runs {X} (m : IO X) fs tr fs' r :
  faithful zero_like m -> runs m fs tr fs' r -> allok zero_like tr fs /\ replay zero_like tr fs = fs'.
Proof. intros F R. specialize (F fs). unfold trace_of, disk_of in F. rewrite R in F. exact F. Qed.

(** ** Filling the buffer *)
Lemma buf_fill_ok (buf : buffer) i nv :
  (forall k rows, In (k, rows) buf -> i < length rows) ->
  (forall k, In k (keys buf) -> exists r, dget nv k = Some r) ->
  exists buf', buf_fill f32V f32T buf i nv = Ok buf' /\ keys buf' = keys buf /\
    (forall k rows', In (k, rows') buf' -> exists rows r, In (k, rows) buf /\ dget nv k = Some r /\ rows' = overwrite rows i [f32 r]).
Proof.
  induction buf as [|[k rows] buf IH]; intros Hi Hn.
  - exists []. repeat split. intros k rows' [].
  - destruct IH as [buf' [E [K P]]].
    { intros k' rows' H. apply (Hi k'). now right. }
    { intros k' H. apply Hn. now right. }
    destruct (Hn k (or_introl eq_refl)) as [r Hr].
    exists ((k, overwrite rows i [f32 r]) :: buf'). split; [|split].
    + cbn [buf_fill]. rewrite Hr. unfold buf_put.
      assert (L : (i <? length rows) = true) by (apply Nat.ltb_lt; apply (Hi k); now left).
      rewrite L. cbn [bind]. now rewrite E.
    + cbn [keys map fst]. f_equal. exact K.
    + intros k' rows' [H|H].
      * injection H as <- <-. exists rows, r. split; [now left|]. auto.
      * destruct (P k' rows' H) as [rows0 [r0 [H1 H2]]]. exists rows0, r0. split; [now right|exact H2].
Qed.

Variable B : nat.
Variables (ks sks : list string).
Hypothesis HB : 1 <= B.
Hypothesis Hks : NoDup ks.
Hypothesis Hsks : NoDup sks.
Variable old : string -> list row.
Variable f0 : h5.
Hypothesis Hold : forall k, In k ks -> dget (dsets f0) k = Some (Rows (old k)).
Hypothesis Hst : forall k, In k sks -> exists v, dget (dsets f0) k = Some (Whole v).

Lemma disjoint k : In k ks -> In k sks -> False.
Proof. intros H1 H2. apply Hold in H1. destruct (Hst k H2) as [v E]. congruence. Qed.

Definition flushed (n : nat) : nat := B * (n / B).
Notation good := (fun it : item => (forall k, In k ks -> exists r, dget (fst it) k = Some r) /\ keys (snd it) = sks).
Notation holds := (holds zero_like f32V f32T ks sks old f0).
Notation between := (between zero_like f32V f32T ks sks old f0).

Record Inv (done : list item) (f : h5) (buf : buffer) (idx : nat) : Prop := {
  inv_idx : idx = length done mod B;
  inv_keys : keys buf = ks;
  inv_good : Forall good done;
  inv_buf : forall k rows, In (k, rows) buf -> length rows = B /\ firstn idx rows = skipn (flushed (length done)) (column k done);
  inv_file : holds f done (flushed (length done)) (flushed (length done)) }.

Lemma flushed_le n : flushed n <= n.
Proof. unfold flushed. pose proof (Nat.div_mod n B). lia. Qed.
Lemma flushed_plus n : n = flushed n + n mod B.
Proof. unfold flushed. apply Nat.div_mod. lia. Qed.
Lemma div_step_full n : S (n mod B) = B -> S n mod B = 0 /\ flushed (S n) = S n.
Proof.
  intros H. assert (E : S n = B * S (n / B)).
  { pose proof (Nat.div_mod n B). lia. }
  assert (Q : S n / B = S (n / B)) by (rewrite E, Nat.mul_comm; apply Nat.div_mul; lia).
  split.
  - rewrite E, Nat.mul_comm. apply Nat.mod_mul. lia.
  - unfold flushed. rewrite Q. now symmetry.
Qed.
Lemma div_step_part n : S (n mod B) <> B -> S n mod B = S (n mod B) /\ flushed (S n) = flushed n.
Proof.
  intros H. assert (L : n mod B < B) by (apply Nat.mod_upper_bound; lia).
  assert (E : S n = B * (n / B) + S (n mod B)) by (pose proof (Nat.div_mod n B); lia).
  destruct (Nat.div_mod_unique B (S n / B) (n / B) (S n mod B) (S (n mod B))) as [Q R].
  - apply Nat.mod_upper_bound. lia.
  - lia.
  - rewrite <- Nat.div_mod by lia. exact E.
  - unfold flushed. rewrite Q. auto.
Qed.

Lemma column_app k l l' : column k (l ++ l') = (column k l ++ column k l')%list.
Proof. apply map_app. Qed.
Lemma column_length k l : length (column k l) = length l.
Proof. apply map_length. Qed.
Lemma firstn_column k l l' a : a <= length l -> firstn a (column k (l ++ l')) = firstn a (column k l).
Proof.
  intros H. rewrite column_app, firstn_app, column_length. replace (a - length l) with 0 by lia.
  cbn [firstn]. apply app_nil_r.
Qed.
Lemma state_after_app l l' a k : a <= length l -> state_after f0 (l ++ l') a k = state_after f0 l a k.
Proof. intros H. destruct a as [|a]; [reflexivity|]. cbn [state_after]. rewrite nth_error_app1 by lia. reflexivity. Qed.
Lemma between_app l l' a b g : a <= b -> b <= length l -> between g l a b -> between g (l ++ l') a b.
Proof.
  intros Ha Hb [A [R [S O]]]. split; [exact A|]. split; [|split; [|exact O]].
  - intros k Hk. rewrite !firstn_column by lia. now apply R.
  - intros k Hk. rewrite !state_after_app by lia. now apply S.
Qed.
Lemma holds_between l a g : holds g l a a -> between g l a a.
Proof.
  intros [A [R [S O]]]. split; [exact A|]. split; [|split; [|exact O]].
  - intros k Hk. left. now apply R.
  - intros k Hk. left. now apply S.
Qed.

(** the shape of every crash point *)
Definition crash_ok (items : list item) (tr : list fop) (f : h5) : Prop :=
  forall j, exists g a b, replay zero_like (firstn j tr) (Some f) = Some g /\
    (exists q, a = B * q) /\ a <= b /\ b <= a + B /\ b <= length items /\ between g items a b.

Lemma crash_ok_app done l tr f : crash_ok done tr f -> crash_ok (done ++ l) tr f.
Proof.
  intros C j. destruct (C j) as [g [a [b [R [q [Ha [Hb [Hc Bt]]]]]]]]. exists g, a, b.
  split; [exact R|]. split; [exact q|]. split; [exact Ha|]. split; [exact Hb|]. split.
  - rewrite app_length. lia.
  - apply between_app; [exact Ha|exact Hc|exact Bt].
Qed.
Lemma crash_ok_seq items tr tr' f f1 :
  allok zero_like tr (Some f) -> replay zero_like tr (Some f) = Some f1 ->
  crash_ok items tr f -> crash_ok items tr' f1 -> crash_ok items (tr ++ tr') f.
Proof.
  intros A R C1 C2 j. rewrite (crash_split zero_like tr tr' (Some f) (Some f1) j A R).
  destruct (j <=? length tr); [apply C1|apply C2].
Qed.
Lemma crash_ok_nil items f a q : holds f items a a -> a = B * q -> a <= length items -> crash_ok items [] f.
Proof.
  intros H Hq Ha j. exists f, a, a. rewrite firstn_nil. repeat split; try lia; try (exists q; exact Hq);
    destruct (holds_between _ _ _ H) as [A [R [S O]]]; auto.
Qed.

(** ** One save *)
Lemma skipn_column_snoc k done it a : a <= length done ->
  skipn a (column k (done ++ [it])) = (skipn a (column k done) ++ [stored it k])%list.
Proof.
  intros H. rewrite column_app, skipn_app, column_length. replace (a - length done) with 0 by lia. reflexivity.
Qed.
Lemma firstn_skipn_column k items a b : a <= b ->
  (firstn a (column k items) ++ firstn (b - a) (skipn a (column k items)))%list = firstn b (column k items).
Proof.
  intros H. transitivity (firstn (a + (b - a)) (column k items)); [|f_equal; lia].
  rewrite <- (firstn_skipn a (column k items)) at 3.
  destruct (le_lt_dec a (length (column k items))) as [L|L].
  - rewrite firstn_app, firstn_length. rewrite (firstn_all2 (firstn a (column k items))) by (rewrite firstn_length; lia).
    f_equal. f_equal. lia.
  - rewrite (firstn_all2 (n := a) (column k items)) by lia. rewrite (skipn_all2 (n := a)) by lia.
    rewrite app_nil_r, firstn_nil, app_nil_r. rewrite firstn_all2 by lia. reflexivity.
Qed.

Lemma save_step done f buf idx it : Inv done f buf idx -> good it ->
  exists tr f' buf' idx', runs (save buf B idx (fst it) (snd it)) (Some f) tr (Some f') (Ok (buf', idx'))
    /\ Inv (done ++ [it]) f' buf' idx' /\ crash_ok (done ++ [it]) tr f.
Proof.
  intros [I1 I2 IG I3 I4] [G1 G2].
  assert (L : idx < B) by (subst idx; apply Nat.mod_upper_bound; lia).
  destruct (buf_fill_ok buf idx (fst it)) as [buf' [E [K P]]].
  { intros k rows H. destruct (I3 k rows H). lia. }
  { intros k H. apply G1. now rewrite <- I2. }
  assert (P' : forall k rows', In (k, rows') buf' -> length rows' = B /\
             firstn (S idx) rows' = (skipn (flushed (length done)) (column k done) ++ [stored it k])%list).
  { intros k rows' H. destruct (P k rows' H) as [rows [r [H1 [H2 ->]]]]. destruct (I3 k rows H1) as [L1 L2].
    split; [rewrite overwrite_length; cbn [length]; lia|]. rewrite overwrite1_firstn by lia. rewrite L2. f_equal.
    unfold SpecIO.stored. rewrite H2. destruct r; reflexivity. }
  pose proof (flushed_le (length done)) as FL.
  assert (LL : length (done ++ [it]) = S (length done)) by (rewrite app_length; cbn [length]; lia).
  unfold save_to_buffered_h5. unfold runs. rewrite E.
  destruct (Nat.eqb_spec (S idx) B) as [EB|NB].
  - (* a flush *)
    destruct (div_step_full (length done)) as [M F]; [congruence|].
    assert (FB : flushed (length done) + B = S (length done)) by (pose proof (flushed_plus (length done)); lia).
    assert (Hfl : flushable f buf' B).
    { split; [rewrite K, I2; exact Hks|]. split; [lia|]. intros k rows H. split; [destruct (P' k rows H); lia|].
      destruct I4 as [_ [R _]]. eexists. apply R. rewrite <- I2, <- K. now apply (in_map fst) in H. }
    destruct (append_ok zero_like buf' B f Hfl) as [f1 [R1 [[GA [GI GO]] C1]]].
    assert (Hk1 : forall k, In k ks -> dget (dsets f1) k = Some (Rows (old k ++ firstn (S (length done)) (column k (done ++ [it])))%list)).
    { intros k Hk. assert (Hk' : In k (keys buf')) by (now rewrite K, I2).
      unfold keys in Hk'. apply in_map_iff in Hk'. destruct Hk' as [[k' rows] [Ek Hin]]. cbn [fst] in Ek. subst k'.
      destruct I4 as [_ [R _]]. rewrite (GI k rows _ Hin (R k Hk)). f_equal. f_equal. rewrite <- app_assoc. f_equal.
      destruct (P' k rows Hin) as [_ Q]. rewrite EB in Q. rewrite Q.
      rewrite <- (skipn_column_snoc k done it) by lia. rewrite <- (firstn_column k done [it] (flushed (length done))) by lia.
      rewrite firstn_skipn. rewrite firstn_all2 by (rewrite column_length; lia). reflexivity. }
    assert (Hstate1 : forall k, In k sks -> dget (dsets f1) k = state_after f0 (done ++ [it]) (flushed (length done)) k).
    { intros k Hk. rewrite GO; [destruct I4 as [_ [_ [S _]]]; rewrite state_after_app by lia; now apply S|].
      rewrite K, I2. intros Hk'. exact (disjoint k Hk' Hk). }
    assert (Hother1 : forall k, ~ In k ks -> ~ In k sks -> dget (dsets f1) k = dget (dsets f0) k).
    { intros k H1 H2. rewrite GO by (now rewrite K, I2). destruct I4 as [_ [_ [_ O]]]. now apply O. }
    assert (Cflush : crash_ok (done ++ [it]) (OpenA :: flush_ops buf' B) f).
    { intros j. destruct (C1 j) as [g [Rg [TA [TI TO]]]]. exists g, (flushed (length done)), (S (length done)).
      split; [exact Rg|]. split; [eexists; reflexivity|]. split; [lia|]. split; [lia|]. split; [lia|].
      destruct I4 as [A4 [R4 [S4 O4]]].
      split; [congruence|]. split; [|split].
      - intros k Hk. assert (Hk' : In k (keys buf')) by (now rewrite K, I2).
        unfold keys in Hk'. apply in_map_iff in Hk'. destruct Hk' as [[k' rows] [Ek Hin]]. cbn [fst] in Ek. subst k'.
        rewrite firstn_column by lia.
        destruct (TI k rows Hin _ (R4 k Hk)) as [Q|[Q|Q]].
        + now left.
        + right. left. rewrite Q. rewrite <- app_assoc. repeat f_equal. lia.
        + right. right. rewrite Q, <- (Hk1 k Hk). symmetry. apply (GI k rows _ Hin (R4 k Hk)).
      - intros k Hk. left. rewrite TO; [rewrite state_after_app by lia; now apply S4|].
        rewrite K, I2. intros Hk'. exact (disjoint k Hk' Hk).
      - intros k H1 H2. rewrite TO by (now rewrite K, I2). now apply O4. }
    assert (FA : faithful zero_like (append_h5 zero_like buf' B)) by apply faithful_append.
    destruct (faithful_runs _ _ _ _ _ FA R1) as [AL RE].
    (* the state update *)
    assert (U : exists tr2 f2, runs (match snd it with [] => iret tt | _ => update_last_state zero_like (snd it) end) (Some f1) tr2 (Some f2) (Ok tt)
        /\ holds f2 (done ++ [it]) (S (length done)) (S (length done)) /\ crash_ok (done ++ [it]) tr2 f1).
    { assert (SL : forall k, state_after f0 (done ++ [it]) (S (length done)) k = match dget (snd it) k with Some v => Some (Whole v) | None => None end).
      { intros k. cbn [state_after]. rewrite nth_error_app2, Nat.sub_diag by lia. reflexivity. }
      destruct I4 as [A4 [R4 [S4 O4]]].
      destruct (state_entries zero_like (snd it) f1) as [f2 [R2 [A2 [I2' [O2 C2]]]]].
      { now rewrite G2. }
      { rewrite G2. intros k Hk. rewrite GO by (rewrite K, I2; intros Hk'; exact (disjoint k Hk' Hk)).
        rewrite (S4 k Hk). clear - Hst Hk S4 IG FL. destruct (flushed (length done)) as [|m] eqn:Em.
        - now apply Hst.
        - cbn [state_after]. destruct (nth_error done m) as [it'|] eqn:En.
          + destruct (dget (snd it') k) eqn:Ed; [eauto|]. exfalso.
            apply nth_error_In in En. rewrite Forall_forall in IG. destruct (IG it' En) as [_ Q].
            apply dget_None in Ed. apply Ed. now rewrite Q.
          + exfalso. apply nth_error_None in En. lia. }
      assert (H2 : holds f2 (done ++ [it]) (S (length done)) (S (length done))).
      { split; [congruence|]. split; [|split].
        - intros k Hk. rewrite O2; [now apply Hk1|]. rewrite G2. intros Hk'. exact (disjoint k Hk Hk').
        - intros k Hk. rewrite SL. rewrite <- G2 in Hk. destruct (dget_some_keys _ _ Hk) as [v Ev].
          rewrite Ev. now apply I2'.
        - intros k N1 N2. rewrite O2 by (now rewrite G2). now apply Hother1. }
      assert (CC : forall j, exists g, replay zero_like (firstn j (map (fun kv => WriteWhole (fst kv) (snd kv)) (snd it))) (Some f1) = Some g
                    /\ between g (done ++ [it]) (flushed (length done)) (S (length done))).
      { intros j. destruct (C2 j) as [g [Rg [Ag [Ig Og]]]]. exists g. split; [exact Rg|].
        split; [congruence|]. split; [|split].
        - intros k Hk. right. right. rewrite Og; [now apply Hk1|]. rewrite G2. intros Hk'. exact (disjoint k Hk Hk').
        - intros k Hk. pose proof Hk as Hk0. rewrite <- G2 in Hk. destruct (dget_some_keys _ _ Hk) as [v Ev].
          destruct (Ig k v Ev) as [Q|Q]; [right|left].
          + rewrite SL, Ev. exact Q.
          + rewrite Q. now apply Hstate1.
        - intros k N1 N2. rewrite Og by (now rewrite G2). now apply Hother1. }
      destruct (snd it) as [|kv ls] eqn:Els.
      - exists [], f2. cbn [map iseq] in R2. unfold runs, iret in R2. injection R2 as <-. split; [reflexivity|]. split; [exact H2|].
        intros j. destruct (CC j) as [g [Rg Bg]]. exists g, (flushed (length done)), (S (length done)).
        split; [exact Rg|]. split; [eexists; reflexivity|]. repeat (split; [lia|]). exact Bg.
      - exists (OpenRP :: map (fun kv => WriteWhole (fst kv) (snd kv)) (kv :: ls)), f2. split; [|split; [exact H2|]].
        + unfold update_last_state. change (OpenRP :: ?x) with ([OpenRP] ++ x)%list.
          eapply runs_bind; [apply runs_op; reflexivity|exact R2].
        + intros [|j].
          * destruct (CC 0) as [g [Rg Bg]]. exists g, (flushed (length done)), (S (length done)).
            split; [exact Rg|]. split; [eexists; reflexivity|]. repeat (split; [lia|]). exact Bg.
          * destruct (CC j) as [g [Rg Bg]]. exists g, (flushed (length done)), (S (length done)).
            split; [exact Rg|]. split; [eexists; reflexivity|]. repeat (split; [lia|]). exact Bg. }
    destruct U as [tr2 [f2 [R2 [H2 C2]]]].
    exists ((OpenA :: flush_ops buf' B) ++ (tr2 ++ []))%list, f2, buf', 0. split; [|split].
    + rewrite bind_lift_ok. cbv zeta. rewrite EB. try rewrite Nat.eqb_refl.
      match goal with |- ?m ?fs = ((?tr, ?fs'), ?r) => change (runs m fs tr fs' r) end.
      eapply runs_bind; [exact R1|]. eapply runs_bind; [exact R2|]. apply runs_ret.
    + constructor.
      * rewrite LL. now symmetry.
      * now rewrite K, I2.
      * apply Forall_app. split; [exact IG|]. now constructor.
      * intros k rows H. destruct (P' k rows H) as [L1 _]. split; [exact L1|]. rewrite LL, F.
        rewrite skipn_all2 by (rewrite column_length; lia). reflexivity.
      * rewrite LL, F. exact H2.
    + apply (crash_ok_seq _ _ _ f f1 AL RE Cflush). rewrite app_nil_r. exact C2.
  - (* the frame stays in the buffer *)
    destruct (div_step_part (length done)) as [M F]; [congruence|].
    assert (H2 : holds f (done ++ [it]) (flushed (S (length done))) (flushed (S (length done)))).
    { destruct I4 as [A4 [R4 [S4 O4]]]. split; [exact A4|]. rewrite F. split; [|split; [|exact O4]].
      - intros k Hk. rewrite firstn_column by lia. now apply R4.
      - intros k Hk. rewrite state_after_app by lia. now apply S4. }
    exists [], f, buf', (S idx). split; [|split].
    + rewrite bind_lift_ok. apply Nat.eqb_neq in NB. try rewrite NB. reflexivity.
    + constructor.
      * rewrite LL. congruence.
      * now rewrite K, I2.
      * apply Forall_app. split; [exact IG|]. now constructor.
      * intros k rows H. destruct (P' k rows H) as [L1 L2]. split; [exact L1|]. rewrite LL, F.
        rewrite skipn_column_snoc by lia. exact L2.
      * rewrite LL. exact H2.
    + apply (crash_ok_nil _ _ _ (S (length done) / B) H2); [reflexivity|]. rewrite LL. apply flushed_le.
Qed.

(** ** Many saves *)
Lemma save_all_ok l : forall done f buf idx, Inv done f buf idx -> Forall good l ->
  exists tr f' buf' idx', runs (save_all B l (buf, idx)) (Some f) tr (Some f') (Ok (buf', idx'))
    /\ Inv (done ++ l) f' buf' idx' /\ crash_ok (done ++ l) tr f.
Proof.
  induction l as [|it l IH]; intros done f buf idx I G.
  - exists [], f, buf, idx. split; [reflexivity|]. rewrite app_nil_r. split; [exact I|].
    apply (crash_ok_nil _ _ _ _ (inv_file _ _ _ _ I) eq_refl). apply flushed_le.
  - apply Forall_cons_iff in G. destruct G as [G1 G2].
    destruct (save_step done f buf idx it I G1) as [tr1 [f1 [buf1 [idx1 [R1 [I1 C1]]]]]].
    destruct (IH (done ++ [it])%list f1 buf1 idx1 I1 G2) as [tr2 [f2 [buf2 [idx2 [R2 [I2 C2]]]]]].
    rewrite <- app_assoc in I2, C2. cbn [app] in I2, C2.
    exists (tr1 ++ tr2)%list, f2, buf2, idx2. split; [|split; [exact I2|]].
    + cbn [SpecIO.save_all fst snd]. eapply runs_bind; [exact R1|exact R2].
    + destruct (faithful_runs _ _ _ _ _ (faithful_save _ _ _ _ _) R1) as [AL RE].
      apply (crash_ok_seq _ _ _ f f1 AL RE); [|exact C2].
      apply (crash_ok_app _ l) in C1. rewrite <- app_assoc in C1. exact C1.
Qed.

Lemma inv_start buf : keys buf = ks -> (forall k rows, In (k, rows) buf -> length rows = B) -> Inv [] f0 buf 0.
Proof.
  intros K L. assert (Z : flushed 0 = 0) by (unfold flushed; rewrite Nat.div_small by lia; lia).
  constructor.
  - cbn [length]. now rewrite Nat.mod_small by lia.
  - exact K.
  - constructor.
  - intros k rows H. split; [now apply (L k)|]. cbn [length]. rewrite Z. reflexivity.
  - cbn [length]. rewrite Z. split; [reflexivity|]. split; [|split; [|reflexivity]].
    + intros k Hk. cbn [firstn]. rewrite app_nil_r. now apply Hold.
    + reflexivity.
Qed.

Lemma flush_rest done f buf idx : Inv done f buf idx ->
  exists tr f', runs (if 0 <? idx then append_h5 zero_like buf idx else iret tt) (Some f) tr (Some f') (Ok tt)
    /\ holds f' done (length done) (flushed (length done)) /\ crash_ok done tr f.
Proof.
  intros I. pose proof I as [I1 I2 IG I3 I4]. pose proof (flushed_plus (length done)) as FP. rewrite <- I1 in FP.
  pose proof (flushed_le (length done)) as FL.
  assert (LB : idx < B) by (subst idx; apply Nat.mod_upper_bound; lia).
  destruct (Nat.ltb_spec 0 idx) as [P|P].
  - assert (Hfl : flushable f buf idx).
    { split; [rewrite I2; exact Hks|]. split; [lia|]. intros k rows H. split; [destruct (I3 k rows H); lia|].
      destruct I4 as [_ [R _]]. eexists. apply R. rewrite <- I2. now apply (in_map fst) in H. }
    destruct (append_ok zero_like buf idx f Hfl) as [f1 [R1 [[GA [GI GO]] C1]]].
    destruct I4 as [A4 [R4 [S4 O4]]].
    assert (Hk1 : forall k, In k ks -> dget (dsets f1) k = Some (Rows (old k ++ firstn (length done) (column k done))%list)).
    { intros k Hk. assert (Hk' : In k (keys buf)) by (now rewrite I2).
      unfold keys in Hk'. apply in_map_iff in Hk'. destruct Hk' as [[k' rows] [Ek Hin]]. cbn [fst] in Ek. subst k'.
      rewrite (GI k rows _ Hin (R4 k Hk)). f_equal. f_equal. rewrite <- app_assoc. f_equal.
      destruct (I3 k rows Hin) as [_ Q]. rewrite Q. rewrite firstn_skipn.
      rewrite firstn_all2 by (rewrite column_length; lia). reflexivity. }
    exists (OpenA :: flush_ops buf idx), f1. split; [exact R1|]. split.
    + split; [congruence|]. split; [exact Hk1|]. split.
      * intros k Hk. rewrite GO; [now apply S4|]. rewrite I2. intros Hk'. exact (disjoint k Hk' Hk).
      * intros k H1 H2. rewrite GO by (now rewrite I2). now apply O4.
    + intros j. destruct (C1 j) as [g [Rg [TA [TI TO]]]]. exists g, (flushed (length done)), (length done).
      split; [exact Rg|]. split; [eexists; reflexivity|]. split; [lia|]. split; [lia|]. split; [lia|].
      split; [congruence|]. split; [|split].
      * intros k Hk. assert (Hk' : In k (keys buf)) by (now rewrite I2).
        unfold keys in Hk'. apply in_map_iff in Hk'. destruct Hk' as [[k' rows] [Ek Hin]]. cbn [fst] in Ek. subst k'.
        destruct (TI k rows Hin _ (R4 k Hk)) as [Q|[Q|Q]].
        -- now left.
        -- right. left. rewrite Q. rewrite <- app_assoc. repeat f_equal. lia.
        -- right. right. rewrite Q, <- (Hk1 k Hk). symmetry. apply (GI k rows _ Hin (R4 k Hk)).
      * intros k Hk. left. rewrite TO; [now apply S4|]. rewrite I2. intros Hk'. exact (disjoint k Hk' Hk).
      * intros k H1 H2. rewrite TO by (now rewrite I2). now apply O4.
  - assert (Z : idx = 0) by lia. rewrite Z, Nat.add_0_r in FP. exists [], f. split; [reflexivity|]. split.
    + rewrite <- FP in I4 at 1. exact I4.
    + apply (crash_ok_nil _ _ _ _ I4 eq_refl FL).
Qed.
End BufFacts.

Section Writer.
Context {V T : Type}.
Variable zero_like : string -> row V T.
Variables (f32V : V -> V) (f32T : T -> T).

Lemma ready_inv B ks sks old f buf :
  ready B ks sks old f buf -> Inv zero_like f32V f32T B ks sks old f [] f buf 0.
Proof. intros [H1 H2 H3 H4 H5 H6 H7]. now apply inv_start. Qed.

(** after saving [items] without a final flush *)
Lemma save_all_spec B ks sks old f buf items :
  ready B ks sks old f buf -> complete ks sks items ->
  exists f' buf' idx',
    result_of (save_all zero_like f32V f32T B items (buf, 0)) (Some f) = Ok (buf', idx')
    /\ disk_of (save_all zero_like f32V f32T B items (buf, 0)) (Some f) = Some f'
    /\ idx' = length items mod B /\ idx' < B
    /\ holds zero_like f32V f32T ks sks old f f' items (B * (length items / B)) (B * (length items / B)).
Proof.
  intros R C. pose proof (ready_inv _ _ _ _ _ _ R) as I. destruct R as [H1 H2 H3 H4 H5 H6 H7].
  destruct (save_all_ok zero_like f32V f32T B ks sks H1 H3 H6 old f H5 H7 items [] f buf 0 I C)
    as [tr [f' [buf' [idx' [Rn [I' _]]]]]]. cbn [app] in I'.
  exists f', buf', idx'. unfold result_of, disk_of. rewrite Rn. cbn [fst snd].
  split; [reflexivity|]. split; [reflexivity|]. destruct I' as [J1 _ _ _ J5]. split; [exact J1|]. split; [|exact J5].
  subst idx'. apply Nat.mod_upper_bound. lia.
Qed.

Lemma save_and_flush_spec B ks sks old f buf items :
  ready B ks sks old f buf -> complete ks sks items ->
  exists f', result_of (save_and_flush zero_like f32V f32T B items (buf, 0)) (Some f) = Ok tt
    /\ disk_of (save_and_flush zero_like f32V f32T B items (buf, 0)) (Some f) = Some f'
    /\ holds zero_like f32V f32T ks sks old f f' items (length items) (B * (length items / B))
    /\ forall j, exists g a b,
         crash_after zero_like j (save_and_flush zero_like f32V f32T B items (buf, 0)) (Some f) = Some g
         /\ (exists q, a = B * q) /\ a <= b /\ b <= a + B /\ b <= length items
         /\ between zero_like f32V f32T ks sks old f g items a b.
Proof.
  intros R C. pose proof (ready_inv _ _ _ _ _ _ R) as I. destruct R as [H1 H2 H3 H4 H5 H6 H7].
  destruct (save_all_ok zero_like f32V f32T B ks sks H1 H3 H6 old f H5 H7 items [] f buf 0 I C)
    as [tr [f1 [buf1 [idx1 [R1 [I1 C1]]]]]]. cbn [app] in I1, C1.
  destruct (flush_rest zero_like f32V f32T B ks sks H1 H3 old f H5 H7 items f1 buf1 idx1 I1) as [tr2 [f2 [R2 [Hf C2]]]].
  assert (RR : runs (save_and_flush zero_like f32V f32T B items (buf, 0)) (Some f) (tr ++ tr2) (Some f2) (Ok tt)).
  { unfold save_and_flush. eapply runs_bind; [exact R1|exact R2]. }
  exists f2. unfold result_of, disk_of, crash_after, trace_of. rewrite RR. cbn [fst snd].
  split; [reflexivity|]. split; [reflexivity|]. split; [exact Hf|].
  destruct (faithful_runs zero_like _ _ _ _ _ (faithful_save_all zero_like f32V f32T B items (buf, 0)) R1) as [AL RE].
  intros j. rewrite RR. cbn [fst].
  exact (crash_ok_seq zero_like f32V f32T B ks sks old f items tr tr2 f f1 AL RE C1 C2 j).
Qed.
End Writer.
