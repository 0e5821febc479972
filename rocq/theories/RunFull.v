(** run.py with the computation of properties at the end. *)
From Coq Require Import Arith ZArith Bool String List Lia.
From Verif Require Import Num NdArray ModelIO ModelRun SpecIO SpecRun IOFacts BufFacts RunFacts RunFiles RunProps PropsFacts KeepFacts.
Import ListNotations.

(** ** The properties computed at the end *)
Section After.
Context {V T : Type} {TN : TimeNum T}.
Variable s : sim V T.
Variable c : cfg V T.
Notation zl := (zero_like s).

Notation props_fine := (SpecRun.props_fine s c).

Lemma props_after P g tbl n p o : 1 <= c_blen c -> props_fine P (attrs g) tbl ->
  dget (dsets g) "density" = Some (Rows n) -> dget (dsets g) "phi" = Some (Rows p) -> dget (dsets g) "omega" = Some (Rows o) ->
  length n = length p -> length p = length o -> Forall P n -> Forall P p -> Forall P o ->
  exists tr g', runs (run_properties_ s c) (Some g) tr (Some g') (Ok tt) /\ attrs g' = attrs g /\
    forall k, dget (dsets g') k = if existsb (String.eqb k) (c_props c)
      then Some (Rows (prop_rows zl (s_f32V s) (s_f32T s) tbl n p o k)) else dget (dsets g) k.
Proof.
  intros HB [N [Hav [[aa Ha] [Ht Hk]]]] Hn Hp Ho L1 L2 P1 P2 P3.
  destruct (calculate_ok zl (s_f32V s) (s_f32T s) P (s_table s) tbl (c_blen c) (c_props c) true g n p o aa HB N) as [tr [g' [R [A G]]]]; auto.
  { intros k H H'. apply (Hav k H). cbn in H' |- *. tauto. }
  unfold run_properties_. destruct (c_props c) as [|x l] eqn:E.
  - exists [], g. repeat split.
  - exists tr, g'. split; [exact R|]. split; [exact A|]. intros k. rewrite G. cbn [orb]. now rewrite andb_true_r.
Qed.
End After.


(** ** run = run without properties, then the properties *)
Definition noprops {V T} (c : cfg V T) : cfg V T :=
  mkCfg (c_step c) (c_end c) (c_phys c) (c_dx c) (c_c1 c) (c_x c) (c_y c) (c_xs c) (c_ys c) (c_output c) (c_rec c)
    (c_continue c) (c_blen c) (c_snaps c) (c_down c) (c_last c) (c_force c) (c_adaptive c) [].

Section Full.
Context {V T : Type} {TN : TimeNum T}.
Variable s : sim V T.
Variable c : cfg V T.
Notation zl := (zero_like s).

Lemma loop_noprops phys k : forall it pl bi, run_loop s (noprops c) phys k it pl bi = run_loop s c phys k it pl bi.
Proof. induction k as [|k IH]; intros it pl bi; [reflexivity|]. cbn [run_loop]. reflexivity. Qed.

Lemma run_split pl0 fs : c_output c = true -> (fs = None \/ c_force c = true \/ c_continue c = true) ->
  run s c pl0 fs = ibind (run s (noprops c) pl0) (fun _ => run_properties_ s c) fs.
Proof.
  intros Ho H. unfold run. cbn [c_output noprops]. rewrite Ho. cbn [negb].
  change (run_files s (noprops c) pl0) with (run_files s c pl0). rewrite bind_assoc.
  unfold run_files. rewrite !bind_assoc, !bind_get.
  assert (E : forall m : IO V T (start V T), ibind (ibind m (fun st => iret (Some st))) (fun st => match st with None => iret tt
       | Some st => ibind (run_simulate s c st) (fun _ => run_properties_ s c) end) fs =
     ibind (ibind m (fun st => iret (Some st))) (fun x => ibind (match x with None => iret tt
       | Some st => ibind (run_simulate s (noprops c) st) (fun _ => run_properties_ s (noprops c)) end) (fun _ => run_properties_ s c)) fs).
  { intros m. rewrite !bind_assoc. apply bind_ext. intros st fs'. rewrite !bind_ret_l, bind_assoc.
    change (run_simulate s (noprops c) st) with (run_simulate s c st). apply bind_ext. intros _ fs2.
    unfold run_properties_ at 2. cbn [c_props noprops]. now rewrite bind_ret_l. }
  destruct fs as [f|]; [|apply E]. destruct (c_force c) eqn:Hf; [apply E|]. unfold run_continue.
  destruct H as [H|[H|H]]; try discriminate. rewrite H. rewrite !bind_assoc. apply bind_ext. intros fs1 fs2.
  rewrite !bind_assoc. apply bind_ext. intros [ld phys] fs3. cbv zeta. rewrite !bind_assoc. apply bind_ext. intros _ fs4.
  rewrite !bind_ret_l, bind_assoc. match goal with |- context [run_simulate s (noprops c) ?st] => change (run_simulate s (noprops c) st) with (run_simulate s c st) end.
  apply bind_ext. intros _ fs5. unfold run_properties_ at 2. cbn [c_props noprops]. now rewrite bind_ret_l.
Qed.

Notation apart1 := (SpecRun.apart1 c).

(** from the file left by the loop to the end of the run *)
Lemma full_tail P pl0 fs g ds old l tbl : c_output c = true -> (fs = None \/ c_force c = true \/ c_continue c = true) -> 1 <= c_blen c ->
  result_of (run s (noprops c) pl0) fs = Ok tt -> disk_of (run s (noprops c) pl0) fs = Some g -> records s ds old g l ->
  (forall k k', In k field_keys -> In k' field_keys -> length (old k) = length (old k')) ->
  props_fine s c P (attrs g) tbl -> frames_P P (fun k => (old k ++ map (fun tp => frame_row s ds (fst tp) (snd tp) k) l)%list) ->
  exists g', result_of (run s c pl0) fs = Ok tt /\ disk_of (run s c pl0) fs = Some g' /\ attrs g' = attrs g
   /\ records s ds old g' l
   /\ (forall k, ~ In k (c_props c) -> dget (dsets g') k = dget (dsets g) k)
   /\ (forall k, In k (c_props c) -> dget (dsets g') k = Some (Rows (prop_rows zl (s_f32V s) (s_f32T s) tbl
           (old "density" ++ map (fun tp => frame_row s ds (fst tp) (snd tp) "density") l)
           (old "phi" ++ map (fun tp => frame_row s ds (fst tp) (snd tp) "phi") l)
           (old "omega" ++ map (fun tp => frame_row s ds (fst tp) (snd tp) "omega") l) k))%string)
   /\ (forall j, (crash_after zl j (run s c pl0) fs = crash_after zl j (run s (noprops c) pl0) fs) \/
         exists h, crash_after zl j (run s c pl0) fs = Some h /\ length (trace_of (run s (noprops c) pl0) fs) < j /\
           forall k, ~ In k (c_props c) -> dget (dsets h) k = dget (dsets g) k).
Proof.
  intros Ho Hfs HB R1 D1 Rec HL Hpf HP.
  set (rows k := (old k ++ map (fun tp => frame_row s ds (fst tp) (snd tp) k) l)%list).
  assert (Lr : forall k k', In k field_keys -> In k' field_keys -> length (rows k) = length (rows k')).
  { intros k k' H H'. unfold rows. rewrite !app_length, !map_length, (HL k k' H H'). reflexivity. }
  destruct (props_after s c P g tbl (rows "density"%string) (rows "phi"%string) (rows "omega"%string) HB Hpf) as [tr2 [g' [R2 [A2 G2]]]];
    try (apply Rec; cbn; tauto); try (apply Lr; cbn; tauto); try (apply HP; cbn; tauto).
  unfold result_of, disk_of in R1, D1. destruct (run s (noprops c) pl0 fs) as [[tr1 d1] r1] eqn:E1. cbn [fst snd] in R1, D1. subst d1 r1.
  assert (RR : run s c pl0 fs = ((tr1 ++ tr2, Some g'), Ok tt)%list).
  { rewrite (run_split pl0 fs Ho Hfs). change (runs (ibind (run s (noprops c) pl0) (fun _ => run_properties_ s c)) fs (tr1 ++ tr2) (Some g') (Ok tt)).
    eapply runs_bind; [exact E1|exact R2]. }
  assert (Other : forall k, ~ In k (c_props c) -> dget (dsets g') k = dget (dsets g) k).
  { intros k Hk. rewrite G2. now rewrite (existsb_false _ _ Hk). }
  exists g'. unfold result_of, disk_of. rewrite RR. cbn [fst snd].
  split; [reflexivity|]. split; [reflexivity|]. split; [exact A2|]. split; [|split; [exact Other|split]].
  - intros k Hk. rewrite Other; [now apply Rec|]. intros H. destruct Hpf as [_ [Hav _]]. now apply (Hav k H).
  - intros k Hk. rewrite G2, (existsb_true k _ Hk). reflexivity.
  - intros j. unfold crash_after, trace_of. rewrite RR, E1. cbn [fst].
    destruct (faithful_runs zl _ _ _ _ _ (faithful_run s (noprops c) pl0) E1) as [AL RE].
    rewrite (crash_split zl tr1 tr2 fs (Some g) j AL RE). destruct (j <=? length tr1) eqn:Ej; [now left|right].
    apply Nat.leb_gt in Ej. destruct (same_props s c) as [_ SP]. specialize (SP (Some g) (j - length tr1)).
    unfold crash_after, trace_of in SP. rewrite R2 in SP. cbn [fst] in SP.
    destruct (replay zl (firstn (j - length tr1) tr2) (Some g)) as [h|]; [|destruct SP]. exists h. split; [reflexivity|]. split; [exact Ej|]. apply SP.
Qed.

Lemma run_fresh_full P pl0 phi traj steps n ds fs tbl :
  c_output c = true -> (fs = None \/ c_force c = true) -> 1 <= c_blen c -> (c_snaps c =? 0)%Z = false -> NoDup (keys (c_phys c)) ->
  downsampled c ds pl0 -> goes s c (c_phys c) (nofZ 0) pl0 phi traj steps n ds ->
  apart1 -> props_fine s c P (save_params_of c (c_phys c) false) tbl ->
  let l := fresh_log c pl0 (time1 c) traj n in
  frames_P P (fun k => map (fun tp => frame_row s ds (fst tp) (snd tp) k) l) ->
  exists g, result_of (run s c pl0) fs = Ok tt /\ disk_of (run s c pl0) fs = Some g
   /\ records s ds (fun _ => []) g l
   /\ attrs g = save_params_of c (c_phys c) false
   /\ (add_last c = true -> holds_state (fun _ => Some (Whole (s_zeroV s))) g l (c_blen c * (length l / c_blen c)))
   /\ (forall k, In k (c_props c) -> dget (dsets g) k = Some (Rows (prop_rows zl (s_f32V s) (s_f32T s) tbl
           (map (fun tp => frame_row s ds (fst tp) (snd tp) "density") l)
           (map (fun tp => frame_row s ds (fst tp) (snd tp) "phi") l)
           (map (fun tp => frame_row s ds (fst tp) (snd tp) "omega") l) k))%string)
   /\ (exists j0, (forall j, j < j0 -> crash_after zl j (run s c pl0) fs = fs \/
          exists g, crash_after zl j (run s c pl0) fs = Some g /\ forall k, In k field_keys -> dget (dsets g) k = None \/ dget (dsets g) k = Some (Rows []))
        /\ forall j, j0 <= j -> exists g a b, crash_after zl j (run s c pl0) fs = Some g /\ (exists q, a = c_blen c * q)
            /\ a <= b /\ b <= a + c_blen c /\ b <= length l /\ torn_records s ds (fun _ => []) g l a b).
Proof.
  intros Ho Hf HB Hsn HN Hd0 Hg Hap Hpf l HP.
  destruct (run_fresh s (noprops c) pl0 phi traj steps n ds fs Ho Hf eq_refl HB Hsn HN Hd0 Hg) as [g [R1 [D1 [Rec [A1 [S1 [j0 [C0 C1]]]]]]]].
  change (fresh_log (noprops c) pl0 (time1 (noprops c)) traj n) with l in *.
  change (save_params_of (noprops c) (c_phys (noprops c)) false) with (save_params_of c (c_phys c) false) in A1.
  change (c_blen (noprops c)) with (c_blen c) in *. change (add_last (noprops c)) with (add_last c) in *.
  destruct (full_tail P pl0 fs g ds (fun _ => []) l tbl Ho ltac:(tauto) HB R1 D1 Rec ltac:(reflexivity) ltac:(rewrite A1; exact Hpf) HP)
    as [g' [R [D [A [Rec' [Oth [PR CR]]]]]]].
  exists g'. split; [exact R|]. split; [exact D|]. split; [exact Rec'|]. split; [congruence|]. split; [|split; [exact PR|]].
  - intros Ha k Hk. rewrite Oth; [now apply S1|]. intros H. now apply (Hap k H).
  - assert (Hl : j0 <= length (trace_of (run s (noprops c) pl0) fs) \/ length (trace_of (run s (noprops c) pl0) fs) < j0) by lia.
    exists (Nat.min j0 (S (length (trace_of (run s (noprops c) pl0) fs)))). split.
    + intros j Hj. destruct (CR j) as [Q|[h [Q [Hj' _]]]]; [|lia]. rewrite Q. apply C0. lia.
    + intros j Hj. destruct (CR j) as [Q|[h [Q [Hj' Hh]]]].
      * rewrite Q. destruct Hl as [Hl|Hl]; [apply C1; lia|].
        assert (E : crash_after zl j (run s (noprops c) pl0) fs = crash_after zl (Nat.max j j0) (run s (noprops c) pl0) fs).
        { rewrite !(crash_all zl _ _ _ (faithful_run s (noprops c) pl0)); [reflexivity| |]; lia. }
        rewrite E. apply C1. lia.
      * destruct (C1 (Nat.max j j0) ltac:(lia)) as [h' [a [b [Q' [Hq [H1 [H2 [H3 H4]]]]]]]].
        rewrite (crash_all zl _ _ _ (faithful_run s (noprops c) pl0)) in Q' by lia. rewrite D1 in Q'. injection Q' as <-.
        exists h, a, b. split; [exact Q|]. split; [exact Hq|]. split; [exact H1|]. split; [exact H2|]. split; [exact H3|].
        intros k Hk. cbv zeta. rewrite Hh by (intros H; destruct Hpf as [_ [Hav _]]; now apply (Hav k H)). now apply H4.
Qed.

Lemma run_continued_full P pl0 f phys pl phi traj steps n ds old tbl :
  c_output c = true -> c_force c = false -> c_continue c = true ->
  1 <= c_blen c -> (c_snaps c =? 0)%Z = false ->
  continues s f phys pl ->
  (forall k, In k field_keys -> dget (dsets f) k = Some (Rows (old k))) ->
  (forall k k', In k field_keys -> In k' field_keys -> length (old k) = length (old k')) ->
  (add_last c = true -> forall k, In k state_keys -> exists v, dget (dsets f) k = Some (Whole v)) ->
  goes s c phys (p_age pl) pl phi traj steps n ds ->
  apart1 -> props_fine s c P (attrs f) tbl ->
  let l := loop_log c (time1 c) traj n in
  frames_P P (fun k => (old k ++ map (fun tp => frame_row s ds (fst tp) (snd tp) k) l)%list) ->
  exists g, result_of (run s c pl0) (Some f) = Ok tt /\ disk_of (run s c pl0) (Some f) = Some g
   /\ records s ds old g l /\ attrs g = attrs f
   /\ (add_last c = true -> holds_state (dget (dsets f)) g l (c_blen c * (length l / c_blen c)))
   /\ (forall k, In k (c_props c) -> dget (dsets g) k = Some (Rows (prop_rows zl (s_f32V s) (s_f32T s) tbl
           (old "density" ++ map (fun tp => frame_row s ds (fst tp) (snd tp) "density") l)
           (old "phi" ++ map (fun tp => frame_row s ds (fst tp) (snd tp) "phi") l)
           (old "omega" ++ map (fun tp => frame_row s ds (fst tp) (snd tp) "omega") l) k))%string)
   /\ (forall k, ~ In k field_keys -> ~ (add_last c = true /\ In k state_keys) -> ~ In k (c_props c) -> dget (dsets g) k = dget (dsets f) k)
   /\ forall j, exists g a b, crash_after zl j (run s c pl0) (Some f) = Some g /\ (exists q, a = c_blen c * q)
            /\ a <= b /\ b <= a + c_blen c /\ b <= length l /\ torn_records s ds old g l a b.
Proof.
  intros Ho Hf Hc HB Hsn Hk Hold HL Hst Hg Hap Hpf l HP.
  destruct (run_continued s (noprops c) pl0 f phys pl phi traj steps n ds old Ho Hf Hc eq_refl HB Hsn Hk Hold Hst Hg) as [g [R1 [D1 [Rec [A1 [S1 [O1 C1]]]]]]].
  change (loop_log (noprops c) (time1 (noprops c)) traj n) with l in *.
  change (c_blen (noprops c)) with (c_blen c) in *. change (add_last (noprops c)) with (add_last c) in *.
  destruct (full_tail P pl0 (Some f) g ds old l tbl Ho ltac:(tauto) HB R1 D1 Rec HL ltac:(rewrite A1; exact Hpf) HP)
    as [g' [R [D [A [Rec' [Oth [PR CR]]]]]]].
  exists g'. split; [exact R|]. split; [exact D|]. split; [exact Rec'|]. split; [congruence|]. split; [|split; [exact PR|split]].
  - intros Ha k Hk'. rewrite Oth; [now apply S1|]. intros H. now apply (Hap k H).
  - intros k N1 N2 N3. rewrite Oth by exact N3. now apply O1.
  - intros j. destruct (CR j) as [Q|[h [Q [Hj' Hh]]]]; [rewrite Q; apply C1|].
    destruct (C1 j) as [h' [a [b [Q' [Hq [H1 [H2 [H3 H4]]]]]]]].
    rewrite (crash_all zl _ _ _ (faithful_run s (noprops c) pl0)) in Q' by lia. rewrite D1 in Q'. injection Q' as <-.
    exists h, a, b. split; [exact Q|]. split; [exact Hq|]. split; [exact H1|]. split; [exact H2|]. split; [exact H3|].
    intros k Hk'. cbv zeta. rewrite Hh by (intros H; destruct Hpf as [_ [Hav _]]; now apply (Hav k H)). now apply H4.
Qed.
End Full.
