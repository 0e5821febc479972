(** Lemmas behind the statements of PropRun. *)
From Coq Require Import Arith ZArith Bool String List Lia Sorted QArith Lqa.
Import List.
From Verif Require Import Num NdArray ModelIO ModelRun SpecIO SpecRun IOFacts BufFacts RunFacts RunFiles RunProps PropsFacts KeepFacts RunFull Run2Props RunTimes RunMisc RunWit.
Import ListNotations.
Local Close Scope Q_scope.
Local Open Scope nat_scope.
Local Open Scope string_scope.

Section Top.
Context (V T : Type) (TN : TimeNum T) (s : sim V T) (c : cfg V T).
Notation zl := (zero_like s).
Notation rows_new ds l k := (map (fun tp => frame_row s ds (fst tp) (snd tp) k) l).

(** ** Fresh run *)
Lemma top_fresh P pl0 phi traj steps n ds fs tbl :
  c_output c = true -> (fs = None \/ c_force c = true) -> 1 <= c_blen c -> (c_snaps c =? 0)%Z = false -> NoDup (keys (c_phys c)) ->
  downsampled c ds pl0 -> goes s c (c_phys c) (nofZ 0) pl0 phi traj steps n ds ->
  apart1 c -> props_fine s c P (save_params_of c (c_phys c) false) tbl ->
  let l := fresh_log c pl0 (time1 c) traj n in
  frames_P P (fun k => rows_new ds l k) ->
  exists g, result_of (run s c pl0) fs = Ok tt /\ disk_of (run s c pl0) fs = Some g
   /\ records s ds (fun _ => []) g l
   /\ attrs g = save_params_of c (c_phys c) false
   /\ (forall k, In k (c_props c) -> dget (dsets g) k = Some (Rows (prop_rows zl (s_f32V s) (s_f32T s) tbl
           (rows_new ds l "density") (rows_new ds l "phi") (rows_new ds l "omega") k))).
Proof.
  intros. edestruct (run_fresh_full s c P pl0 phi traj steps n ds fs tbl) as [g [R [D [Rec [A [S [PR C]]]]]]]; eauto.
  exists g. auto.
Qed.

Lemma top_fresh_crash P pl0 phi traj steps n ds fs tbl :
  c_output c = true -> (fs = None \/ c_force c = true) -> 1 <= c_blen c -> (c_snaps c =? 0)%Z = false -> NoDup (keys (c_phys c)) ->
  downsampled c ds pl0 -> goes s c (c_phys c) (nofZ 0) pl0 phi traj steps n ds ->
  apart1 c -> props_fine s c P (save_params_of c (c_phys c) false) tbl ->
  let l := fresh_log c pl0 (time1 c) traj n in
  frames_P P (fun k => rows_new ds l k) ->
  exists j0, (forall j, j < j0 -> crash_after zl j (run s c pl0) fs = fs \/
          exists g, crash_after zl j (run s c pl0) fs = Some g /\ forall k, In k field_keys -> dget (dsets g) k = None \/ dget (dsets g) k = Some (Rows []))
        /\ forall j, j0 <= j -> exists g a b, crash_after zl j (run s c pl0) fs = Some g /\ (exists q, a = c_blen c * q)
            /\ a <= b /\ b <= a + c_blen c /\ b <= length l /\ torn_records s ds (fun _ => []) g l a b.
Proof.
  intros. edestruct (run_fresh_full s c P pl0 phi traj steps n ds fs tbl) as [g [R [D [Rec [A [S [PR C]]]]]]]; eauto.
Qed.
Lemma top_continued_crash P pl0 f phys pl phi traj steps n ds old tbl :
  c_output c = true -> c_force c = false -> c_continue c = true ->
  1 <= c_blen c -> (c_snaps c =? 0)%Z = false ->
  continues s f phys pl ->
  (forall k, In k field_keys -> dget (dsets f) k = Some (Rows (old k))) ->
  (forall k k', In k field_keys -> In k' field_keys -> length (old k) = length (old k')) ->
  (add_last c = true -> forall k, In k state_keys -> exists v, dget (dsets f) k = Some (Whole v)) ->
  goes s c phys (p_age pl) pl phi traj steps n ds ->
  apart1 c -> props_fine s c P (attrs f) tbl ->
  let l := loop_log c (time1 c) traj n in
  frames_P P (fun k => (old k ++ rows_new ds l k)%list) ->
  forall j, exists g a b, crash_after zl j (run s c pl0) (Some f) = Some g /\ (exists q, a = c_blen c * q)
            /\ a <= b /\ b <= a + c_blen c /\ b <= length l /\ torn_records s ds old g l a b.
Proof.
  intros. edestruct (run_continued_full s c P pl0 f phys pl phi traj steps n ds old tbl) as [g [R [D [Rec [A [S [PR [O C]]]]]]]]; eauto.
Qed.

(** ** Times of continued runs *)
Lemma records_times ds old g l : records s ds old g l ->
  dget (dsets g) "time" = Some (Rows (old "time" ++ map (fun tp => RNum (s_f32T s (fst tp))) l)).
Proof. intros R. apply (R "time"). cbn. tauto. Qed.

Lemma top_run_restarts P pl0 f phys pl phi traj steps n ds old tbl :
  c_output c = true -> c_force c = false -> c_continue c = true ->
  1 <= c_blen c -> (1 <= c_snaps c)%Z -> (forall j, 1 <= j <= n -> nleb (c_rec c) (time1 c j) = true) ->
  continues s f phys pl ->
  (forall k, In k field_keys -> dget (dsets f) k = Some (Rows (old k))) ->
  (forall k k', In k field_keys -> In k' field_keys -> length (old k) = length (old k')) ->
  (add_last c = true -> forall k, In k state_keys -> exists v, dget (dsets f) k = Some (Whole v)) ->
  goes s c phys (p_age pl) pl phi traj steps n ds ->
  apart1 c -> props_fine s c P (attrs f) tbl ->
  frames_P P (fun k => (old k ++ rows_new ds (loop_log c (time1 c) traj n) k)%list) ->
  let k := Z.to_nat (c_snaps c) in
  get (disk_of (run s c pl0) (Some f)) "time"
  = Some (Rows (old "time" ++ map (fun i => RNum (s_f32T s (time1 c (i * k)))) (seq 1 (n / k)))).
Proof.
  intros Ho Hf Hc HB Hs Hr Hk Hold HL Hst Hg Hap Hpf HP k.
  edestruct (run_continued_full s c P pl0 f phys pl phi traj steps n ds old tbl) as [g [R [D [Rec _]]]]; eauto.
  { apply Z.eqb_neq. lia. }
  rewrite D. cbn [get]. rewrite (records_times _ _ _ _ Rec). rewrite loop_log_all by assumption. now rewrite map_map.
Qed.

Lemma top_run2_times P pl0 f phys pl phi traj n ds pv fuel old tbl q :
  c_output c = true -> c_force c = false -> c_continue c = true -> 1 <= c_blen c -> (1 <= c_snaps c)%Z ->
  NoDup (c_props c) -> t_int (ndiv (c_end c) (c_step c)) = Ok q ->
  (forall j, 1 <= j <= n -> nleb (c_rec c) (time2 c (p_age pl) j) = true) -> nltb (c_rec c) (time2 c (p_age pl) n) = true ->
  continues s f phys pl ->
  (forall k, In k (ks2 c) -> dget (dsets f) k = Some (Rows (old k))) ->
  (forall k k', In k field_keys -> In k' field_keys -> length (old k) = length (old k')) ->
  (add_last c = true -> forall k, In k state_keys -> exists v, dget (dsets f) k = Some (Whole v)) ->
  props_apart c -> props_fine s c P (attrs f) tbl ->
  goes2 s c phys (p_age pl) pl phi traj n ds pv -> n < fuel ->
  frames_P P (fun k => (old k ++ rows_new ds (loop_log c (time2 c (p_age pl)) traj n) k)%list) ->
  let k := Z.to_nat (c_snaps c) in
  get (disk_of (run2 s c fuel pl0) (Some f)) "time"
  = Some (Rows (old "time" ++ map (fun i => RNum (s_f32T s (time2 c (p_age pl) (i * k)))) (seq 1 (n / k)))).
Proof.
  intros Ho Hf Hc HB Hs HN Hq Hr Hlast Hk Hold HL Hst Hap Hpf Hg Hfu HP k.
  edestruct (run2_continued s c HN P pl0 f phys pl phi traj n ds pv fuel old tbl q) as [g [R [D [[Rec _] _]]]]; eauto.
  { apply Z.eqb_neq. lia. }
  { rewrite Hlast, firstn_all. exact HP. }
  rewrite Hlast, firstn_all in Rec.
  rewrite D. cbn [get]. rewrite (records_times _ _ _ _ Rec). rewrite loop_log_all by assumption. now rewrite map_map.
Qed.

(** ** Number of steps *)
Lemma stops_all traj k n : stops s traj k n -> (forall j, s_nan s (p_density (traj j)) = false) -> n = k.
Proof. intros [_ [_ [H|[_ H]]]] N; [exact H|]. rewrite N in H. discriminate. Qed.

(** ** Progress bar *)
Lemma top_progress pl t nv show : new_val_of_2 s c pl t = Ok nv -> ~ In show field_keys ->
  (forall p, In p (c_props c) -> show <> "fullres_" ++ p) -> progress_value nv show = Some (nofZ 0).
Proof.
  intros H Hf Hp. unfold new_val_of_2, new_val_of in H.
  destruct (down c (p_density pl)) as [a|]; [|discriminate]. destruct (down c (p_omega pl)) as [b|]; [|discriminate].
  destruct (down c (p_phi pl)) as [d|]; [|discriminate]. cbn [bind] in H.
  destruct (fullres s c (c_props c) pl) as [r|] eqn:E; [|discriminate]. cbn [bind] in H. injection H as <-.
  assert (G : forall ps r, fullres s c ps pl = Ok r -> (forall p, In p ps -> In p (c_props c)) -> dget r show = None).
  { clear -Hp. induction ps as [|p ps IH]; intros r H Hs; cbn [fullres] in H; [injection H as <-; reflexivity|].
    destruct (s_prop s p _ _ _ _ _) as [v|]; [|discriminate]. cbn [bind] in H. destruct (fullres s c ps pl) as [r'|] eqn:E; [|discriminate].
    cbn [bind] in H. injection H as <-.
    assert (X : String.eqb show (String.append "fullres_" p) = false) by (apply String.eqb_neq, Hp, Hs; now left).
    cbn [dget String.append] in X |- *. rewrite X.
    apply IH; [reflexivity|]. intros x Hx. apply Hs. now right. }
  specialize (G _ _ E (fun p H => H)). unfold progress_value. cbn [app dget].
  cbn in Hf.
  destruct (String.eqb_spec show "density") as [->|_]; [tauto|]. destruct (String.eqb_spec show "omega") as [->|_]; [tauto|].
  destruct (String.eqb_spec show "phi") as [->|_]; [tauto|]. destruct (String.eqb_spec show "time") as [->|_]; [tauto|].
  now rewrite G.
Qed.
End Top.

(** ** Exact times increase *)
Section Increase.
Local Open Scope Q_scope.
Lemma run2_increasing {V} (c : cfg V Q) t0 i j : 0 < c_step c -> (i < j)%nat ->
  @time2 V Q TimeQ c t0 i < @time2 V Q TimeQ c t0 j.
Proof.
  intros Hs H. rewrite !time2_exact.
  assert (L : nQ i < nQ j). { unfold nQ. rewrite <- Zlt_Qlt. lia. }
  assert (nQ i * c_step c < nQ j * c_step c) by (apply Qmult_lt_compat_r; assumption). lra.
Qed.
Lemma adaptive_same {V} (c c' : cfg V Q) t0 j : c_step c' = c_step c -> @time2 V Q TimeQ c' t0 j == @time2 V Q TimeQ c t0 j.
Proof. intros E. rewrite !time2_exact, E. reflexivity. Qed.
End Increase.

(** ** The toy run meets the hypotheses *)
Definition toy_traj (j : nat) : plasma Z Q :=
  mkPlasma (5 + Z.of_nat j)%Z (7 + 2 * Z.of_nat j)%Z (2 * (7 + 2 * Z.of_nat j))%Z (inject_Z (Z.of_nat j)).
Lemma Qred_Z z q : (q == inject_Z z)%Q -> Qred q = inject_Z z.
Proof.
  intros H. rewrite (Qred_complete _ _ H). unfold inject_Z, Qred.
  pose proof (Z.ggcd_gcd z 1) as Hg. pose proof (Z.ggcd_correct_divisors z 1) as Hd.
  destruct (Z.ggcd z 1) as [g [a b]]. cbn [fst] in Hg. rewrite Z.gcd_1_r in Hg. subst g. destruct Hd as [Ha Hb]. cbn [snd].
  rewrite Z.mul_1_l in Ha, Hb. now subst.
Qed.
Lemma toy_evolves phys n (c : cfg Z Q) : c_step c = 1%Q -> c_dx c = 1%Q ->
  @evolves Z Q tq c phys (mkPlasma 5%Z 7%Z 14%Z 0%Q) toy_traj n.
Proof.
  intros E1 E2. split; [reflexivity|]. intros j _. rewrite E1, E2. unfold toy_traj. cbn [tq toy_sim s_step]. unfold toy_step. cbn [p_density p_omega p_age].
  change (qdx 1) with 1%Z. f_equal. f_equal; try lia.
  cbn [TimeQ t_num NumQ nadd]. apply Qred_Z. rewrite Nat2Z.inj_succ, <- Z.add_1_r, inject_Z_plus. reflexivity.
Qed.
