(** What diverged runs leave behind. *)
From Coq Require Import Arith ZArith Bool String List Lia.
From Verif Require Import Num NdArray ModelIO ModelRun SpecIO SpecRun IOFacts RunFull Run2Props SpecCheck CheckFacts SpecDiverge.
Import ListNotations.
Local Open Scope string_scope.

Section Diverge.
Context (V T : Type) (TN : TimeNum T) (s : sim V T) (c : cfg V T).
Notation rows_new ds l k := (map (fun tp => frame_row s ds (fst tp) (snd tp) k) l).

Lemma fresh_log_S pl0 time traj n : fresh_log c pl0 time traj (S n) =
  (fresh_log c pl0 time traj n ++ if recorded c time (S n) then [(time (S n), traj (S n))] else [])%list.
Proof.
  unfold fresh_log, loop_log, frames. rewrite seq_S, filter_app, map_app, <- app_assoc. cbn [Nat.add filter].
  destruct (recorded c time (S n)); reflexivity.
Qed.
Lemma sound_log pl0 time traj n : s_nan s (p_density pl0) = false ->
  (forall j, 1 <= j <= n -> recorded c time j = true -> s_nan s (p_density (traj j)) = false) -> sound s (fresh_log c pl0 time traj n).
Proof.
  intros H0 H. unfold sound, fresh_log. apply Forall_app. split.
  - destruct (truthy (c_rec c)); [constructor|]. constructor; [exact H0|constructor].
  - unfold loop_log, frames. apply Forall_map, Forall_forall. intros j Hj. apply filter_In in Hj. destruct Hj as [Hj R].
    apply in_seq in Hj. cbn [snd]. apply H; [lia|exact R].
Qed.

Lemma run_diverged P pl0 phi traj steps d ds fs tbl :
  c_output c = true -> (fs = None \/ c_force c = true) -> 1 <= c_blen c -> (c_snaps c =? 0)%Z = false -> NoDup (keys (c_phys c)) ->
  downsampled c ds pl0 ->
  (let* dx := dlook (c_phys c) "dx" in s_phi s (c_phys c) (p_omega pl0) dx) = Ok phi ->
  t_int (ndiv (nsub (c_end c) (nofZ 0)) (c_step c)) = Ok steps -> (Z.of_nat d <= steps)%Z ->
  evolves s c (c_phys c) (mkPlasma (p_density pl0) (p_omega pl0) phi (p_age pl0)) traj d ->
  (forall j, 1 <= j <= d -> downsampled c ds (traj j)) ->
  diverges_at s traj d ->
  apart1 c -> props_fine s c P (save_params_of c (c_phys c) false) tbl ->
  let l := fresh_log c pl0 (time1 c) traj d in
  frames_P P (fun k => rows_new ds l k) ->
  exists g, result_of (run s c pl0) fs = Ok tt /\ disk_of (run s c pl0) fs = Some g
   /\ records s ds (fun _ => []) g l
   /\ (add_last c = true -> holds_state (fun _ => Some (Whole (s_zeroV s))) g l (c_blen c * (length l / c_blen c)))
   /\ (recorded c (time1 c) d = false -> sound s l)
   /\ (recorded c (time1 c) d = true -> exists l', l = (l' ++ [(time1 c d, traj d)])%list /\ sound s l').
Proof.
  intros Ho Hf HB Hsn HN Hd0 Hphi Hst Hle Hev Hd [D1 [D2 D3]] Hap Hpf l HP.
  assert (N0 : s_nan s (p_density pl0) = false).
  { specialize (D2 0 ltac:(lia)). destruct Hev as [E _]. now rewrite E in D2. }
  edestruct (run_fresh_full s c P pl0 phi traj steps d ds fs tbl) as [g [R [D [Rec [A [Sst [PR C]]]]]]]; eauto.
  { split; [exact Hphi|]. split; [exact Hst|]. split; [exact Hev|]. split; [exact Hd|].
    split; [lia|]. split; [intros j Hj; apply D2; lia|]. right. split; [exact D1|exact D3]. }
  exists g. split; [exact R|]. split; [exact D|]. split; [exact Rec|]. split; [exact Sst|].
  destruct d as [|d]; [lia|]. unfold l. rewrite fresh_log_S. split; intros E; rewrite E.
  - rewrite app_nil_r. apply sound_log; [exact N0|]. intros j Hj _. apply D2. lia.
  - eexists. split; [reflexivity|]. apply sound_log; [exact N0|]. intros j Hj _. apply D2. lia.
Qed.

Lemma unrecorded_app time d r : 1 <= d <= r -> (forall j, d <= j < r -> recorded c time j = false) ->
  forall pl0 traj, fresh_log c pl0 time traj (r - 1) = fresh_log c pl0 time traj (d - 1).
Proof.
  intros H HR pl0 traj. destruct r as [|r]; [lia|]. replace (S r - 1) with r by lia. revert H HR.
  induction r as [|r IH]; intros H HR; [f_equal; lia|].
  destruct (Nat.eq_dec d (S (S r))) as [->|Hn]; [f_equal; lia|].
  rewrite fresh_log_S, HR by lia. rewrite app_nil_r. apply IH; [lia|]. intros j Hj. apply HR. lia.
Qed.

(** run2 notices at the first recorded iteration *)
Lemma run2_diverged P pl0 phi traj d r ds pv fuel fs tbl q :
  c_output c = true -> (fs = None \/ c_force c = true) -> 1 <= c_blen c -> (c_snaps c =? 0)%Z = false ->
  t_int (ndiv (c_end c) (c_step c)) = Ok q ->
  NoDup (c_props c) -> NoDup (keys (c_phys c)) -> downsampled c ds pl0 -> has_props s c pv pl0 ->
  props_apart c -> props_fine s c P (save_params_of c (c_phys c) (c_adaptive c)) tbl ->
  (let* dx := dlook (c_phys c) "dx" in s_phi s (c_phys c) (p_omega pl0) dx) = Ok phi ->
  evolves s c (c_phys c) (mkPlasma (p_density pl0) (p_omega pl0) phi (p_age pl0)) traj r ->
  (forall j, 1 <= j <= r -> downsampled c ds (traj j) /\ has_props s c pv (traj j)) ->
  (forall j, j < r -> nltb (t_round4 (time2 c (nofZ 0) j)) (c_end c) = true) ->
  diverges_at s traj d -> stays_diverged s traj d r -> first_recorded c (time2 c (nofZ 0)) d r ->
  nltb (c_rec c) (time2 c (nofZ 0) r) = true -> r < fuel ->
  let l := fresh_log c pl0 (time2 c (nofZ 0)) traj r in
  frames_P P (fun k => rows_new ds l k) ->
  exists g, result_of (run2 s c fuel pl0) fs = Ok tt /\ disk_of (run2 s c fuel pl0) fs = Some g
    /\ records2 s c ds pv (fun _ => []) g l
    /\ (add_last c = true -> holds_state (fun _ => Some (Whole (s_zeroV s))) g l (c_blen c * (length l / c_blen c)))
    /\ exists l', l = (l' ++ [(time2 c (nofZ 0) r, traj r)])%list /\ sound s l' /\ l' = fresh_log c pl0 (time2 c (nofZ 0)) traj (d - 1).
Proof.
  intros Ho Hf HB Hsn Hq HNp HN Hd0 Hp0 Hap Hpf Hphi Hev Hd Ht [D1 [D2 D3]] Hstay [F1 [F2 F3]] Hlast Hfu l HP.
  assert (N0 : s_nan s (p_density pl0) = false).
  { specialize (D2 0 ltac:(lia)). destruct Hev as [E _]. now rewrite E in D2. }
  edestruct (run2_fresh s c HNp P pl0 phi traj r ds pv fuel fs tbl q) as [g [R [D [Rec [A [Sst PR]]]]]]; eauto.
  { split; [exact Hphi|]. split; [exact Hev|]. split; [exact Hd|]. split; [exact Ht|]. split.
    - intros j Hj Hr. destruct (le_lt_dec d j) as [L|L]; [|now apply D2]. rewrite F3 in Hr by lia. discriminate.
    - right. split; [lia|]. split; [exact F2|]. apply Hstay. lia. }
  { rewrite Hlast, firstn_all. exact HP. }
  rewrite Hlast, firstn_all in Rec. exists g. split; [exact R|]. split; [exact D|]. split; [exact Rec|]. split; [exact Sst|].
  exists (fresh_log c pl0 (time2 c (nofZ 0)) traj (d - 1)). split; [|split; [|reflexivity]].
  - unfold l. rewrite <- (unrecorded_app (time2 c (nofZ 0)) d r) by (auto; lia).
    destruct r as [|r]; [lia|]. rewrite fresh_log_S, F2. replace (S r - 1) with r by lia. reflexivity.
  - apply sound_log; [exact N0|]. intros j Hj _. apply D2. lia.
Qed.

(** and not at all when none is recorded before the end *)
Lemma run2_unnoticed P pl0 phi traj d n ds pv fuel fs tbl q :
  c_output c = true -> (fs = None \/ c_force c = true) -> 1 <= c_blen c -> (c_snaps c =? 0)%Z = false ->
  t_int (ndiv (c_end c) (c_step c)) = Ok q ->
  NoDup (c_props c) -> NoDup (keys (c_phys c)) -> downsampled c ds pl0 -> has_props s c pv pl0 ->
  props_apart c -> props_fine s c P (save_params_of c (c_phys c) (c_adaptive c)) tbl ->
  (let* dx := dlook (c_phys c) "dx" in s_phi s (c_phys c) (p_omega pl0) dx) = Ok phi ->
  evolves s c (c_phys c) (mkPlasma (p_density pl0) (p_omega pl0) phi (p_age pl0)) traj n ->
  (forall j, 1 <= j <= n -> downsampled c ds (traj j) /\ has_props s c pv (traj j)) ->
  (forall j, j < n -> nltb (t_round4 (time2 c (nofZ 0) j)) (c_end c) = true) ->
  nltb (t_round4 (time2 c (nofZ 0) n)) (c_end c) = false ->
  diverges_at s traj d -> d <= n -> (forall j, d <= j <= n -> recorded c (time2 c (nofZ 0)) j = false) -> n < fuel ->
  let l := fresh_log c pl0 (time2 c (nofZ 0)) traj n in
  let m := if nltb (c_rec c) (time2 c (nofZ 0) n) then length l else c_blen c * (length l / c_blen c) in
  frames_P P (fun k => rows_new ds (firstn m l) k) ->
  exists g, result_of (run2 s c fuel pl0) fs = Ok tt /\ disk_of (run2 s c fuel pl0) fs = Some g
    /\ records2 s c ds pv (fun _ => []) g (firstn m l)
    /\ l = fresh_log c pl0 (time2 c (nofZ 0)) traj (d - 1) /\ sound s l.
Proof.
  intros Ho Hf HB Hsn Hq HNp HN Hd0 Hp0 Hap Hpf Hphi Hev Hd Ht Hend [D1 [D2 D3]] Hdn F3 Hfu l m HP.
  assert (N0 : s_nan s (p_density pl0) = false).
  { specialize (D2 0 ltac:(lia)). destruct Hev as [E _]. now rewrite E in D2. }
  assert (L : l = fresh_log c pl0 (time2 c (nofZ 0)) traj (d - 1)).
  { unfold l. rewrite <- (unrecorded_app (time2 c (nofZ 0)) d (S n)) by (try (intros; apply F3); lia). f_equal. lia. }
  edestruct (run2_fresh s c HNp P pl0 phi traj n ds pv fuel fs tbl q) as [g [R [D [Rec [A [Sst PR]]]]]]; eauto.
  { split; [exact Hphi|]. split; [exact Hev|]. split; [exact Hd|]. split; [exact Ht|]. split.
    - intros j Hj Hr. destruct (le_lt_dec d j) as [G|G]; [|now apply D2]. rewrite F3 in Hr by lia. discriminate.
    - left. exact Hend. }
  exists g. split; [exact R|]. split; [exact D|]. split; [exact Rec|]. split; [exact L|].
  rewrite L. apply sound_log; [exact N0|]. intros j Hj _. apply D2. lia.
Qed.

(** a file whose last frame is NaN and that has no state is refused *)
Lemma diverged_broken ds g l t pl : keeps_nan s ds -> s_nan s (p_density pl) = true ->
  records s ds (fun _ => []) g (l ++ [(t, pl)])%list -> dget (dsets g) "state_density" = None -> broken s g.
Proof.
  intros K N R S. left. exists "density", (s_f32V s (ds (p_density pl))). split; [now left|]. split; [|now apply K].
  right. split; [exact S|]. exists (rows_new ds l "density"). specialize (R "density" ltac:(now left)).
  rewrite R. rewrite map_app. reflexivity.
Qed.
(** with the state: the state of the last full flush is NaN only if that flush
    ended with the NaN frame *)
Lemma diverged_state ds g l t pl B : 1 <= B -> records s ds (fun _ => []) g (l ++ [(t, pl)])%list ->
  s_nan s (p_density pl) = true -> B * (length (l ++ [(t, pl)])%list / B) = length (l ++ [(t, pl)])%list ->
  holds_state (fun _ => Some (Whole (s_zeroV s))) g (l ++ [(t, pl)])%list (B * (length (l ++ [(t, pl)])%list / B)) -> broken s g.
Proof.
  intros HB R N E H. left. exists "density", (p_density pl). split; [now left|]. split; [|exact N]. left.
  specialize (H "state_density" ltac:(now left)). rewrite E in H. rewrite app_length in H. cbn [length] in H.
  rewrite Nat.add_1_r in H. rewrite nth_error_app2, Nat.sub_diag in H by lia. exact H.
Qed.
End Diverge.

Section Refused.
Context (V T : Type) (TN : TimeNum T) (s : sim V T) (c : cfg V T).
Lemma refused pl0 ds g l t pl :
  keeps_nan s ds -> s_nan s (p_density pl) = true -> records s ds (fun _ => []) g (l ++ [(t, pl)])%list ->
  (dget (dsets g) "state_density" = None \/
   exists B, 1 <= B /\ B * (length (l ++ [(t, pl)])%list / B) = length (l ++ [(t, pl)])%list /\
     holds_state (fun _ => Some (Whole (s_zeroV s))) g (l ++ [(t, pl)])%list (B * (length (l ++ [(t, pl)])%list / B))) ->
  c_force c = false -> c_continue c = true ->
  (exists e, run s c pl0 (Some g) = (([], Some g), Exn e)) /\
  (forall fuel, exists e, run2 s c fuel pl0 (Some g) = (([], Some g), Exn e)).
Proof.
  intros K N R H Hf Hc. assert (Br : broken s g).
  { destruct H as [H|(B & HB & E & H)]; [eapply diverged_broken; eassumption|eapply (diverged_state V T s ds g l t pl B); eassumption]. }
  split; [now apply (run_broken s c)|]. intros fuel. now apply (run2_broken s c).
Qed.
End Refused.
