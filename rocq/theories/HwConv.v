(** The time steppers and the drivers converge to the solution of the
    semi-discrete system as the time step goes to zero. *)
From Coq Require Import List Arith ZArith Lia Bool Reals Lra Psatz String.
From Verif Require Import Num NdArray Spec SpecFourier SpecHW SpecPlasma ModelHW ModelBackend ModelIO ModelRun ModelRunHW SpecIO SpecRun SpecRunHW SpecConv
  RhsFacts HWProps OdeFacts OdeExist RkOrder StepProps RunHWFacts RunHWTop HwExist.
Import ListNotations.
Local Open Scope R_scope.

Lemma conv_rk4 b p dx0 test ny nx dx pl n o phi a T : (0 < ny)%nat -> (0 < nx)%nat -> dx <> 0 -> backend_ok ny nx b ->
  plasma_ok test ny nx pl n o phi a -> agree ny nx phi (invlap ny nx dx o) -> 0 <= T ->
  exists Y, hw_solution p ny nx dx Y T /\ Y 0 = (n, o) /\
    exists C h0, 0 <= C /\ 0 < h0 /\ forall dt k, 0 < dt <= h0 -> INR k * dt <= T ->
      exists pl' n' o' phi', snd (steps (fun pl => rk4_step (hw_of b p dx0 test) pl dt dx) k pl) = Ok pl' /\
        plasma_ok test ny nx pl' n' o' phi' (a + INR k * dt) /\ within ny nx (C * dt ^ 4) (n', o') (Y (INR k * dt)).
Proof.
  intros Hy Hx Hd Hb Hpl Hphi HT. destruct (hw_exists p ny nx dx Hy Hx Hd) as (K & _ & Ex).
  destruct (Ex (n, o) T HT) as (Y & HY & Y0 & _). exists Y. split; [exact HY|]. split; [exact Y0|].
  apply (c20_global b p dx0 test ny nx dx Hy Hx Hd Hb Y T pl phi a HT HY); rewrite Y0; assumption.
Qed.
Lemma conv_euler b p dx0 test ny nx dx pl n o phi a T : (0 < ny)%nat -> (0 < nx)%nat -> dx <> 0 -> backend_ok ny nx b ->
  plasma_ok test ny nx pl n o phi a -> agree ny nx phi (invlap ny nx dx o) -> 0 <= T ->
  exists Y, hw_solution p ny nx dx Y T /\ Y 0 = (n, o) /\
    exists C h0, 0 <= C /\ 0 < h0 /\ forall dt k, 0 < dt <= h0 -> INR k * dt <= T ->
      exists pl' n' o' phi', snd (steps (fun pl => euler_step (hw_of b p dx0 test) pl dt dx) k pl) = Ok pl' /\
        plasma_ok test ny nx pl' n' o' phi' (a + INR k * dt) /\ within ny nx (C * dt) (n', o') (Y (INR k * dt)).
Proof.
  intros Hy Hx Hd Hb Hpl Hphi HT. destruct (hw_exists p ny nx dx Hy Hx Hd) as (K & _ & Ex).
  destruct (Ex (n, o) T HT) as (Y & HY & Y0 & _). exists Y. split; [exact HY|]. split; [exact Y0|].
  apply (c20_global_euler b p dx0 test ny nx dx Hy Hx Hd Hb Y T pl phi a HT HY); rewrite Y0; assumption.
Qed.

(** ** recorded frames *)
Lemma trunc_le x : 0 <= x -> INR (Z.to_nat (R_trunc x)) <= x.
Proof.
  intros H. unfold R_trunc. destruct (Rle_dec 0 x); [|contradiction]. destruct (base_Int_part x) as [B1 B2].
  assert (0 <= Int_part x)%Z. { apply le_IZR. apply Rnot_lt_le. intros L. assert (Int_part x <= -1)%Z by (apply lt_IZR in L; lia). apply IZR_le in H0. lra. }
  rewrite INR_IZR_INZ, Z2Nat.id by assumption. exact B1.
Qed.
Lemma recorded_le (c : cfg (arr R) R) n j : In j (recorded_its c n) -> (j <= n)%nat.
Proof.
  unfold recorded_its. rewrite in_app_iff. intros [H|H].
  - destruct (Req_EM_T (c_rec c) 0); cbn in H; [destruct H as [<-|[]]; lia|contradiction].
  - apply filter_In in H as [H _]. apply in_seq in H. lia.
Qed.
Lemma setup_step b p ny nx ys xs k0 dsf c dt : hw_setup b p ny nx ys xs k0 dsf c -> hw_setup b p ny nx ys xs k0 dsf (with_step c dt).
Proof. intros []. constructor; assumption. Qed.
Lemma setup_dx b p ny nx ys xs k0 dsf c : hw_setup b p ny nx ys xs k0 dsf c -> c_dx c <> 0.
Proof.
  intros H. pose proof (hs_dx _ _ _ _ _ _ _ _ _ H) as E. pose proof (hs_k0 _ _ _ _ _ _ _ _ _ H) as Hk. pose proof (hs_nx _ _ _ _ _ _ _ _ _ H) as Hn.
  rewrite E. unfold domain_dx. pose proof PI_neq0. assert (2 <> 0) by (apply Rgt_not_eq; lra). assert (INR nx <> 0) by (apply not_0_INR; lia).
  pose proof (Rinv_neq_0_compat k0 Hk). pose proof (Rinv_neq_0_compat (INR nx) H2).
  unfold Rdiv. repeat (apply Rmult_integral_contrapositive_currified; try assumption).
Qed.
Lemma conv_run b p ny nx ys xs k0 dsf (c : cfg (arr R) R) rnd y0 phi0 fs :
  hw_setup b p ny nx ys xs k0 dsf c -> pzon p = false ->
  c_phys c = physics_params (c_dx c) (Z.of_nat (pN p)) (pc1 p) (pnu p) k0 (ppb p) (pkap p) ->
  (fs = None \/ c_force c = true) -> 0 <= c_end c ->
  exists Y, hw_solution p ny nx (c_dx c) Y (c_end c) /\ Y 0 = y0 /\
    exists C h0, 0 <= C /\ 0 < h0 /\ forall dt, 0 < dt <= h0 ->
      let sim := @run _ _ TimeR (hw_sim b rnd ny nx ys xs) (with_step c dt) (plasma0 (grid ny nx (fst y0)) (grid ny nx (snd y0)) (grid ny nx phi0)) in
      exists g l, result_of sim fs = Ok tt /\ disk_of sim fs = Some g /\ file_frames rnd dsf ys xs l g /\
        map f_t l = map (fun j => INR j * dt) (recorded_its (with_step c dt) (Z.to_nat (R_trunc (c_end c / dt)))) /\
        frames_near ny nx (C * dt ^ 4) (c_end c) Y l.
Proof.
  intros HS Hz Hph Hfs HT. pose proof (hs_ny _ _ _ _ _ _ _ _ _ HS) as Hy. pose proof (hs_nx _ _ _ _ _ _ _ _ _ HS) as Hx.
  pose proof (setup_dx _ _ _ _ _ _ _ _ _ HS) as Hd.
  destruct (hw_exists p ny nx (c_dx c) Hy Hx Hd) as (K & _ & Ex). destruct (Ex y0 (c_end c) HT) as (Y & HY & Y0 & _).
  exists Y. split; [exact HY|]. split; [exact Y0|].
  destruct (rk4_global_hw p ny nx (c_dx c) Hy Hx Hd Y (c_end c) HT HY) as (C & h0 & HC & Hh & HG).
  exists C, h0. split; [exact HC|]. split; [exact Hh|]. intros dt Hdt sim.
  destruct (top_hw_run b p ny nx ys xs k0 dsf (with_step c dt) rnd y0 phi0 fs (setup_step _ _ _ _ _ _ _ _ _ dt HS) Hz Hph Hfs) as (g & Rg & Dg & FF & _).
  exists g. eexists. split; [exact Rg|]. split; [exact Dg|]. split; [exact FF|]. split; [now rewrite map_map|].
  intros f Hf. apply in_map_iff in Hf as (j & <- & Hj). apply recorded_le in Hj. cbn [with_step c_dx c_end c_step] in Hj |- *.
  cbn [hw_frame f_t f_n f_o]. assert (Hj' : INR j * dt <= c_end c).
  { apply le_INR in Hj. assert (P : 0 <= c_end c / dt) by (apply Rmult_le_pos; [lra|left; apply Rinv_0_lt_compat; lra]).
    pose proof (trunc_le (c_end c / dt) P). apply Rle_trans with (c_end c / dt * dt); [apply Rmult_le_compat_r; lra|right; field; lra]. }
  split; [split; [apply Rmult_le_pos; [apply pos_INR|lra]|exact Hj']|].
  unfold hw_states. rewrite <- surjective_pairing, <- Y0. now apply HG.
Qed.

Lemma round4_ge x : x - 1 <= @t_round4 _ TimeR x.
Proof.
  cbn [t_round4 TimeR]. unfold R_round_even. set (y := x * 10000). destruct (base_Int_part y) as [B1 B2].
  assert (G : IZR (Int_part y) <= IZR (R_round_even y)).
  { unfold R_round_even. apply IZR_le. repeat match goal with |- context [if ?b then _ else _] => destruct b end; lia. }
  unfold R_round_even in G. apply (Rmult_le_compat_r (/ 10000)) in G; [|lra]. unfold Rdiv.
  apply Rle_trans with (2 := G). unfold y in *. lra.
Qed.
Lemma conv_run2 b p ny nx ys xs k0 dsf (c : cfg (arr R) R) rnd y0 phi0 fs :
  hw_setup b p ny nx ys xs k0 dsf c -> (forall k, In k (c_props c) -> prop_fits k ny nx) ->
  c_phys c = physics_params2 (c_dx c) (Z.of_nat (pN p)) (pc1 p) (pnu p) k0 (ppb p) (pkap p) (pzon p) ->
  (fs = None \/ c_force c = true) -> 0 <= c_end c ->
  exists Y, hw_solution p ny nx (c_dx c) Y (c_end c + 2) /\ Y 0 = y0 /\
    exists C h0, 0 <= C /\ 0 < h0 /\ forall dt n fuel, 0 < dt <= h0 ->
      (forall j, (j < n)%nat -> @t_round4 _ TimeR (INR j * dt) < c_end c) -> c_end c <= @t_round4 _ TimeR (INR n * dt) -> (n < fuel)%nat ->
      let sim := @run2 _ _ TimeR (hw_sim b rnd ny nx ys xs) (with_step c dt) fuel (plasma0 (grid ny nx (fst y0)) (grid ny nx (snd y0)) (grid ny nx phi0)) in
      exists g l, result_of sim fs = Ok tt /\ disk_of sim fs = Some g /\ file_frames rnd dsf ys xs l g /\
        (c_rec c < INR n * dt -> map f_t l = map (fun j => INR j * dt) (recorded_its (with_step c dt) n)) /\
        frames_near ny nx (C * dt ^ 4) (c_end c + 2) Y l.
Proof.
  intros HS Hfit Hph Hfs HT. pose proof (hs_ny _ _ _ _ _ _ _ _ _ HS) as Hy. pose proof (hs_nx _ _ _ _ _ _ _ _ _ HS) as Hx.
  pose proof (setup_dx _ _ _ _ _ _ _ _ _ HS) as Hd. assert (HT2 : 0 <= c_end c + 2) by lra.
  destruct (hw_exists p ny nx (c_dx c) Hy Hx Hd) as (K & _ & Ex). destruct (Ex y0 (c_end c + 2) HT2) as (Y & HY & Y0 & _).
  exists Y. split; [exact HY|]. split; [exact Y0|].
  destruct (rk4_global_hw p ny nx (c_dx c) Hy Hx Hd Y (c_end c + 2) HT2 HY) as (C & h0 & HC & Hh & HG).
  exists C, (Rmin h0 1). split; [exact HC|]. split; [apply Rmin_glb_lt; lra|]. intros dt n fuel Hdt H1 H2 Hfu sim.
  pose proof (Rmin_l h0 1). pose proof (Rmin_r h0 1).
  destruct (top_hw_run2 b p ny nx ys xs k0 dsf (with_step c dt) rnd y0 phi0 fs n fuel (setup_step _ _ _ _ _ _ _ _ _ dt HS) Hfit Hph Hfs H1 H2 Hfu) as (g & Rg & Dg & FF & _).
  exists g. eexists. split; [exact Rg|]. split; [exact Dg|]. split; [exact FF|]. split.
  { intros Hr. destruct (Rlt_dec _ _) as [_|N]; [now rewrite map_map|]. exfalso. now apply N. }
  intros f Hf. assert (Hin : In f (map (hw_frame p ny nx (c_dx (with_step c dt)) (c_step (with_step c dt)) y0 phi0) (recorded_its (with_step c dt) n))).
  { destruct (Rlt_dec _ _); [exact Hf|]. rewrite <- (firstn_skipn (c_blen (with_step c dt) * (Datatypes.length (map (hw_frame p ny nx (c_dx (with_step c dt)) (c_step (with_step c dt)) y0 phi0) (recorded_its (with_step c dt) n)) / c_blen (with_step c dt)))).
    apply in_or_app. now left. }
  apply in_map_iff in Hin as (j & <- & Hj). apply recorded_le in Hj. cbn [with_step c_dx c_end c_step] in Hj |- *.
  cbn [hw_frame f_t f_n f_o]. assert (Hj' : INR j * dt <= c_end c + 2).
  { destruct j as [|j]; [cbn; lra|]. rewrite S_INR. assert (j < n)%nat by lia. specialize (H1 j H3). pose proof (round4_ge (INR j * dt)). nra. }
  split; [split; [apply Rmult_le_pos; [apply pos_INR|lra]|exact Hj']|].
  unfold hw_states. rewrite <- surjective_pairing, <- Y0. apply HG; [lra|exact Hj'].
Qed.
