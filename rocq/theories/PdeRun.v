(** The files of the drivers against solutions of the partial differential
    equations, and a family of exact solutions. *)
From Coquelicot Require Import Coquelicot.
From Coq Require Import List Arith ZArith Lia Bool Reals Lra Psatz String.
From Verif Require Import Num NdArray NdFacts Spec SpecFourier SpecHW SpecPlasma ModelHW ModelBackend ModelIO ModelRun ModelRunHW SpecIO SpecRun SpecRunHW
  SpecConv SpecSmooth RhsFacts SmoothFacts HWProps OdeFacts OdeExist RkOrder StepProps RunHWFacts RunHWTop HwExist HwConv NormFacts SymbolFacts PdeStab SpecPde PdeConv PdeTop.
Import ListNotations.
Local Open Scope R_scope.
#[local] Existing Instance TimeR.

Lemma pde_semi p Ly Lx T M : 0 < Ly -> 0 < Lx -> 0 <= T -> 0 <= pnu p ->
  exists C, 0 <= C /\ forall Q O P ny nx h Y, pde_solution p Ly Lx T M Q O P -> fills ny nx h Ly Lx -> hw_solution p ny nx h Y T ->
    forall t, 0 <= t <= T -> rms_dist ny nx (Y t) (at_grid h Q O t) <= C * (rms_dist ny nx (Y 0) (at_grid h Q O 0) + h ^ 2).
Proof.
  intros HLy HLx HT Hnu. eexists. split; [|intros Q O P ny nx h Y HS HF HY t Ht; exact (semi_rms p Ly Lx T M HT Hnu Q O P ny nx h Y HS HF HY t Ht)].
  pose proof (C0_ge p Ly Lx T M HT). lra.
Qed.
Lemma pde_steps p Ly Lx T M : 0 < Ly -> 0 < Lx -> 0 <= T -> 0 <= pnu p ->
  exists C, 0 <= C /\ forall Q O P ny nx h b dx0 test pl phi a, pde_solution p Ly Lx T M Q O P -> fills ny nx h Ly Lx -> backend_ok ny nx b ->
  plasma_ok test ny nx pl (sample h (Q 0 0%nat 0%nat)) (sample h (O 0 0%nat 0%nat)) phi a ->
  agree ny nx phi (invlap ny nx h (sample h (O 0 0%nat 0%nat))) ->
  exists C' h0, 0 <= C' /\ 0 < h0 /\ forall dt k, 0 < dt <= h0 -> INR k * dt <= T ->
    exists pl' n' o' phi', snd (steps (fun pl => rk4_step (hw_of b p dx0 test) pl dt h) k pl) = Ok pl' /\
      plasma_ok test ny nx pl' n' o' phi' (a + INR k * dt) /\
      rms_dist ny nx (n', o') (at_grid h Q O (INR k * dt)) <= C * h ^ 2 + C' * dt ^ 4 /\
      within ny nx (C * h + C' * dt ^ 4) (n', o') (at_grid h Q O (INR k * dt)).
Proof.
  intros HLy HLx HT Hnu. exists (Cbox p Ly Lx T M). split; [now apply Cbox_pos|].
  intros. eapply pde_rk4; eassumption.
Qed.
Lemma pde_run p Ly Lx T M : 0 < Ly -> 0 < Lx -> 0 <= T -> 0 <= pnu p -> pzon p = false ->
  exists C, 0 <= C /\ forall Q O P b ny nx ys xs k0 dsf (c : cfg (arr R) R) rnd phi0 fs,
    pde_solution p Ly Lx T M Q O P -> hw_setup b p ny nx ys xs k0 dsf c -> fills ny nx (c_dx c) Ly Lx ->
    c_phys c = physics_params (c_dx c) (Z.of_nat (pN p)) (pc1 p) (pnu p) k0 (ppb p) (pkap p) ->
    (fs = None \/ c_force c = true) -> c_end c = T ->
    let y0 := at_grid (c_dx c) Q O 0 in
    exists C' h0, 0 <= C' /\ 0 < h0 /\ forall dt, 0 < dt <= h0 ->
      let sim := run (hw_sim b rnd ny nx ys xs) (with_step c dt) (plasma0 (grid ny nx (fst y0)) (grid ny nx (snd y0)) (grid ny nx phi0)) in
      exists g l, result_of sim fs = Ok tt /\ disk_of sim fs = Some g /\ file_frames rnd dsf ys xs l g /\
        map f_t l = map (fun j => INR j * dt) (recorded_its (with_step c dt) (Z.to_nat (R_trunc (T / dt)))) /\
        forall f, In f l -> near_pde ny nx (c_dx c) (C * c_dx c ^ 2 + C' * dt ^ 4) (C * c_dx c + C' * dt ^ 4) Q O P f.
Proof.
  intros HLy HLx HT Hnu Hz. exists (Cbox p Ly Lx T M). split; [now apply Cbox_pos|].
  intros Q O P b ny nx ys xs k0 dsf c rnd phi0 fs HP HS HF Hph Hfs HE y0.
  destruct (pde_frames p Ly Lx T M HLy HLx HT Hnu Q O P ny nx (c_dx c) phi0 HP HF) as (C' & h0 & HC & Hh & HG).
  exists C', h0. split; [exact HC|]. split; [exact Hh|]. intros dt Hdt sim.
  destruct (top_hw_run b p ny nx ys xs k0 dsf (with_step c dt) rnd y0 phi0 fs (setup_step _ _ _ _ _ _ _ _ _ dt HS) Hz Hph Hfs) as (g & Rg & Dg & FF & _).
  exists g. eexists. split; [exact Rg|]. split; [exact Dg|]. split; [exact FF|]. cbn [with_step c_dx c_end c_step] in *. rewrite HE. split; [now rewrite map_map|].
  intros f Hf. apply in_map_iff in Hf as (j & <- & Hj). apply recorded_le in Hj. 
  apply HG; [exact Hdt|]. apply le_INR in Hj. assert (P0 : 0 <= T / dt) by (apply Rmult_le_pos; [lra|left; apply Rinv_0_lt_compat; lra]).
  pose proof (trunc_le (T / dt) P0). apply Rle_trans with (T / dt * dt); [apply Rmult_le_compat_r; lra|right; field; lra].
Qed.
Lemma pde_run2 p Ly Lx T M : 0 < Ly -> 0 < Lx -> 0 <= T -> 0 <= pnu p ->
  exists C, 0 <= C /\ forall Q O P b ny nx ys xs k0 dsf (c : cfg (arr R) R) rnd phi0 fs,
    pde_solution p Ly Lx (T + 2) M Q O P -> hw_setup b p ny nx ys xs k0 dsf c -> (forall k, In k (c_props c) -> prop_fits k ny nx) -> fills ny nx (c_dx c) Ly Lx ->
    c_phys c = physics_params2 (c_dx c) (Z.of_nat (pN p)) (pc1 p) (pnu p) k0 (ppb p) (pkap p) (pzon p) ->
    (fs = None \/ c_force c = true) -> c_end c = T ->
    let y0 := at_grid (c_dx c) Q O 0 in
    exists C' h0, 0 <= C' /\ 0 < h0 /\ forall dt n fuel, 0 < dt <= h0 ->
      (forall j, (j < n)%nat -> t_round4 (INR j * dt) < T) -> T <= t_round4 (INR n * dt) -> (n < fuel)%nat ->
      let sim := run2 (hw_sim b rnd ny nx ys xs) (with_step c dt) fuel (plasma0 (grid ny nx (fst y0)) (grid ny nx (snd y0)) (grid ny nx phi0)) in
      exists g l, result_of sim fs = Ok tt /\ disk_of sim fs = Some g /\ file_frames rnd dsf ys xs l g /\
        (c_rec c < INR n * dt -> map f_t l = map (fun j => INR j * dt) (recorded_its (with_step c dt) n)) /\
        forall f, In f l -> near_pde ny nx (c_dx c) (C * c_dx c ^ 2 + C' * dt ^ 4) (C * c_dx c + C' * dt ^ 4) Q O P f.
Proof.
  intros HLy HLx HT Hnu. assert (HT2 : 0 <= T + 2) by lra. exists (Cbox p Ly Lx (T + 2) M). split; [now apply Cbox_pos|].
  intros Q O P b ny nx ys xs k0 dsf c rnd phi0 fs HP HS Hfit HF Hph Hfs HE y0.
  destruct (pde_frames p Ly Lx (T + 2) M HLy HLx HT2 Hnu Q O P ny nx (c_dx c) phi0 HP HF) as (C' & h0 & HC & Hh & HG).
  exists C', (Rmin h0 1). split; [exact HC|]. split; [apply Rmin_glb_lt; lra|]. intros dt n fuel Hdt H1 H2 Hfu sim.
  pose proof (Rmin_l h0 1). pose proof (Rmin_r h0 1). rewrite <- HE in H1, H2.
  destruct (top_hw_run2 b p ny nx ys xs k0 dsf (with_step c dt) rnd y0 phi0 fs n fuel (setup_step _ _ _ _ _ _ _ _ _ dt HS) Hfit Hph Hfs H1 H2 Hfu) as (g & Rg & Dg & FF & _).
  exists g. eexists. split; [exact Rg|]. split; [exact Dg|]. split; [exact FF|]. split.
  { intros Hr. destruct (Rlt_dec _ _) as [_|N]; [now rewrite map_map|]. exfalso. now apply N. }
  intros f Hf. assert (Hin : In f (map (hw_frame p ny nx (c_dx (with_step c dt)) (c_step (with_step c dt)) y0 phi0) (recorded_its (with_step c dt) n))).
  { destruct (Rlt_dec _ _); [exact Hf|]. rewrite <- (firstn_skipn (c_blen (with_step c dt) * (Datatypes.length (map (hw_frame p ny nx (c_dx (with_step c dt)) (c_step (with_step c dt)) y0 phi0) (recorded_its (with_step c dt) n)) / c_blen (with_step c dt)))).
    apply in_or_app. now left. }
  apply in_map_iff in Hin as (j & <- & Hj). apply recorded_le in Hj. cbn [with_step c_dx c_end c_step] in Hj |- *.
  apply HG; [lra|]. destruct j as [|j]; [cbn; lra|]. rewrite S_INR. assert (j < n)%nat by lia. specialize (H1 j H3). pose proof (round4_ge (INR j * dt)). nra.
Qed.

(** ** limits *)
Lemma near_mono ny nx h e1 e2 f1 f2 Q O P f : e1 <= e2 -> f1 <= f2 -> near_pde ny nx h e1 f1 Q O P f -> near_pde ny nx h e2 f2 Q O P f.
Proof.
  intros He Hf (A & B & C). split; [lra|]. split.
  - intros i j Hi Hj. destruct (B i j Hi Hj). split; lra.
  - intros Hp. destruct (C Hp) as [C1 C2]. split; [lra|]. intros i j Hi Hj. specialize (C2 i j Hi Hj). lra.
Qed.
Lemma pick_h C eps : 0 <= C -> 0 < eps -> exists h1, 0 < h1 /\ forall h, 0 < h <= h1 -> C * h <= eps / 2 /\ C * h ^ 2 <= eps / 2.
Proof.
  intros HC He. assert (P : 0 < / (2 * (C + 1))) by (apply Rinv_0_lt_compat; lra). exists (Rmin 1 (eps * / (2 * (C + 1)))).
  split; [apply Rmin_glb_lt; [lra|now apply Rmult_lt_0_compat]|]. intros h [H0 H]. pose proof (Rmin_l 1 (eps * / (2 * (C + 1)))). pose proof (Rmin_r 1 (eps * / (2 * (C + 1)))).
  assert (K : C * h <= eps / 2).
  { apply Rle_trans with ((C + 1) * (eps * / (2 * (C + 1)))); [|right; field; lra]. apply Rmult_le_compat; lra. }
  split; [exact K|]. apply Rle_trans with (C * h); [|exact K]. apply Rmult_le_compat_l; [exact HC|]. nra.
Qed.
Lemma pick_dt C' eps : 0 <= C' -> 0 < eps -> exists d1, 0 < d1 /\ forall dt, 0 < dt <= d1 -> C' * dt ^ 4 <= eps / 2.
Proof.
  intros HC He. destruct (pick_h C' eps HC He) as (d & Hd & K). exists (Rmin d 1). split; [apply Rmin_glb_lt; lra|]. intros dt [H0 H].
  pose proof (Rmin_l d 1). pose proof (Rmin_r d 1). destruct (K dt) as [K1 _]; [lra|].
  apply Rle_trans with (C' * dt); [|exact K1]. apply Rmult_le_compat_l; [exact HC|]. assert (dt ^ 2 <= dt) by nra. assert (0 <= dt ^ 2) by apply pow2_ge_0. replace (dt ^ 4) with (dt ^ 2 * dt ^ 2) by ring. nra.
Qed.
Lemma pde_run_limit p Ly Lx T M eps : 0 < Ly -> 0 < Lx -> 0 <= T -> 0 <= pnu p -> pzon p = false -> 0 < eps ->
  exists h1, 0 < h1 /\ forall Q O P b ny nx ys xs k0 dsf (c : cfg (arr R) R) rnd phi0 fs,
    pde_solution p Ly Lx T M Q O P -> hw_setup b p ny nx ys xs k0 dsf c -> fills ny nx (c_dx c) Ly Lx -> c_dx c <= h1 ->
    c_phys c = physics_params (c_dx c) (Z.of_nat (pN p)) (pc1 p) (pnu p) k0 (ppb p) (pkap p) ->
    (fs = None \/ c_force c = true) -> c_end c = T ->
    let y0 := at_grid (c_dx c) Q O 0 in
    exists d1, 0 < d1 /\ forall dt, 0 < dt <= d1 ->
      let sim := run (hw_sim b rnd ny nx ys xs) (with_step c dt) (plasma0 (grid ny nx (fst y0)) (grid ny nx (snd y0)) (grid ny nx phi0)) in
      exists g l, result_of sim fs = Ok tt /\ disk_of sim fs = Some g /\ file_frames rnd dsf ys xs l g /\
        forall f, In f l -> near_pde ny nx (c_dx c) eps eps Q O P f.
Proof.
  intros HLy HLx HT Hnu Hz He. destruct (pde_run p Ly Lx T M HLy HLx HT Hnu Hz) as (C & HC & H). destruct (pick_h C eps HC He) as (h1 & Hh1 & K1).
  exists h1. split; [exact Hh1|]. intros Q O P b ny nx ys xs k0 dsf c rnd phi0 fs HP HS HF Hle Hph Hfs HE y0.
  destruct (H Q O P b ny nx ys xs k0 dsf c rnd phi0 fs HP HS HF Hph Hfs HE) as (C' & h0 & HC' & Hh0 & G).
  destruct (pick_dt C' eps HC' He) as (d1 & Hd1 & K2). exists (Rmin h0 d1). split; [now apply Rmin_glb_lt|]. intros dt Hdt sim.
  pose proof (Rmin_l h0 d1). pose proof (Rmin_r h0 d1). destruct (G dt ltac:(lra)) as (g & l & G1 & G2 & G3 & _ & G5). exists g, l. split; [exact G1|]. split; [exact G2|]. split; [exact G3|].
  intros f Hf. destruct HF as (_ & _ & Hh & _). destruct (K1 (c_dx c)) as [X1 X2]; [lra|]. specialize (K2 dt ltac:(lra)).
  eapply near_mono; [| |exact (G5 f Hf)]; lra.
Qed.
Lemma pde_run2_limit p Ly Lx T M eps : 0 < Ly -> 0 < Lx -> 0 <= T -> 0 <= pnu p -> 0 < eps ->
  exists h1, 0 < h1 /\ forall Q O P b ny nx ys xs k0 dsf (c : cfg (arr R) R) rnd phi0 fs,
    pde_solution p Ly Lx (T + 2) M Q O P -> hw_setup b p ny nx ys xs k0 dsf c -> (forall k, In k (c_props c) -> prop_fits k ny nx) ->
    fills ny nx (c_dx c) Ly Lx -> c_dx c <= h1 ->
    c_phys c = physics_params2 (c_dx c) (Z.of_nat (pN p)) (pc1 p) (pnu p) k0 (ppb p) (pkap p) (pzon p) ->
    (fs = None \/ c_force c = true) -> c_end c = T ->
    let y0 := at_grid (c_dx c) Q O 0 in
    exists d1, 0 < d1 /\ forall dt n fuel, 0 < dt <= d1 ->
      (forall j, (j < n)%nat -> t_round4 (INR j * dt) < T) -> T <= t_round4 (INR n * dt) -> (n < fuel)%nat ->
      let sim := run2 (hw_sim b rnd ny nx ys xs) (with_step c dt) fuel (plasma0 (grid ny nx (fst y0)) (grid ny nx (snd y0)) (grid ny nx phi0)) in
      exists g l, result_of sim fs = Ok tt /\ disk_of sim fs = Some g /\ file_frames rnd dsf ys xs l g /\
        forall f, In f l -> near_pde ny nx (c_dx c) eps eps Q O P f.
Proof.
  intros HLy HLx HT Hnu He. destruct (pde_run2 p Ly Lx T M HLy HLx HT Hnu) as (C & HC & H). destruct (pick_h C eps HC He) as (h1 & Hh1 & K1).
  exists h1. split; [exact Hh1|]. intros Q O P b ny nx ys xs k0 dsf c rnd phi0 fs HP HS Hfit HF Hle Hph Hfs HE y0.
  destruct (H Q O P b ny nx ys xs k0 dsf c rnd phi0 fs HP HS Hfit HF Hph Hfs HE) as (C' & h0 & HC' & Hh0 & G).
  destruct (pick_dt C' eps HC' He) as (d1 & Hd1 & K2). exists (Rmin h0 d1). split; [now apply Rmin_glb_lt|]. intros dt n fuel Hdt Hn1 Hn2 Hfu sim.
  pose proof (Rmin_l h0 d1). pose proof (Rmin_r h0 d1). destruct (G dt n fuel ltac:(lra) Hn1 Hn2 Hfu) as (g & l & G1 & G2 & G3 & _ & G5). exists g, l. split; [exact G1|]. split; [exact G2|]. split; [exact G3|].
  intros f Hf. destruct HF as (_ & _ & Hh & _). destruct (K1 (c_dx c)) as [X1 X2]; [lra|]. specialize (K2 dt ltac:(lra)).
  eapply near_mono; [| |exact (G5 f Hf)]; lra.
Qed.

(** ** decaying cells: cos y + cos x times exp (- nu t) *)
Definition cellD (a b : nat) : pfield := fun y x =>
  (if (b =? 0)%nat then cos (y + INR a * (PI / 2)) else 0) + (if (a =? 0)%nat then cos (x + INR b * (PI / 2)) else 0).
Definition cellP (nu t : R) (a b : nat) : pfield := fun y x => exp (- nu * t) * cellD a b y x.
Definition cellO (nu t : R) (a b : nat) : pfield := fun y x => - exp (- nu * t) * cellD a b y x.
Lemma quarter_der n x : derivable_pt_lim (fun s => cos (s + INR n * (PI / 2))) x (cos (x + INR (S n) * (PI / 2))).
Proof.
  apply is_derive_Reals. replace (cos (x + INR (S n) * (PI / 2))) with (1 * - sin (x + INR n * (PI / 2))).
  - auto_derive; [trivial|ring].
  - rewrite S_INR. replace (x + (INR n + 1) * (PI / 2)) with (PI / 2 + (x + INR n * (PI / 2))) by ring. rewrite cos_plus, cos_PI2, sin_PI2. ring.
Qed.
Lemma half_turn n x : cos (x + INR (2 + n) * (PI / 2)) = - cos (x + INR n * (PI / 2)).
Proof. rewrite plus_INR. replace (x + (INR 2 + INR n) * (PI / 2)) with (x + INR n * (PI / 2) + PI) by (cbn [INR]; field). apply neg_cos. Qed.
Lemma cell_smooth k : smooth k 2 (cellD 0 0) cellD.
Proof.
  split; [reflexivity|]. split; [|split].
  - intros a b y x _. unfold cellD. cbn [Nat.eqb]. apply dpl_plus.
    + destruct (b =? 0)%nat; apply dpl_const.
    + destruct (a =? 0)%nat; [apply quarter_der|apply dpl_const].
  - intros a b y x _. unfold cellD. cbn [Nat.eqb]. apply dpl_plus.
    + destruct (b =? 0)%nat; [apply quarter_der|apply dpl_const].
    + destruct (a =? 0)%nat; apply dpl_const.
  - intros a b y x _. unfold cellD. eapply Rle_trans; [apply Rabs_triang|].
    assert (H : forall c t, Rabs (if (c =? 0)%nat then cos t else 0) <= 1).
    { intros c t. destruct (c =? 0)%nat; [apply Rabs_le; apply COS_bound|rewrite Rabs_R0; lra]. }
    pose proof (H b (y + INR a * (PI / 2))). pose proof (H a (x + INR b * (PI / 2))). lra.
Qed.
Lemma cell_lap a b y x : dlap cellD a b y x = - cellD a b y x.
Proof. unfold dlap, cellD. rewrite !half_turn. change (2 + a =? 0)%nat with false. change (2 + b =? 0)%nat with false. cbv iota. destruct (a =? 0)%nat, (b =? 0)%nat; ring. Qed.
Lemma cell_iter c N a b y x : dlap_iter N (fun a b y x => c * cellD a b y x) a b y x = (-1) ^ N * (c * cellD a b y x).
Proof.
  revert a b y x. induction N as [|N IH]; intros; cbn [dlap_iter]; [ring|]. unfold dlap. rewrite !IH. pose proof (cell_lap a b y x) as E. unfold dlap in E.
  replace ((-1) ^ N * (c * cellD (2 + a) b y x) + (-1) ^ N * (c * cellD a (2 + b) y x)) with ((-1) ^ N * c * (cellD (2 + a) b y x + cellD a (2 + b) y x)) by ring.
  rewrite E. cbn [pow]. ring.
Qed.
Lemma cell_scale c k : Rabs c <= 1 -> smooth k 2 (fun y x => c * cellD 0 0 y x) (fun a b y x => c * cellD a b y x).
Proof.
  intros Hc. destruct (cell_smooth k) as (_ & A & B & D). split; [reflexivity|]. split; [|split].
  - intros. apply (dpl_scal c (fun s => cellD a b y s)). now apply A.
  - intros. apply (dpl_scal c (fun s => cellD a b s x)). now apply B.
  - intros. rewrite Rabs_mult. pose proof (D a b y x H). pose proof (Rabs_pos (cellD a b y x)). pose proof (Rabs_pos c). nra.
Qed.
Lemma cell_periodic c : periodic (2 * PI) (2 * PI) (fun y x => c * cellD 0 0 y x).
Proof.
  intros y x. unfold cellD. cbn [Nat.eqb INR]. split.
  - replace (y + 2 * PI + 0 * (PI / 2)) with (y + 0 * (PI / 2) + 2 * INR 1 * PI) by (cbn [INR]; ring). now rewrite cos_period.
  - replace (x + 2 * PI + 0 * (PI / 2)) with (x + 0 * (PI / 2) + 2 * INR 1 * PI) by (cbn [INR]; ring). now rewrite cos_period.
Qed.
Lemma cell_mean c : is_RInt (fun x => RInt (fun y => c * cellD 0 0 y x) 0 (2 * PI)) 0 (2 * PI) 0.
Proof.
  apply (is_RInt_ext (fun x => 2 * PI * c * cos x)).
  - intros x _. symmetry. apply is_RInt_unique.
    refine (eq_ind _ (is_RInt _ 0 (2 * PI)) (is_RInt_derive (fun y => c * (sin y + y * cos x)) (fun y => c * cellD 0 0 y x) 0 (2 * PI) _ _) _ _).
    + intros y _. unfold cellD. cbn [Nat.eqb INR]. rewrite !Rmult_0_l, !Rplus_0_r. auto_derive; [trivial|ring].
    + intros y _. apply continuity_pt_filterlim. unfold cellD. cbn [Nat.eqb INR]. reg.
    + unfold Hierarchy.minus, Hierarchy.plus, Hierarchy.opp. cbn. rewrite sin_2PI, sin_0. ring.
  - refine (eq_ind _ (is_RInt _ 0 (2 * PI)) (is_RInt_derive (fun x => 2 * PI * c * sin x) (fun x => 2 * PI * c * cos x) 0 (2 * PI) _ _) _ _).
    + intros x _. auto_derive; [trivial|ring].
    + intros x _. apply continuity_pt_filterlim. reg.
    + unfold Hierarchy.minus, Hierarchy.plus, Hierarchy.opp. cbn. rewrite sin_2PI, sin_0. ring.
Qed.
Lemma exp_der nu t : derivable_pt_lim (fun s => exp (- nu * s)) t (- nu * exp (- nu * t)).
Proof. apply is_derive_Reals. auto_derive; [trivial|ring]. Qed.
Lemma cell_solution p T : pkap p = 0 -> 0 <= pnu p -> pde_solution p (2 * PI) (2 * PI) T 2 (cellP (pnu p)) (cellO (pnu p)) (cellP (pnu p)).
Proof.
  intros Hk Hnu.
  assert (EB : forall t, 0 <= t <= T -> Rabs (exp (- pnu p * t)) <= 1).
  { intros t Ht. rewrite Rabs_pos_eq by (left; apply exp_pos). rewrite <- exp_0. apply exp_le. assert (0 <= pnu p * t) by (now apply Rmult_le_pos). lra. }
  assert (S1 : pow (-1) (pN p + 1) * pow (-1) (pN p) = -1).
  { rewrite pow_add, pow_1. replace ((-1) ^ pN p * -1 * (-1) ^ pN p) with (- ((-1) ^ pN p * (-1) ^ pN p)) by ring. rewrite <- Rpow_mult_distr. replace (-1 * -1) with 1 by ring. rewrite pow1. reflexivity. }
  constructor; intros t Ht.
  - split; [now apply cell_scale, EB|apply cell_periodic].
  - split; [apply (cell_scale (- exp (- pnu p * t))); rewrite Rabs_Ropp; now apply EB|apply (cell_periodic (- exp (- pnu p * t)))].
  - split; [now apply cell_scale, EB|apply cell_periodic].
  - set (U := fun y x => exp (- pnu p * t) * (sin y + y * cos x)). exists U, U. split.
    + intros _. assert (AU : antider_y (cellP (pnu p) t 0%nat 0%nat) U); [|now split]. intros y x. unfold U, cellP, cellD. cbn [Nat.eqb INR]. apply is_derive_Reals.
      auto_derive; [trivial|]. rewrite !Rmult_0_l, !Rplus_0_r. ring.
    + intros y x. unfold pde_n, pde_o, pde_hyper. rewrite Hk.
      replace (pde_coupling p (2 * PI) (cellP (pnu p) t) (cellP (pnu p) t) U U y x) with 0 by (unfold pde_coupling; destruct (pzon p); ring).
      replace (bracket (cellP (pnu p) t) (cellP (pnu p) t) y x) with 0 by (unfold bracket; ring).
      replace (bracket (cellP (pnu p) t) (cellO (pnu p) t) y x) with 0 by (unfold bracket, cellP, cellO; ring).
      unfold cellP at 3, cellO at 2. rewrite !cell_iter. split.
      * apply dpl_eq with (- pnu p * exp (- pnu p * t) * cellD 0 0 y x).
        -- unfold cellP. apply (dpl_ext (fun s => cellD 0 0 y x * exp (- pnu p * s))); [intros; ring|].
           apply dpl_eq with (cellD 0 0 y x * (- pnu p * exp (- pnu p * t))); [|ring]. apply dpl_scal. apply exp_der.
        -- unfold cellP. transitivity ((-1) ^ (pN p + 1) * (-1) ^ pN p * pnu p * (exp (- pnu p * t) * cellD 0 0 y x)); [rewrite S1; ring|ring].
      * apply dpl_eq with (pnu p * exp (- pnu p * t) * cellD 0 0 y x).
        -- unfold cellO. apply (dpl_ext (fun s => - cellD 0 0 y x * exp (- pnu p * s))); [intros; ring|].
           apply dpl_eq with (- cellD 0 0 y x * (- pnu p * exp (- pnu p * t))); [|ring]. apply dpl_scal. apply exp_der.
        -- unfold cellO. transitivity ((-1) ^ (pN p + 1) * (-1) ^ pN p * pnu p * (- exp (- pnu p * t) * cellD 0 0 y x)); [rewrite S1; ring|ring].
  - exists 0. intros y x. unfold dlap, cellP, cellO. pose proof (cell_lap 0 0 y x) as E. unfold dlap in E. transitivity (exp (- pnu p * t) * (cellD (2 + 0) 0 y x + cellD 0 (2 + 0) y x)); [ring|]. rewrite E. ring.
  - apply cell_mean.
Qed.
