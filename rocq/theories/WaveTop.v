(** Plane waves, the drift-wave instability and the diffusive limit of the
    time step, at the level of the program's functions. *)
From Coq Require Import List Arith ZArith Lia Bool Reals Lra Psatz String Permutation.
From Verif Require Import Num NdArray NdFacts ModelGradients Spec GradFacts SumFacts LapFacts GradProps ModelArakawa ArakawaFacts ArakawaProps
  Cplx DftFacts SpecFourier ModelPoisson PoissonFacts PoissonProps ModelHW ModelBackend SpecHW SpecPlasma HWFacts StepFacts RhsFacts SymFacts HWProps
  SmoothStencil WaveFacts SpecWave WaveHW WaveStab WaveDiff.
Import ListNotations.
Local Open Scope R_scope.

Section T.
Variables (ny nx : nat) (dx : R) (k l : Z).
Hypothesis Hy : (0 < ny)%nat.
Hypothesis Hx : (0 < nx)%nat.
Hypothesis Hd : dx <> 0.
Local Notation W := (pwave ny nx k l).
Local Notation G z := (Ok (grid ny nx (W z))).

(** ** the operators *)
Lemma c99_gradient z :
  np_periodic_gradient (G z) dx 0 = Ok (Some (grid ny nx (W (Cmul (mkC 0 (gsym ny dx k)) z)))) /\
  np_periodic_gradient (G z) dx 1 = Ok (Some (grid ny nx (W (Cmul (mkC 0 (gsym nx dx l)) z)))) /\
  nb_periodic_gradient (G z) dx 0 = Ok (Some (grid ny nx (W (Cmul (mkC 0 (gsym ny dx k)) z)))) /\
  nb_periodic_gradient (G z) dx 1 = Ok (Some (grid ny nx (W (Cmul (mkC 0 (gsym nx dx l)) z)))).
Proof.
  assert (E0 : np_periodic_gradient (G z) dx 0 = Ok (Some (grid ny nx (W (Cmul (mkC 0 (gsym ny dx k)) z))))).
  { rewrite np_grad_pos by (assumption || now left). cbn [Z.eqb]. do 2 f_equal. apply grid_ext. intros. now apply cdy_pwave. }
  assert (E1 : np_periodic_gradient (G z) dx 1 = Ok (Some (grid ny nx (W (Cmul (mkC 0 (gsym nx dx l)) z))))).
  { rewrite np_grad_pos by (assumption || now right). cbn [Z.eqb]. do 2 f_equal. apply grid_ext. intros. now apply cdx_pwave. }
  rewrite !nb_np_grad by lia. auto.
Qed.
Lemma c99_laplace z n :
  nb_periodic_laplace_N (G z) dx (Z.of_nat n) = G (Cscal ((- lsym ny nx dx k l) ^ n) z) /\
  np_periodic_laplace_N (G z) dx (Z.of_nat n) = G (Cscal ((- lsym ny nx dx k l) ^ n) z).
Proof.
  assert (E : nb_periodic_laplace_N (G z) dx (Z.of_nat n) = G (Cscal ((- lsym ny nx dx k l) ^ n) z)).
  { rewrite nb_periodic_laplace_N_grid by (try assumption; lia). rewrite Nat2Z.id. f_equal. apply grid_ext. now apply lap_iter_pwave. }
  split; [exact E|]. rewrite <- laplace_N_agree; [exact E|apply wf_build|reflexivity|lia].
Qed.
Lemma c99_get_phi z : fits ny nx k l ->
  get_phi np_solve (G z) dx = G (Cscal (- / ksq ny nx dx k l) z) /\
  ((Z.of_nat ny <= 65536)%Z -> (Z.of_nat nx <= 65536)%Z -> get_phi nb_solve (G z) dx = G (Cscal (- / ksq ny nx dx k l) z)).
Proof.
  intros Hf.
  assert (E : get_phi np_solve (G z) dx = G (Cscal (- / ksq ny nx dx k l) z)).
  { rewrite get_phi_np by assumption. f_equal. apply grid_ext. intros i j Hi Hj.
    rewrite invlap_centered by assumption. now apply invlap_pwave. }
  split; [exact E|]. intros By Bx. now rewrite get_phi_nb.
Qed.
Lemma c99_bracket z w :
  (forall junk, np_periodic_arakawa junk (G z) (G w) dx = Ok (grid ny nx (fun _ _ => 0))) /\
  np_periodic_arakawa_vec (G z) (G w) dx = Ok (grid ny nx (fun _ _ => 0)) /\
  nb_periodic_arakawa_vec (G z) (G w) dx = Ok (grid ny nx (fun _ _ => 0)) /\
  nb_periodic_arakawa (G z) (G w) dx = Ok (grid ny nx (fun _ _ => 0)) /\
  nb_periodic_arakawa_stencil (G z) (G w) dx = Ok (grid ny nx (fun _ _ => 0)).
Proof.
  assert (E : np_periodic_arakawa_vec (G z) (G w) dx = Ok (grid ny nx (fun _ _ => 0))).
  { rewrite np_periodic_arakawa_vec_grid by assumption. f_equal. apply grid_ext. intros i j Hi Hj.
    rewrite <- jacobian_ara by assumption. now apply jac_pwave. }
  assert (Wf : forall f : nat -> nat -> R, wf (grid ny nx f)) by (intros; apply wf_build).
  split; [|split; [exact E|split; [|split]]].
  - intros junk. rewrite <- E. apply (c07_exact junk); auto.
  - rewrite <- E. apply c07_bits; auto.
  - rewrite <- E. apply (c07_exact (fun _ _ => 0)); auto.
  - rewrite <- E. apply c07_bits; auto.
Qed.

Variables (b : backend R) (p : par) (dx0 : R) (test : bool).
Hypothesis Hb : backend_ok ny nx b.
Local Notation HW := (hw_of b p dx0 test).
Local Notation A := (amp_rhs p ny nx dx k l).

Lemma c99_rhs y v dt : fits ny nx k l -> args_ok ny nx y (W (fst v)) (W (snd v)) ->
  exists lg d, gradient_2d HW y None dt dx = (lg, Ok d) /\
    ns_get d "density" = Ok (grid ny nx (W (fst (A v)))) /\ ns_get d "omega" = Ok (grid ny nx (W (snd (A v)))).
Proof.
  intros Hf Ha. destruct (c18_no_phi b p dx0 test ny nx dx Hy Hx Hd Hb y _ _ dt Ha) as (lg & E & _).
  destruct (c18 b p dx0 test ny nx dx Hy Hx Hd Hb y _ _ (invlap ny nx dx (W (snd v))) dt Ha) as (lg' & d & E' & En & Eo & _).
  destruct (hw_rhs_wave ny nx k l Hy Hx p dx v Hd Hf) as [A1 A2].
  exists ("get_phi"%string :: lg), d. split; [rewrite E, E'; reflexivity|]. split.
  - rewrite En. f_equal. apply grid_ext. exact A1.
  - rewrite Eo. f_equal. apply grid_ext. exact A2.
Qed.

(** ** whole trajectories *)
Lemma wave_traj (step : ModelHW.hw R -> ns R -> R -> R -> M (ns R)) sstep astep pl v a dt m :
  (exists pl' phi', let y' := iter_step sstep m (wstate ny nx k l v) in
    snd (steps (fun pl => step HW pl dt dx) m pl) = Ok pl' /\
    plasma_ok test ny nx pl' (fst y') (snd y') phi' (a + INR m * dt) /\
    agree ny nx phi' (invlap ny nx dx (snd y')) /\ Permutation (ns_keys pl') (ns_keys pl)) ->
  (forall y v, sagree ny nx y (wstate ny nx k l v) -> sagree ny nx (sstep y) (wstate ny nx k l (astep v))) ->
  fits ny nx k l ->
  let v' := aiter astep m v in
  exists pl', snd (steps (fun pl => step HW pl dt dx) m pl) = Ok pl' /\
    plasma_ok test ny nx pl' (W (fst v')) (W (snd v')) (W (Cscal (- / ksq ny nx dx k l) (snd v'))) (a + INR m * dt).
Proof.
  intros (pl' & phi' & E & P & Ap & _) Hs Hf v'. exists pl'. split; [exact E|].
  destruct (W_iter ny nx k l sstep astep m (wstate ny nx k l v) v Hs (sagree_refl ny nx _)) as [I1 I2].
  apply (plasma_ok_ext test ny nx _ _ _ _ _ _ _ _ P I1 I2).
  intros i j Hi Hj. rewrite (Ap i j Hi Hj). rewrite (invlap_ext ny nx dx _ _ i j I2). now apply invlap_pwave.
Qed.
Lemma start_phi (v : C * C) : fits ny nx k l -> agree ny nx (W (Cscal (- / ksq ny nx dx k l) (snd v))) (invlap ny nx dx (W (snd v))).
Proof. intros Hf i j _ _. symmetry. now apply invlap_pwave. Qed.
Local Notation WP v := (W (Cscal (- / ksq ny nx dx k l) (snd v))).
Lemma c100_rk4 pl v a dt m : fits ny nx k l ->
  plasma_ok test ny nx pl (W (fst v)) (W (snd v)) (WP v) a ->
  let v' := aiter (amp_rk4 p ny nx dx k l dt) m v in
  exists pl', snd (steps (fun pl => rk4_step HW pl dt dx) m pl) = Ok pl' /\
    plasma_ok test ny nx pl' (W (fst v')) (W (snd v')) (WP v') (a + INR m * dt).
Proof.
  intros Hf P. apply (wave_traj rk4_step (rk4 (hw_rhs p ny nx dx) dt)); [|intros; now apply W_rk4|exact Hf].
  exact (c19 b p dx0 test ny nx dx Hy Hx Hd Hb pl _ _ _ a dt m P (start_phi v Hf)).
Qed.
Lemma c100_euler pl v a dt m : fits ny nx k l ->
  plasma_ok test ny nx pl (W (fst v)) (W (snd v)) (WP v) a ->
  let v' := aiter (amp_euler p ny nx dx k l dt) m v in
  exists pl', snd (steps (fun pl => euler_step HW pl dt dx) m pl) = Ok pl' /\
    plasma_ok test ny nx pl' (W (fst v')) (W (snd v')) (WP v') (a + INR m * dt).
Proof.
  intros Hf P. apply (wave_traj euler_step (euler (hw_rhs p ny nx dx) dt)); [|intros; now apply W_euler|exact Hf].
  exact (c19_euler b p dx0 test ny nx dx Hy Hx Hd Hb pl _ _ _ a dt m P (start_phi v Hf)).
Qed.

(** ** the drift-wave instability *)
Lemma c101_growth : fits ny nx k l -> 0 < c1_of p k -> pkap p * gsym ny dx k <> 0 -> damp p ny nx dx k l < drift_rate p ny nx dx k l ->
  exists s v, Cplx.re s = drift_rate p ny nx dx k l - damp p ny nx dx k l /\ A v = amul s v /\
    forall c dt pl a, c <> 0 -> 0 < dt -> dt * Cnorm2 s < Cplx.re s ->
    plasma_ok test ny nx pl (W (Cscal c (fst v))) (W (Cscal c (snd v))) (WP (ascal c v)) a ->
    exists q, 1 < q /\ forall m, exists pl' n' o' phi', snd (steps (fun pl => rk4_step HW pl dt dx) m pl) = Ok pl' /\
      plasma_ok test ny nx pl' n' o' phi' (a + INR m * dt) /\
      gmean ny nx (fun i j => o' i j ^ 2) = c ^ 2 / 2 * q ^ m.
Proof.
  intros Hf Hc Hg Hr.
  destruct (drift_mode p ny nx dx k l (ksq_pos ny nx dx k l Hy Hx Hd Hf) Hc Hg) as (_ & s & v & E & E1 & Es).
  exists s, v. split; [exact Es|]. split; [exact E|]. intros c dt pl a Hc0 Ht Hs P.
  assert (Es' : 0 < Cplx.re s) by lra.
  exists (Cnorm2 (growth4 (Cscal dt s))). split; [now apply growth4_gt|]. intros m.
  destruct (c100_rk4 pl (ascal c v) a dt m Hf P) as (pl' & S & P'). 
  eexists pl', _, _, _. split; [exact S|]. split; [exact P'|].
  assert (Ec : A (ascal c v) = amul s (ascal c v)).
  { rewrite amp_scal, E. unfold ascal, amul. cbn [fst snd]. f_equal; apply C_eq; cbn; ring. }
  rewrite (aiter_rk4 p ny nx dx dt k l s _ m Ec). cbn [amul snd ascal]. rewrite E1.
  rewrite gmean_pwave_sq by assumption. rewrite Cnorm2_mul, Cnorm2_pow.
  replace (Cnorm2 (Cscal c C1)) with (c ^ 2) by (unfold Cnorm2; cbn; ring). field.
Qed.

Lemma Cnorm2_0 z : Cnorm2 z = 0 -> z = C0.
Proof. intros H. unfold Cnorm2 in H. apply C_eq; cbn; nra. Qed.
Lemma pwave_inj z w : fits ny nx k l -> agree ny nx (W z) (W w) -> z = w.
Proof.
  intros Hf H.
  assert (E : Cnorm2 (Csub z w) = 0).
  { assert (Cnorm2 (Csub z w) / 2 = 0); [|lra]. rewrite <- (gmean_pwave_sq ny nx Hy Hx k l _ Hf).
    unfold gmean. rewrite (gsum_ext ny nx _ (fun _ _ => 0 * 0)).
    - rewrite gsum_scal. unfold Rdiv. ring.
    - intros i j Hi Hj. rewrite pwave_sub, (H i j Hi Hj). ring. }
  apply Cnorm2_0 in E. assert (Q := f_equal Cplx.re E). assert (Q' := f_equal Cplx.im E).
  cbn in Q, Q'. apply C_eq; lra.
Qed.
Lemma c101_fastest s v y dt : fits ny nx k l -> 0 < c1_of p k -> ~ (fst v = C0 /\ snd v = C0) ->
  args_ok ny nx y (W (fst v)) (W (snd v)) ->
  (exists lg d, gradient_2d HW y None dt dx = (lg, Ok d) /\
    ns_get d "density" = Ok (grid ny nx (W (Cmul s (fst v)))) /\ ns_get d "omega" = Ok (grid ny nx (W (Cmul s (snd v))))) ->
  Cplx.re s <= drift_rate p ny nx dx k l - damp p ny nx dx k l.
Proof.
  intros Hf Hc Hv Ha (lg & d & E & En & Eo). destruct (c99_rhs y v dt Hf Ha) as (lg' & d' & E' & En' & Eo').
  assert (d = d') as <- by congruence. 
  apply (drift_max p ny nx dx k l (ksq_pos ny nx dx k l Hy Hx Hd Hf) Hc s v Hv).
  assert (Q1 : grid ny nx (W (fst (A v))) = grid ny nx (W (Cmul s (fst v)))) by congruence.
  assert (Q2 : grid ny nx (W (snd (A v))) = grid ny nx (W (Cmul s (snd v)))) by congruence.
  pose proof (pwave_inj _ _ Hf (grid_inj ny nx _ _ Q1)) as R1. pose proof (pwave_inj _ _ Hf (grid_inj ny nx _ _ Q2)) as R2.
  unfold amul. rewrite <- R1, <- R2. now destruct (A v).
Qed.
End T.

(** ** the limit hyper-diffusion puts on the time step *)
Section Dif.
Variables (ny nx : nat) (dx : R).
Hypothesis Hy : (0 < ny)%nat.
Hypothesis Hx : (0 < nx)%nat.
Hypothesis Hd : dx <> 0.
Variables (b : backend R) (N : nat) (nu : R) (zon : bool) (dx0 : R) (test : bool).
Hypothesis Hb : backend_ok ny nx b.
Local Notation p := (pure_diffusion N nu zon).
Local Notation HW := (hw_of b p dx0 test).
Local Notation stiff dt := (dt * nu * (8 / dx ^ 2) ^ N).

Lemma c102_rk4 pl n o phi a dt m : 0 <= dt * nu -> stiff dt <= 2.78 ->
  plasma_ok test ny nx pl n o phi a -> agree ny nx phi (invlap ny nx dx o) ->
  exists pl' n' o' phi', snd (steps (fun pl => rk4_step HW pl dt dx) m pl) = Ok pl' /\
    plasma_ok test ny nx pl' n' o' phi' (a + INR m * dt) /\
    inner ny nx n' n' <= inner ny nx n n /\ inner ny nx o' o' <= inner ny nx o o.
Proof.
  intros H0 H1 P Ap. destruct (c19 b p dx0 test ny nx dx Hy Hx Hd Hb pl n o phi a dt m P Ap) as (pl' & phi' & E & P' & _).
  eexists pl', _, _, phi'. split; [exact E|]. split; [exact P'|].
  apply (iter_contract ny nx (rk4 (hw_rhs p ny nx dx) dt)). intros n0 o0. now apply rk4_contract.
Qed.
Lemma c102_euler pl n o phi a dt m : 0 <= dt * nu -> stiff dt <= 2 ->
  plasma_ok test ny nx pl n o phi a -> agree ny nx phi (invlap ny nx dx o) ->
  exists pl' n' o' phi', snd (steps (fun pl => euler_step HW pl dt dx) m pl) = Ok pl' /\
    plasma_ok test ny nx pl' n' o' phi' (a + INR m * dt) /\
    inner ny nx n' n' <= inner ny nx n n /\ inner ny nx o' o' <= inner ny nx o o.
Proof.
  intros H0 H1 P Ap. destruct (c19_euler b p dx0 test ny nx dx Hy Hx Hd Hb pl n o phi a dt m P Ap) as (pl' & phi' & E & P' & _).
  eexists pl', _, _, phi'. split; [exact E|]. split; [exact P'|].
  apply (iter_contract ny nx (euler (hw_rhs p ny nx dx) dt)). intros n0 o0. now apply euler_contract.
Qed.
Lemma c102_rk4_checker pl c d phi a dt m : Nat.Even ny -> Nat.Even nx ->
  plasma_ok test ny nx pl (fscale c checker) (fscale d checker) phi a -> agree ny nx phi (invlap ny nx dx (fscale d checker)) ->
  let g := growth4R (- stiff dt) in
  exists pl' phi', snd (steps (fun pl => rk4_step HW pl dt dx) m pl) = Ok pl' /\
    plasma_ok test ny nx pl' (fscale (g ^ m * c) checker) (fscale (g ^ m * d) checker) phi' (a + INR m * dt).
Proof.
  intros Ey Ex P Ap g. destruct (c19 b p dx0 test ny nx dx Hy Hx Hd Hb pl _ _ phi a dt m P Ap) as (pl' & phi' & E & P' & _).
  exists pl', phi'. split; [exact E|].
  destruct (ck_iter ny nx (rk4 (hw_rhs p ny nx dx) dt) g m (cst c d) c d) as [I1 I2].
  - intros y c' d' H. unfold g. replace (- stiff dt) with (dt * - (nu * (8 / dx ^ 2) ^ N)) by ring. now apply ck_rk4.
  - apply sagree_refl.
  - exact (plasma_ok_ext test ny nx _ _ _ _ _ _ _ _ P' I1 I2 (agree_refl ny nx _)).
Qed.
Lemma c102_euler_checker pl c d phi a dt m : Nat.Even ny -> Nat.Even nx ->
  plasma_ok test ny nx pl (fscale c checker) (fscale d checker) phi a -> agree ny nx phi (invlap ny nx dx (fscale d checker)) ->
  let g := 1 - stiff dt in
  exists pl' phi', snd (steps (fun pl => euler_step HW pl dt dx) m pl) = Ok pl' /\
    plasma_ok test ny nx pl' (fscale (g ^ m * c) checker) (fscale (g ^ m * d) checker) phi' (a + INR m * dt).
Proof.
  intros Ey Ex P Ap g. destruct (c19_euler b p dx0 test ny nx dx Hy Hx Hd Hb pl _ _ phi a dt m P Ap) as (pl' & phi' & E & P' & _).
  exists pl', phi'. split; [exact E|].
  destruct (ck_iter ny nx (euler (hw_rhs p ny nx dx) dt) g m (cst c d) c d) as [I1 I2].
  - intros y c' d' H. unfold g. replace (1 - stiff dt) with (1 + dt * - (nu * (8 / dx ^ 2) ^ N)) by ring. now apply ck_euler.
  - apply sagree_refl.
  - exact (plasma_ok_ext test ny nx _ _ _ _ _ _ _ _ P' I1 I2 (agree_refl ny nx _)).
Qed.
End Dif.

(** the factors below and above the limit *)
Lemma c102_factor x : 0 <= x -> (x <= 2.78 -> Rabs (growth4R (- x)) <= 1) /\ (2.79 <= x -> 1.007 <= growth4R (- x)).
Proof.
  intros H0. split; intros H; [|now apply growth4R_gt1].
  apply Rabs_le. now apply growth4R_le1.
Qed.
