(** C110: the code converges to the Hasegawa-Wakatani equations as the grid and
    the time step are refined. *)
From Coquelicot Require Import Coquelicot.
From Coq Require Import List Arith ZArith Lia Bool Reals Lra String.
From Verif Require Import Num NdArray Spec SpecFourier SpecHW SpecPlasma ModelHW ModelBackend ModelIO ModelRun ModelRunHW SpecIO SpecRun SpecRunHW SpecConv
  SpecSmooth SpecPde PdeRun RunHWWit.
Import ListNotations.
Local Open Scope R_scope.
#[local] Existing Instance TimeR.

(** ** the semi-discrete system follows every smooth solution: error C (initial error + h^2)
    in root mean square, with one C for all solutions with the same bound of the
    derivatives and all grids that fill the box *)
Theorem C110_semi_discrete p Ly Lx T M : 0 < Ly -> 0 < Lx -> 0 <= T -> 0 <= pnu p ->
  exists C, 0 <= C /\ forall Q O P ny nx h Y, pde_solution p Ly Lx T M Q O P -> fills ny nx h Ly Lx -> hw_solution p ny nx h Y T ->
    forall t, 0 <= t <= T -> rms_dist ny nx (Y t) (at_grid h Q O t) <= C * (rms_dist ny nx (Y 0) (at_grid h Q O 0) + h ^ 2).
Proof. exact (pde_semi p Ly Lx T M). Qed.
(** ** RK4 steps of the code on samples of the solution *)
Theorem C110_rk4_steps p Ly Lx T M : 0 < Ly -> 0 < Lx -> 0 <= T -> 0 <= pnu p ->
  exists C, 0 <= C /\ forall Q O P ny nx h b dx0 test pl phi a, pde_solution p Ly Lx T M Q O P -> fills ny nx h Ly Lx -> backend_ok ny nx b ->
  plasma_ok test ny nx pl (sample h (Q 0 0%nat 0%nat)) (sample h (O 0 0%nat 0%nat)) phi a ->
  agree ny nx phi (invlap ny nx h (sample h (O 0 0%nat 0%nat))) ->
  exists C' h0, 0 <= C' /\ 0 < h0 /\ forall dt k, 0 < dt <= h0 -> INR k * dt <= T ->
    exists pl' n' o' phi', snd (steps (fun pl => rk4_step (hw_of b p dx0 test) pl dt h) k pl) = Ok pl' /\
      plasma_ok test ny nx pl' n' o' phi' (a + INR k * dt) /\
      rms_dist ny nx (n', o') (at_grid h Q O (INR k * dt)) <= C * h ^ 2 + C' * dt ^ 4 /\
      within ny nx (C * h + C' * dt ^ 4) (n', o') (at_grid h Q O (INR k * dt)).
Proof. exact (pde_steps p Ly Lx T M). Qed.
(** ** the files of run.py *)
Theorem C110_run p Ly Lx T M : 0 < Ly -> 0 < Lx -> 0 <= T -> 0 <= pnu p -> pzon p = false ->
  exists C, 0 <= C /\ forall Q O P b ny nx ys xs k0 dsf (c : cfg (arr R) R) rnd phi0 fs,
    pde_solution p Ly Lx T M Q O P -> hw_setup b p ny nx ys xs k0 dsf c -> fills ny nx (c_dx c) Ly Lx ->
    c_phys c = physics_params (c_dx c) (Z.of_nat (pN p)) (pc1 p) (pnu p) k0 (ppb p) (pkap p) ->
    (fs = None \/ c_force c = true) -> c_end c = T ->
    let y0 := at_grid (c_dx c) Q O 0 in
    exists C' h0, 0 <= C' /\ 0 < h0 /\ forall dt, 0 < dt <= h0 ->
      let sim := run (hw_sim b rnd ny nx ys xs) (with_step c dt) (plasma0 (grid ny nx (fst y0)) (grid ny nx (snd y0)) (grid ny nx phi0)) in
      exists g l, result_of sim fs = Ok tt /\ disk_of sim fs = Some g /\ file_frames rnd dsf ys xs l g /\
        map f_t l = map (fun j => INR j * dt) (recorded_its (with_step c dt) (Z.to_nat (R_trunc (T / dt)))) /\
        forall f, In f l -> near_pde ny nx (c_dx c) (C * c_dx c ^ 2 + C' * dt ^ 4) (C * c_dx c + C' * dt ^ 4) Q O P f.
Proof. exact (pde_run p Ly Lx T M). Qed.
(** ** the files of run2.py *)
Theorem C110_run2 p Ly Lx T M : 0 < Ly -> 0 < Lx -> 0 <= T -> 0 <= pnu p ->
  exists C, 0 <= C /\ forall Q O P b ny nx ys xs k0 dsf (c : cfg (arr R) R) rnd phi0 fs,
    pde_solution p Ly Lx (T + 2) M Q O P -> hw_setup b p ny nx ys xs k0 dsf c -> (forall k, In k (c_props c) -> prop_fits k ny nx) -> fills ny nx (c_dx c) Ly Lx ->
    c_phys c = physics_params2 (c_dx c) (Z.of_nat (pN p)) (pc1 p) (pnu p) k0 (ppb p) (pkap p) (pzon p) ->
    (fs = None \/ c_force c = true) -> c_end c = T ->
    let y0 := at_grid (c_dx c) Q O 0 in
    exists C' h0, 0 <= C' /\ 0 < h0 /\ forall dt n fuel, 0 < dt <= h0 ->
      (forall j, (j < n)%nat -> t_round4 (INR j * dt) < T) -> T <= t_round4 (INR n * dt) -> (n < fuel)%nat ->
      let sim := run2 (hw_sim b rnd ny nx ys xs) (with_step c dt) fuel (plasma0 (grid ny nx (fst y0)) (grid ny nx (snd y0)) (grid ny nx phi0)) in
      exists g l, result_of sim fs = Ok tt /\ disk_of sim fs = Some g /\ file_frames rnd dsf ys xs l g /\
        (c_rec c < INR n * dt -> map f_t l = map (fun j => INR j * dt) (recorded_its (with_step c dt) n)) /\
        forall f, In f l -> near_pde ny nx (c_dx c) (C * c_dx c ^ 2 + C' * dt ^ 4) (C * c_dx c + C' * dt ^ 4) Q O P f.
Proof. exact (pde_run2 p Ly Lx T M). Qed.
(** ** every tolerance is met on every grid that is fine enough, by every step that is
    small enough for that grid *)
Theorem C110_run_limit p Ly Lx T M eps : 0 < Ly -> 0 < Lx -> 0 <= T -> 0 <= pnu p -> pzon p = false -> 0 < eps ->
  exists h1, 0 < h1 /\ forall Q O P b ny nx ys xs k0 dsf (c : cfg (arr R) R) rnd phi0 fs,
    pde_solution p Ly Lx T M Q O P -> hw_setup b p ny nx ys xs k0 dsf c -> fills ny nx (c_dx c) Ly Lx -> c_dx c <= h1 ->
    c_phys c = physics_params (c_dx c) (Z.of_nat (pN p)) (pc1 p) (pnu p) k0 (ppb p) (pkap p) ->
    (fs = None \/ c_force c = true) -> c_end c = T ->
    let y0 := at_grid (c_dx c) Q O 0 in
    exists d1, 0 < d1 /\ forall dt, 0 < dt <= d1 ->
      let sim := run (hw_sim b rnd ny nx ys xs) (with_step c dt) (plasma0 (grid ny nx (fst y0)) (grid ny nx (snd y0)) (grid ny nx phi0)) in
      exists g l, result_of sim fs = Ok tt /\ disk_of sim fs = Some g /\ file_frames rnd dsf ys xs l g /\
        forall f, In f l -> near_pde ny nx (c_dx c) eps eps Q O P f.
Proof. exact (pde_run_limit p Ly Lx T M eps). Qed.
(** ** the same for run2.py *)
Theorem C110_run2_limit p Ly Lx T M eps : 0 < Ly -> 0 < Lx -> 0 <= T -> 0 <= pnu p -> 0 < eps ->
  exists h1, 0 < h1 /\ forall Q O P b ny nx ys xs k0 dsf (c : cfg (arr R) R) rnd phi0 fs,
    pde_solution p Ly Lx (T + 2) M Q O P -> hw_setup b p ny nx ys xs k0 dsf c -> (forall k, In k (c_props c) -> prop_fits k ny nx) ->
    fills ny nx (c_dx c) Ly Lx -> c_dx c <= h1 ->
    c_phys c = physics_params2 (c_dx c) (Z.of_nat (pN p)) (pc1 p) (pnu p) k0 (ppb p) (pkap p) (pzon p) ->
    (fs = None \/ c_force c = true) -> c_end c = T ->
    let y0 := at_grid (c_dx c) Q O 0 in
    exists d1, 0 < d1 /\ forall dt n fuel, 0 < dt <= d1 ->
      (forall j, (j < n)%nat -> t_round4 (INR j * dt) < T) -> T <= t_round4 (INR n * dt) -> (n < fuel)%nat ->
      let sim := run2 (hw_sim b rnd ny nx ys xs) (with_step c dt) fuel (plasma0 (grid ny nx (fst y0)) (grid ny nx (snd y0)) (grid ny nx phi0)) in
      exists g l, result_of sim fs = Ok tt /\ disk_of sim fs = Some g /\ file_frames rnd dsf ys xs l g /\
        forall f, In f l -> near_pde ny nx (c_dx c) eps eps Q O P f.
Proof. exact (pde_run2_limit p Ly Lx T M eps). Qed.
(** ** exact solutions exist: decaying cells, for all parameters without background gradient *)
Theorem C110_exact_solutions p T : pkap p = 0 -> 0 <= pnu p -> pde_solution p (2 * PI) (2 * PI) T 2 (cellP (pnu p)) (cellO (pnu p)) (cellP (pnu p)).
Proof. exact (cell_solution p T). Qed.

(** the hypotheses: set-ups of both drivers whose grids fill the box of the
    cells, the cells with bracket, coupling and viscosity all present, and their
    density at a point *)
Example C110_nonvacuous : hw_setup np_backend (pc false) 2 2 2 2 1 idf wit1 /\ fills 2 2 (c_dx wit1) (2 * PI) (2 * PI) /\
  0 <= pnu (pc false) /\ pzon (pc false) = false /\ c_end wit1 = 2 /\
  pde_solution (pc false) (2 * PI) (2 * PI) 2 2 (cellP 0) (cellO 0) (cellP 0) /\
  hw_setup np_backend (pc true) 2 2 2 2 1 idf (wit2 true) /\ c_dx (wit2 true) = c_dx wit1 /\
  pde_solution (pc true) (2 * PI) (2 * PI) (c_end (wit2 true) + 2) 2 (cellP 0) (cellO 0) (cellP 0) /\
  (exists p, pzon p = true /\ pc1 p = 1 /\ ppb p = 1 /\ pnu p = 1 /\ pN p = 3%nat /\ pde_solution p (2 * PI) (2 * PI) 5 2 (cellP (pnu p)) (cellO (pnu p)) (cellP (pnu p))) /\
  cellP 1 1 0 0 0 0 = 2 * exp (- 1).
Proof.
  split; [apply wit_setup|]. split.
  { unfold fills. cbn [c_dx wit1 wit_cfg]. unfold domain_dx. pose proof PI_RGT_0. cbn [INR]. repeat split; try lia; try lra; try field. }
  split; [cbn; lra|]. split; [reflexivity|]. split; [reflexivity|].
  split; [apply (cell_solution (pc false)); cbn; lra|]. split; [apply wit_setup|]. split; [reflexivity|]. split; [apply (cell_solution (pc true)); cbn; lra|]. split.
  - exists (mkPar 3 1 1 1 0 true). do 5 (split; [reflexivity|]). apply (cell_solution (mkPar 3 1 1 1 0 true)); cbn; lra.
  - unfold cellP, cellD. cbn [Nat.eqb INR]. rewrite Rmult_0_l, Rplus_0_r, cos_0. rewrite Rmult_1_r, <- opp_IZR. cbn [Z.opp]. ring.
Qed.
Print Assumptions C110_semi_discrete.
Print Assumptions C110_rk4_steps.
Print Assumptions C110_run.
Print Assumptions C110_run2.
Print Assumptions C110_run_limit.
Print Assumptions C110_run2_limit.
Print Assumptions C110_exact_solutions.
