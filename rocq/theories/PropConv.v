(** C109: the semi-discrete system has exactly one solution through every state,
    and the steps of the code and the files of the drivers converge to it. *)
From Coq Require Import List Arith ZArith Lia Bool Reals Lra String.
From Verif Require Import Num NdArray Spec SpecFourier SpecHW SpecPlasma ModelHW ModelBackend ModelIO ModelRun ModelRunHW SpecIO SpecRun SpecRunHW SpecConv
  HwExist HwConv RunHWWit.
Import ListNotations.
Local Open Scope R_scope.
#[local] Existing Instance TimeR.

(** ** existence for all times, with exponential bound in mean square *)
Theorem C109_exists p ny nx dx : (0 < ny)%nat -> (0 < nx)%nat -> dx <> 0 ->
  exists K, 0 <= K /\ forall y0 T, 0 <= T -> exists Y, hw_solution p ny nx dx Y T /\ Y 0 = y0 /\
    forall t, 0 <= t <= T -> msq2 ny nx (Y t) <= msq2 ny nx y0 * exp (K * t).
Proof. exact (hw_exists p ny nx dx). Qed.
(** ** uniqueness *)
Theorem C109_unique p ny nx dx : (0 < ny)%nat -> (0 < nx)%nat -> dx <> 0 ->
  forall Y Z T, 0 <= T -> hw_solution p ny nx dx Y T -> hw_solution p ny nx dx Z T -> sagree ny nx (Y 0) (Z 0) ->
  forall t, 0 <= t <= T -> sagree ny nx (Y t) (Z t).
Proof. exact (hw_unique p ny nx dx). Qed.
(** ** continuous dependence on the initial state, over bounded solutions *)
Theorem C109_dependence p ny nx dx : (0 < ny)%nat -> (0 < nx)%nat -> dx <> 0 ->
  forall Y T, 0 <= T -> hw_solution p ny nx dx Y T ->
  forall M, exists C, 0 <= C /\ forall Z, hw_solution p ny nx dx Z T -> (forall t, 0 <= t <= T -> within ny nx M (Z t) szero) ->
    forall e, 0 <= e -> within ny nx e (Y 0) (Z 0) -> forall t, 0 <= t <= T -> within ny nx (C * e) (Y t) (Z t).
Proof. exact (hw_dependence p ny nx dx). Qed.
(** ** from any plasma the RK4 steps converge with order four, the Euler steps
    with order one, to the solution that starts there *)
Theorem C109_rk4_converges b p dx0 test ny nx dx pl n o phi a T : (0 < ny)%nat -> (0 < nx)%nat -> dx <> 0 -> backend_ok ny nx b ->
  plasma_ok test ny nx pl n o phi a -> agree ny nx phi (invlap ny nx dx o) -> 0 <= T ->
  exists Y, hw_solution p ny nx dx Y T /\ Y 0 = (n, o) /\
    exists C h0, 0 <= C /\ 0 < h0 /\ forall dt k, 0 < dt <= h0 -> INR k * dt <= T ->
      exists pl' n' o' phi', snd (steps (fun pl => rk4_step (hw_of b p dx0 test) pl dt dx) k pl) = Ok pl' /\
        plasma_ok test ny nx pl' n' o' phi' (a + INR k * dt) /\ within ny nx (C * dt ^ 4) (n', o') (Y (INR k * dt)).
Proof. exact (conv_rk4 b p dx0 test ny nx dx pl n o phi a T). Qed.
Theorem C109_euler_converges b p dx0 test ny nx dx pl n o phi a T : (0 < ny)%nat -> (0 < nx)%nat -> dx <> 0 -> backend_ok ny nx b ->
  plasma_ok test ny nx pl n o phi a -> agree ny nx phi (invlap ny nx dx o) -> 0 <= T ->
  exists Y, hw_solution p ny nx dx Y T /\ Y 0 = (n, o) /\
    exists C h0, 0 <= C /\ 0 < h0 /\ forall dt k, 0 < dt <= h0 -> INR k * dt <= T ->
      exists pl' n' o' phi', snd (steps (fun pl => euler_step (hw_of b p dx0 test) pl dt dx) k pl) = Ok pl' /\
        plasma_ok test ny nx pl' n' o' phi' (a + INR k * dt) /\ within ny nx (C * dt) (n', o') (Y (INR k * dt)).
Proof. exact (conv_euler b p dx0 test ny nx dx pl n o phi a T). Qed.

(** ** the files of run.py and run2.py, with step_size going to zero and all
    other arguments fixed: every recorded frame converges with order four *)
Theorem C109_run_converges b p ny nx ys xs k0 dsf (c : cfg (arr R) R) rnd y0 phi0 fs :
  hw_setup b p ny nx ys xs k0 dsf c -> pzon p = false ->
  c_phys c = physics_params (c_dx c) (Z.of_nat (pN p)) (pc1 p) (pnu p) k0 (ppb p) (pkap p) ->
  (fs = None \/ c_force c = true) -> 0 <= c_end c ->
  exists Y, hw_solution p ny nx (c_dx c) Y (c_end c) /\ Y 0 = y0 /\
    exists C h0, 0 <= C /\ 0 < h0 /\ forall dt, 0 < dt <= h0 ->
      let sim := run (hw_sim b rnd ny nx ys xs) (with_step c dt) (plasma0 (grid ny nx (fst y0)) (grid ny nx (snd y0)) (grid ny nx phi0)) in
      exists g l, result_of sim fs = Ok tt /\ disk_of sim fs = Some g /\ file_frames rnd dsf ys xs l g /\
        map f_t l = map (fun j => INR j * dt) (recorded_its (with_step c dt) (Z.to_nat (R_trunc (c_end c / dt)))) /\
        frames_near ny nx (C * dt ^ 4) (c_end c) Y l.
Proof. exact (conv_run b p ny nx ys xs k0 dsf c rnd y0 phi0 fs). Qed.
Theorem C109_run2_converges b p ny nx ys xs k0 dsf (c : cfg (arr R) R) rnd y0 phi0 fs :
  hw_setup b p ny nx ys xs k0 dsf c -> (forall k, In k (c_props c) -> prop_fits k ny nx) ->
  c_phys c = physics_params2 (c_dx c) (Z.of_nat (pN p)) (pc1 p) (pnu p) k0 (ppb p) (pkap p) (pzon p) ->
  (fs = None \/ c_force c = true) -> 0 <= c_end c ->
  exists Y, hw_solution p ny nx (c_dx c) Y (c_end c + 2) /\ Y 0 = y0 /\
    exists C h0, 0 <= C /\ 0 < h0 /\ forall dt n fuel, 0 < dt <= h0 ->
      (forall j, (j < n)%nat -> t_round4 (INR j * dt) < c_end c) -> c_end c <= t_round4 (INR n * dt) -> (n < fuel)%nat ->
      let sim := run2 (hw_sim b rnd ny nx ys xs) (with_step c dt) fuel (plasma0 (grid ny nx (fst y0)) (grid ny nx (snd y0)) (grid ny nx phi0)) in
      exists g l, result_of sim fs = Ok tt /\ disk_of sim fs = Some g /\ file_frames rnd dsf ys xs l g /\
        (c_rec c < INR n * dt -> map f_t l = map (fun j => INR j * dt) (recorded_its (with_step c dt) n)) /\
        frames_near ny nx (C * dt ^ 4) (c_end c + 2) Y l.
Proof. exact (conv_run2 b p ny nx ys xs k0 dsf c rnd y0 phi0 fs). Qed.

(** the hypotheses: a set-up of each driver with all properties, and a solution
    that starts at a state that is not zero *)
Example C109_nonvacuous : hw_setup np_backend (pc false) 2 2 2 2 1 idf wit1 /\ hw_setup np_backend (pc true) 2 2 2 2 1 idf (wit2 true) /\
  pzon (pc false) = false /\ 0 <= c_end wit1 /\ 0 <= c_end (wit2 true) /\
  c_phys wit1 = physics_params (c_dx wit1) (Z.of_nat (pN (pc false))) (pc1 (pc false)) (pnu (pc false)) 1 (ppb (pc false)) (pkap (pc false)) /\
  c_phys (wit2 true) = physics_params2 (c_dx wit1) (Z.of_nat (pN (pc true))) (pc1 (pc true)) (pnu (pc true)) 1 (ppb (pc true)) (pkap (pc true)) (pzon (pc true)) /\
  (forall k, In k (c_props wit1) -> prop_fits k 2 2) /\
  exists Y, hw_solution (pc false) 2 2 1 Y 1 /\ Y 0 = ((fun i j => INR (i + j)), (fun i j => INR i - INR j)).
Proof.
  split; [apply wit_setup|]. split; [apply wit_setup|]. split; [reflexivity|]. split; [cbn; lra|]. split; [cbn; lra|].
  split; [reflexivity|]. split; [reflexivity|]. split; [exact wit_fits|].
  destruct (hw_exists (pc false) 2 2 1) as (K & _ & E); [lia|lia|lra|].
  destruct (E ((fun i j => INR (i + j)), (fun i j => INR i - INR j)) 1) as (Y & HY & Y0 & _); [lra|]. exists Y. now split.
Qed.
Print Assumptions C109_exists.
Print Assumptions C109_unique.
Print Assumptions C109_dependence.
Print Assumptions C109_rk4_converges.
Print Assumptions C109_euler_converges.
Print Assumptions C109_run_converges.
Print Assumptions C109_run2_converges.
