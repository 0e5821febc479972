(** Properties C99-C103: plane waves, the drift-wave instability and the limit
    hyper-diffusion puts on the time step. *)
From Coq Require Import List Arith ZArith Lia Bool Reals Lra Psatz String Permutation.
From Verif Require Import Num NdArray NdFacts ModelGradients Spec GradFacts SumFacts ModelArakawa Cplx DftFacts SpecFourier ModelPoisson PoissonProps ModelHW ModelBackend
  SpecHW SpecPlasma HWFacts HWProps BalanceWit ModelIO ModelRun ModelRunHW ModelArgs ModelDefaults
  SpecWave WaveHW WaveStab WaveDiff WaveTop WaveNyq WaveDefaults.
Import ListNotations.
Local Open Scope R_scope.

(** C99: every operator of the code maps a plane wave to the plane wave with
    the amplitude given by its symbol ... *)
Theorem C99_gradient ny nx dx k l : (0 < ny)%nat -> (0 < nx)%nat -> dx <> 0 -> forall z,
  let G z := Ok (grid ny nx (pwave ny nx k l z)) in
  let wave z := Ok (Some (grid ny nx (pwave ny nx k l z))) in
  np_periodic_gradient (G z) dx 0 = wave (Cmul (mkC 0 (gsym ny dx k)) z) /\
  np_periodic_gradient (G z) dx 1 = wave (Cmul (mkC 0 (gsym nx dx l)) z) /\
  nb_periodic_gradient (G z) dx 0 = wave (Cmul (mkC 0 (gsym ny dx k)) z) /\
  nb_periodic_gradient (G z) dx 1 = wave (Cmul (mkC 0 (gsym nx dx l)) z).
Proof. exact (c99_gradient ny nx dx k l). Qed.
Print Assumptions C99_gradient.
Theorem C99_laplace_N ny nx dx k l : (0 < ny)%nat -> (0 < nx)%nat -> dx <> 0 -> forall z n,
  let G z := Ok (grid ny nx (pwave ny nx k l z)) in
  nb_periodic_laplace_N (G z) dx (Z.of_nat n) = G (Cscal ((- lsym ny nx dx k l) ^ n) z) /\
  np_periodic_laplace_N (G z) dx (Z.of_nat n) = G (Cscal ((- lsym ny nx dx k l) ^ n) z).
Proof. exact (c99_laplace ny nx dx k l). Qed.
Print Assumptions C99_laplace_N.
Theorem C99_get_phi ny nx dx k l : (0 < ny)%nat -> (0 < nx)%nat -> dx <> 0 -> forall z, fits ny nx k l ->
  let G z := Ok (grid ny nx (pwave ny nx k l z)) in
  get_phi (fun t dx => np_fourier_poisson_double t dx 1) (G z) dx = G (Cscal (- / ksq ny nx dx k l) z) /\
  ((Z.of_nat ny <= 65536)%Z -> (Z.of_nat nx <= 65536)%Z ->
   get_phi (fun t dx => nb_fourier_poisson_double t dx 1) (G z) dx = G (Cscal (- / ksq ny nx dx k l) z)).
Proof. exact (c99_get_phi ny nx dx k l). Qed.
Print Assumptions C99_get_phi.
(** ... the bracket of two waves with the same wave vector is zero ... *)
Theorem C99_bracket ny nx dx k l : (0 < ny)%nat -> (0 < nx)%nat -> dx <> 0 -> forall z w,
  let G z := Ok (grid ny nx (pwave ny nx k l z)) in let zero := Ok (grid ny nx (fun _ _ => 0)) in
  (forall junk, np_periodic_arakawa junk (G z) (G w) dx = zero) /\
  np_periodic_arakawa_vec (G z) (G w) dx = zero /\ nb_periodic_arakawa_vec (G z) (G w) dx = zero /\
  nb_periodic_arakawa (G z) (G w) dx = zero /\ nb_periodic_arakawa_stencil (G z) (G w) dx = zero.
Proof. exact (c99_bracket ny nx dx k l). Qed.
Print Assumptions C99_bracket.
(** ... so the time derivative of a wave is the wave of the amplitude equations. *)
Theorem C99_gradient_2d ny nx dx k l : (0 < ny)%nat -> (0 < nx)%nat -> dx <> 0 ->
  forall b p dx0 test, backend_ok ny nx b -> forall y v dt, fits ny nx k l ->
  args_ok ny nx y (pwave ny nx k l (fst v)) (pwave ny nx k l (snd v)) ->
  let v' := amp_rhs p ny nx dx k l v in
  exists lg d, gradient_2d (hw_of b p dx0 test) y None dt dx = (lg, Ok d) /\
    ns_get d "density" = Ok (grid ny nx (pwave ny nx k l (fst v'))) /\
    ns_get d "omega" = Ok (grid ny nx (pwave ny nx k l (snd v'))).
Proof. exact (c99_rhs ny nx dx k l). Qed.
Print Assumptions C99_gradient_2d.
(** one period along y over four rows: cos becomes -sin with factor 1 instead
    of pi / 2, and the Laplacian has factor -2 *)
Example C99_example : fits 4 4 1 0 /\ gsym 4 1 1 = 1 /\ lsym 4 4 1 1 0 = 2 /\ ksq 4 4 1 1 0 = (PI / 2) ^ 2 /\
  pwave 4 4 1 0 C1 1 0 = 0 /\ pwave 4 4 1 0 C1 2 0 = -1 /\ pwave 4 4 1 0 (Cmul (mkC 0 1) C1) 1 0 = -1.
Proof.
  pose proof PI_RGT_0.
  assert (I4 : INR 4 = 4) by (cbn; ring).
  assert (P1 : phase 4 4 1 0 1 0 = PI / 2) by (unfold phase; rewrite I4; cbn [INR]; field).
  assert (P2 : phase 4 4 1 0 2 0 = PI) by (unfold phase; rewrite I4; cbn [INR]; field).
  unfold pwave. rewrite P1, P2, cos_PI2, sin_PI2, cos_PI, sin_PI. cbn [re im C1 Cmul].
  split; [unfold fits; lia|]. split; [|split; [|split; [|lra]]].
  - unfold gsym. rewrite I4. replace (2 * PI * 1 / 4) with (PI / 2) by field. rewrite sin_PI2. field.
  - unfold lsym. rewrite I4. replace (PI * 1 / 4) with (PI / 4) by field. replace (PI * 0 / 4) with 0 by field. rewrite sin_0, sin_PI4.
    replace ((1 / sqrt 2) ^ 2) with (1 / (sqrt 2 * sqrt 2)) by (field; apply Rgt_not_eq, sqrt_lt_R0; lra). rewrite sqrt_sqrt by lra. field.
  - unfold ksq. rewrite I4. field.
Qed.

(** C100: a wave stays a wave with the same wave vector through any number of
    steps, its amplitudes following the truncated exponential series. *)
Theorem C100_rk4_waves ny nx dx k l : (0 < ny)%nat -> (0 < nx)%nat -> dx <> 0 ->
  forall b p dx0 test, backend_ok ny nx b -> forall pl v a dt m, fits ny nx k l ->
  let W := pwave ny nx k l in let phi v := Cscal (- / ksq ny nx dx k l) (snd v) in
  plasma_ok test ny nx pl (W (fst v)) (W (snd v)) (W (phi v)) a ->
  let v' := aiter (amp_rk4 p ny nx dx k l dt) m v in
  exists pl', snd (steps (fun pl => rk4_step (hw_of b p dx0 test) pl dt dx) m pl) = Ok pl' /\
    plasma_ok test ny nx pl' (W (fst v')) (W (snd v')) (W (phi v')) (a + INR m * dt).
Proof. exact (c100_rk4 ny nx dx k l). Qed.
Print Assumptions C100_rk4_waves.
Theorem C100_euler_waves ny nx dx k l : (0 < ny)%nat -> (0 < nx)%nat -> dx <> 0 ->
  forall b p dx0 test, backend_ok ny nx b -> forall pl v a dt m, fits ny nx k l ->
  let W := pwave ny nx k l in let phi v := Cscal (- / ksq ny nx dx k l) (snd v) in
  plasma_ok test ny nx pl (W (fst v)) (W (snd v)) (W (phi v)) a ->
  let v' := aiter (amp_euler p ny nx dx k l dt) m v in
  exists pl', snd (steps (fun pl => euler_step (hw_of b p dx0 test) pl dt dx) m pl) = Ok pl' /\
    plasma_ok test ny nx pl' (W (fst v')) (W (snd v')) (W (phi v')) (a + INR m * dt).
Proof. exact (c100_euler ny nx dx k l). Qed.
Print Assumptions C100_euler_waves.
(** the density 1 without vorticity, coupling 1: one Euler step of size 1 moves
    the whole amplitude into the vorticity *)
Definition pcoup : par := mkPar 0 1 0 1 0 false.
Example C100_example : fits 5 7 2 (-3) /\ backend_ok 5 7 np_backend /\
  (let W := pwave 5 7 2 (-3) in
   plasma_ok true 5 7 (pl0 5 7 (W C1) (W C0) (W (Cscal (- / ksq 5 7 1 2 (-3)) C0)) 0) (W C1) (W C0) (W (Cscal (- / ksq 5 7 1 2 (-3)) C0)) 0) /\
  amp_euler pcoup 5 7 1 2 (-3) 1 (C1, C0) = (C0, Copp C1).
Proof.
  split; [unfold fits; lia|]. split; [now left|]. split; [apply pl0_ok|].
  unfold amp_euler, amp_rhs, aadd, ascal, damp, c1_of. cbn [pcoup pzon pkap pnu pN pc1 andb fst snd C0 C1 Csub Cadd Cscal Cmul Copp Cplx.re Cplx.im pow].
  f_equal; apply C_eq; cbn [Cplx.re Cplx.im Csub Cadd Cscal Cmul Copp C0 C1]; ring.
Qed.

(** C101: the drift-wave instability.  Where the coupling acts and the
    background gradient drives, one pair of amplitudes has growth rate
    drift_rate - damp; if that is positive the mean square of the vorticity
    grows by a constant factor above one per step ... *)
Theorem C101_drift_waves_grow ny nx dx k l : (0 < ny)%nat -> (0 < nx)%nat -> dx <> 0 ->
  forall b p dx0 test, backend_ok ny nx b ->
  fits ny nx k l -> 0 < c1_of p k -> pkap p * gsym ny dx k <> 0 -> damp p ny nx dx k l < drift_rate p ny nx dx k l ->
  let W := pwave ny nx k l in let phi v := Cscal (- / ksq ny nx dx k l) (snd v) in
  exists s v, Cplx.re s = drift_rate p ny nx dx k l - damp p ny nx dx k l /\ amp_rhs p ny nx dx k l v = amul s v /\
    forall c dt pl a, c <> 0 -> 0 < dt -> dt * Cnorm2 s < Cplx.re s ->
    plasma_ok test ny nx pl (W (Cscal c (fst v))) (W (Cscal c (snd v))) (W (phi (ascal c v))) a ->
    exists q, 1 < q /\ forall m, exists pl' n' o' phi',
      snd (steps (fun pl => rk4_step (hw_of b p dx0 test) pl dt dx) m pl) = Ok pl' /\
      plasma_ok test ny nx pl' n' o' phi' (a + INR m * dt) /\
      gmean ny nx (fun i j => o' i j ^ 2) = c ^ 2 / 2 * q ^ m.
Proof. exact (c101_growth ny nx dx k l). Qed.
Print Assumptions C101_drift_waves_grow.
(** ... and no wave with this wave vector grows faster. *)
Theorem C101_no_faster_wave ny nx dx k l : (0 < ny)%nat -> (0 < nx)%nat -> dx <> 0 ->
  forall b p dx0 test, backend_ok ny nx b -> forall s v y dt,
  fits ny nx k l -> 0 < c1_of p k -> ~ (fst v = C0 /\ snd v = C0) ->
  let W := pwave ny nx k l in args_ok ny nx y (W (fst v)) (W (snd v)) ->
  (exists lg d, gradient_2d (hw_of b p dx0 test) y None dt dx = (lg, Ok d) /\
    ns_get d "density" = Ok (grid ny nx (W (Cmul s (fst v)))) /\ ns_get d "omega" = Ok (grid ny nx (W (Cmul s (snd v))))) ->
  Cplx.re s <= drift_rate p ny nx dx k l - damp p ny nx dx k l.
Proof. exact (c101_fastest ny nx dx k l). Qed.
Print Assumptions C101_no_faster_wave.
(** without viscosity every coupled wave with sin(2 pi k / ny) <> 0 is
    unstable: on 4 x 4 cells there is a step size and a start from which the
    vorticity exceeds any bound *)
Definition pdrift : par := mkPar 3 1 0 1 1 false.
Example C101_example : exists dt pl, 0 < dt /\ forall B, exists m pl' o',
  snd (steps (fun pl => rk4_step (hw_of np_backend pdrift 1 true) pl dt 1) m pl) = Ok pl' /\
  ns_get pl' "omega" = Ok (grid 4 4 o') /\ B < gmean 4 4 (fun i j => o' i j ^ 2).
Proof.
  assert (F : fits 4 4 1 0) by (unfold fits; lia).
  assert (G1 : gsym 4 1 1 = 1) by apply C99_example.
  assert (Hd : damp pdrift 4 4 1 1 0 = 0) by (unfold damp; cbn [pnu pdrift]; ring).
  assert (Hc : 0 < c1_of pdrift 1) by (unfold c1_of; cbn; lra).
  assert (Hg : pkap pdrift * gsym 4 1 1 <> 0) by (rewrite G1; cbn; lra).
  assert (Hr : 0 < drift_rate pdrift 4 4 1 1 0).
  { apply (drift_mode pdrift 4 4 1 1 0); [apply ksq_pos; try lia; try lra; exact F|exact Hc|exact Hg]. }
  destruct (C101_drift_waves_grow 4 4 1 1 0 ltac:(lia) ltac:(lia) ltac:(lra) np_backend pdrift 1 true (or_introl eq_refl) F Hc Hg ltac:(lra))
    as (s & v & Es & _ & H).
  assert (Sp : 0 < Cplx.re s) by lra.
  assert (Np : 0 < Cnorm2 s) by (unfold Cnorm2; nra).
  set (dt := Cplx.re s / (2 * Cnorm2 s)).
  assert (Dt : 0 < dt) by (apply Rdiv_lt_0_compat; lra).
  assert (Ds : dt * Cnorm2 s < Cplx.re s) by (unfold dt; replace (Cplx.re s / (2 * Cnorm2 s) * Cnorm2 s) with (Cplx.re s / 2) by (field; lra); lra).
  set (W := pwave 4 4 1 0) in *.
  destruct (H 1 dt (pl0 4 4 (W (Cscal 1 (fst v))) (W (Cscal 1 (snd v))) (W (Cscal (- / ksq 4 4 1 1 0) (snd (ascal 1 v)))) 0) 0 ltac:(lra) Dt Ds (pl0_ok _ _ _ _ _ _ _))
    as (q & Hq & Hm).
  exists dt, (pl0 4 4 (W (Cscal 1 (fst v))) (W (Cscal 1 (snd v))) (W (Cscal (- / ksq 4 4 1 1 0) (snd (ascal 1 v)))) 0). split; [exact Dt|].
  intros B. destruct (Pow_x_infinity q ltac:(rewrite Rabs_pos_eq; lra) (2 * B + 1)) as [m Hm'].
  specialize (Hm' m (Nat.le_refl m)). rewrite Rabs_pos_eq in Hm' by (apply pow_le; lra).
  destruct (Hm m) as (pl' & n' & o' & phi' & E & P & Em). exists m, pl', o'. split; [exact E|]. split; [apply P|]. rewrite Em. lra.
Qed.

(** C102: with hyper-diffusion alone the sums of squares never grow, provided
    dt nu (8/dx^2)^N is at most 2.78 (Euler: 2) ... *)
Theorem C102_rk4_contracts ny nx dx : (0 < ny)%nat -> (0 < nx)%nat -> dx <> 0 ->
  forall b N nu zon dx0 test, backend_ok ny nx b -> forall pl n o phi a dt m,
  0 <= dt * nu -> dt * nu * (8 / dx ^ 2) ^ N <= 2.78 ->
  plasma_ok test ny nx pl n o phi a -> agree ny nx phi (invlap ny nx dx o) ->
  exists pl' n' o' phi', snd (steps (fun pl => rk4_step (hw_of b (pure_diffusion N nu zon) dx0 test) pl dt dx) m pl) = Ok pl' /\
    plasma_ok test ny nx pl' n' o' phi' (a + INR m * dt) /\
    inner ny nx n' n' <= inner ny nx n n /\ inner ny nx o' o' <= inner ny nx o o.
Proof. exact (c102_rk4 ny nx dx). Qed.
Print Assumptions C102_rk4_contracts.
Theorem C102_euler_contracts ny nx dx : (0 < ny)%nat -> (0 < nx)%nat -> dx <> 0 ->
  forall b N nu zon dx0 test, backend_ok ny nx b -> forall pl n o phi a dt m,
  0 <= dt * nu -> dt * nu * (8 / dx ^ 2) ^ N <= 2 ->
  plasma_ok test ny nx pl n o phi a -> agree ny nx phi (invlap ny nx dx o) ->
  exists pl' n' o' phi', snd (steps (fun pl => euler_step (hw_of b (pure_diffusion N nu zon) dx0 test) pl dt dx) m pl) = Ok pl' /\
    plasma_ok test ny nx pl' n' o' phi' (a + INR m * dt) /\
    inner ny nx n' n' <= inner ny nx n n /\ inner ny nx o' o' <= inner ny nx o o.
Proof. exact (c102_euler ny nx dx). Qed.
Print Assumptions C102_euler_contracts.
(** ... and the limits cannot be improved beyond 2.79 (Euler: 2): on even grids
    alternating signs are multiplied by exactly this factor per step *)
Theorem C102_rk4_checkerboard ny nx dx : (0 < ny)%nat -> (0 < nx)%nat -> dx <> 0 ->
  forall b N nu zon dx0 test, backend_ok ny nx b -> forall pl c d phi a dt m, Nat.Even ny -> Nat.Even nx ->
  plasma_ok test ny nx pl (fscale c checker) (fscale d checker) phi a -> agree ny nx phi (invlap ny nx dx (fscale d checker)) ->
  let g := growth4R (- (dt * nu * (8 / dx ^ 2) ^ N)) in
  exists pl' phi', snd (steps (fun pl => rk4_step (hw_of b (pure_diffusion N nu zon) dx0 test) pl dt dx) m pl) = Ok pl' /\
    plasma_ok test ny nx pl' (fscale (g ^ m * c) checker) (fscale (g ^ m * d) checker) phi' (a + INR m * dt).
Proof. exact (c102_rk4_checker ny nx dx). Qed.
Print Assumptions C102_rk4_checkerboard.
Theorem C102_euler_checkerboard ny nx dx : (0 < ny)%nat -> (0 < nx)%nat -> dx <> 0 ->
  forall b N nu zon dx0 test, backend_ok ny nx b -> forall pl c d phi a dt m, Nat.Even ny -> Nat.Even nx ->
  plasma_ok test ny nx pl (fscale c checker) (fscale d checker) phi a -> agree ny nx phi (invlap ny nx dx (fscale d checker)) ->
  let g := 1 - dt * nu * (8 / dx ^ 2) ^ N in
  exists pl' phi', snd (steps (fun pl => euler_step (hw_of b (pure_diffusion N nu zon) dx0 test) pl dt dx) m pl) = Ok pl' /\
    plasma_ok test ny nx pl' (fscale (g ^ m * c) checker) (fscale (g ^ m * d) checker) phi' (a + INR m * dt).
Proof. exact (c102_euler_checker ny nx dx). Qed.
Print Assumptions C102_euler_checkerboard.
Theorem C102_rk4_factor x : 0 <= x -> (x <= 2.78 -> Rabs (growth4R (- x)) <= 1) /\ (2.79 <= x -> 1.007 <= growth4R (- x)).
Proof. exact (c102_factor x). Qed.
Print Assumptions C102_rk4_factor.
(** dx = nu = N = 1: the step 1/4 is stable, the step 1/2 multiplies by 5 *)
Example C102_example : 0 <= / 4 * 1 /\ / 4 * 1 * (8 / 1 ^ 2) ^ 1 <= 2.78 /\ growth4R (- (/ 2 * 1 * (8 / 1 ^ 2) ^ 1)) = 5 /\
  plasma_ok true 2 2 (pl0 2 2 zig zig (invlap 2 2 1 zig) 0) zig zig (invlap 2 2 1 zig) 0.
Proof. split; [lra|]. split; [lra|]. split; [unfold growth4R; field|apply pl0_ok]. Qed.

(** C103: the same factor in the full nonlinear system, for every coupling,
    drift and bracket coefficient: alternating vorticity with the density in
    equilibrium with its potential ... *)
Theorem C103_checkerboard_full_system ny nx dx : (0 < ny)%nat -> (0 < nx)%nat -> dx <> 0 -> Nat.Even ny -> Nat.Even nx ->
  forall b p dx0 test, backend_ok ny nx b -> forall pl c a dt m,
  let w := dx ^ 2 / (2 * PI ^ 2) in
  plasma_ok test ny nx pl (fscale (- w * c) checker) (fscale c checker) (fscale (- w * c) checker) a ->
  let c' := growth4R (- (dt * pnu p * (8 / dx ^ 2) ^ pN p)) ^ m * c in
  exists pl', snd (steps (fun pl => rk4_step (hw_of b p dx0 test) pl dt dx) m pl) = Ok pl' /\
    plasma_ok test ny nx pl' (fscale (- w * c') checker) (fscale c' checker) (fscale (- w * c') checker) (a + INR m * dt).
Proof. exact (c103 ny nx dx). Qed.
Print Assumptions C103_checkerboard_full_system.
(** ... which the defaults of run.py amplify by more than 10^7 in every step:
    the object run() builds without arguments is unstable ... *)
Theorem C103_run_defaults_unstable b : backend_ok 1024 1024 b ->
  let dx := c_dx (run_cfg run_defaults) in let dt := c_step (run_cfg run_defaults) in let w := dx ^ 2 / (2 * PI ^ 2) in
  exists h g, hw_of_phys b (c_phys (run_cfg run_defaults)) = Ok h /\ 10 ^ 7 <= g /\
    forall pl c a m,
    plasma_ok true 1024 1024 pl (fscale (- w * c) checker) (fscale c checker) (fscale (- w * c) checker) a ->
    exists pl', snd (steps (fun pl => rk4_step h pl dt dx) m pl) = Ok pl' /\
      plasma_ok true 1024 1024 pl' (fscale (- w * (g ^ m * c)) checker) (fscale (g ^ m * c) checker) (fscale (- w * (g ^ m * c)) checker) (a + INR m * dt).
Proof. exact (c103_run b). Qed.
Print Assumptions C103_run_defaults_unstable.
(** ... while run2.py's defaults and the README's command stay below the limit. *)
Theorem C103_other_defaults_below_limit :
  let stiffness a := a_step a * a_nu a * (8 / domain_dx (a_k0 a) (a_grid a) ^ 2) ^ Z.to_nat (a_N a) in
  130 <= stiffness run_defaults /\ 0 <= stiffness run2_defaults <= 2.2 /\ 0 <= stiffness readme_args <= 2.2.
Proof. exact (conj stiff_run (conj stiff_run2 stiff_readme)). Qed.
Print Assumptions C103_other_defaults_below_limit.
Example C103_example : backend_ok 1024 1024 np_backend /\ backend_ok 1024 1024 nb_backend /\ forall c w,
  plasma_ok true 1024 1024 (pl0 1024 1024 (fscale (- w * c) checker) (fscale c checker) (fscale (- w * c) checker) 0)
    (fscale (- w * c) checker) (fscale c checker) (fscale (- w * c) checker) 0.
Proof. split; [now left|]. split; [right; split; [reflexivity|split; lia]|]. intros. apply pl0_ok. Qed.
