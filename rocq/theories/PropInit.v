(** Theorems C50, C51, C75, C76: initial conditions.
    Model: ModelInit.v; vocabulary: SpecInit.v; proofs: InitProps.v. *)
From Coq Require Import Arith ZArith Reals Lra Lia String List.
From Verif Require Import Num NdArray Spec SpecFourier Cplx DftFacts ModelPoisson ModelIO ModelRun ModelRunHW ModelInit SpecInit InitFacts InitProps.
Import ListNotations.
Local Open Scope R_scope.

(** C50: whatever was drawn, the noise has mean exactly 0 and standard deviation
    exactly 1, as long as the draw contains some wave besides the mean. *)
Theorem C50_normalised : forall ny nx re_ im_ size scale f0 f1 l0 l1 factor,
  (0 < ny)%nat -> (0 < nx)%nat -> size <> 0 -> scale <> 0 ->
  proper_band (low_freq f0 l1) (high_freq f1 l0) -> some_wave ny nx re_ im_ ->
  exists v, get_fft_noise ny nx re_ im_ size scale f0 f1 l0 l1 factor = Ok (grid ny nx v) /\ normalised ny nx v.
Proof. exact c50_normalised. Qed.
Print Assumptions C50_normalised.

(** C50: without such a wave the standard deviation is zero (NaN in numpy). *)
Theorem C50_nan : forall ny nx re_ im_ size scale f0 f1 l0 l1 factor,
  (0 < ny)%nat -> (0 < nx)%nat -> size <> 0 -> scale <> 0 ->
  proper_band (low_freq f0 l1) (high_freq f1 l0) -> ~ some_wave ny nx re_ im_ ->
  get_fft_noise ny nx re_ im_ size scale f0 f1 l0 l1 factor = Exn Unmodelled.
Proof. exact c50_nan. Qed.
Print Assumptions C50_nan.

(** C50: the assertion on the mask fails exactly when both bounds are given and
    the lower one is above the upper one. *)
Theorem C50_assertion : forall ny nx re_ im_ size scale f0 f1 l0 l1 factor, (0 < ny)%nat -> (0 < nx)%nat ->
  (get_fft_noise ny nx re_ im_ size scale f0 f1 l0 l1 factor = Exn AssertionError <->
   (low_freq f0 l1 <> 0 /\ high_freq f1 l0 <> 0 /\ high_freq f1 l0 < low_freq f0 l1)).
Proof. exact c50_assertion. Qed.
Print Assumptions C50_assertion.

(** C50: a single cell is always NaN. *)
Theorem C50_one_cell : forall re_ im_ size scale f0 f1 l0 l1 factor,
  (low_freq f0 l1 = 0 \/ high_freq f1 l0 = 0 \/ low_freq f0 l1 <= high_freq f1 l0) ->
  get_fft_noise 1 1 re_ im_ size scale f0 f1 l0 l1 factor = Exn Unmodelled.
Proof. exact noise_one. Qed.
Print Assumptions C50_one_cell.

(** two cells, draw 1 everywhere, no band *)
Example C50_example : some_wave 1 2 (fun _ _ => 1) (fun _ _ => 0) /\ proper_band (low_freq 0 0) (high_freq 0 0) /\
  exists v, get_fft_noise 1 2 (fun _ _ => 1) (fun _ _ => 0) 1 1 0 0 0 0 2 = Ok (grid 1 2 v) /\ normalised 1 2 v.
Proof.
  assert (W : some_wave 1 2 (fun _ _ => 1) (fun _ _ => 0)) by (exists 0%nat, 1%nat; repeat split; try lia; left; lra).
  assert (B : proper_band (low_freq 0 0) (high_freq 0 0)) by (left; unfold low_freq; now rewrite nonzero_0).
  split; [exact W|]. split; [exact B|]. apply C50_normalised; try lia; try lra; assumption.
Qed.
Example C50_example_assertion : get_fft_noise 3 4 (fun _ _ => 1) (fun _ _ => 0) 1 1 2 1 0 0 2 = Exn AssertionError.
Proof.
  apply C50_assertion; try lia. unfold low_freq, high_freq. rewrite nonzero_0. repeat split; lra.
Qed.

(** C51: values on square grids; always within [-1, 1]. *)
Theorem C51_value : forall n L,
  get_2d_sine n n L = Ok (grid n n (fun i j => sine_profile L (INR j / INR n) * sine_profile L (INR i / INR n))).
Proof. exact c51_value. Qed.
Print Assumptions C51_value.
Theorem C51_bounded : forall a b L, exists v, get_2d_sine a b L = Ok (grid b a v) /\ forall i j, -1 <= v i j <= 1.
Proof. exact sine_bounded. Qed.
Print Assumptions C51_bounded.
(** C51: the docstring promises an array of shape grid_size.  Refuted: for
    grid_size = (2, 3) the shape is (3, 2) (innermost axis first: [2; 3]). *)
Theorem C51_shape_refuted : ~ (forall a b L, exists v, get_2d_sine a b L = Ok v /\ shape v = [b; a]).
Proof. exact c51_shape_refuted. Qed.
Print Assumptions C51_shape_refuted.
Theorem C51_shape : forall a b L, exists v, get_2d_sine a b L = Ok v /\ shape v = [a; b].
Proof. exact c51_shape. Qed.
Print Assumptions C51_shape.
Example C51_example : get_2d_sine 1 1 5 = Ok (grid 1 1 (fun _ _ => sin 1 * sin 1)).
Proof.
  rewrite C51_value. f_equal. apply NdFacts.grid_ext. intros i j Hi Hj. replace i with 0%nat by lia. replace j with 0%nat by lia.
  unfold sine_profile. cbn [INR]. replace (2 * PI * 5 * (0 / 1) + 1) with 1 by field. reflexivity.
Qed.

(** C75: the waves in the noise.  Relative to the (symmetrised) draw, the wave of
    bin (a, b) has amplitude gain(q)/q, where q is the SQUARE of its frequency. *)
Theorem C75_spectrum : forall ny nx re_ im_ size f0 f1 l0 l1, (0 < ny)%nat -> (0 < nx)%nat -> size <> 0 ->
  proper_band (low_freq f0 l1) (high_freq f1 l0) -> some_wave ny nx re_ im_ ->
  exists v s, get_fft_noise ny nx re_ im_ size 1 f0 f1 l0 l1 2 = Ok (grid ny nx v) /\ 0 < s /\
    forall a b, (a < ny)%nat -> (b < nx)%nat -> (a <> 0 \/ b <> 0)%nat ->
      let q := wave_sq ny nx size a b in
      dft2 ny nx (cfield v) (Z.of_nat a) (Z.of_nat b)
      = Cscal (s * (gain (low_freq f0 l1) (high_freq f1 l0) q / q))
          (mkC (re_ a b + re_ (opposite ny a) (opposite nx b)) (im_ a b - im_ (opposite ny a) (opposite nx b))).
Proof. exact c75_spectrum. Qed.
Print Assumptions C75_spectrum.
(** C75: the band keeps waves with lo <= q <= hi and damps all others. *)
Theorem C75_kept : forall lo hi q d, 0 < d -> lo = 0 \/ lo + d <= q -> hi = 0 \/ q <= hi - d ->
  1 - 2 / (1 + 1000 * d) <= gain lo hi q.
Proof. exact gain_pass. Qed.
Print Assumptions C75_kept.
Theorem C75_damped : forall lo hi q d, 0 < d -> proper_band lo hi -> (lo <> 0 /\ q <= lo - d) \/ (hi <> 0 /\ hi + d <= q) ->
  0 < gain lo hi q <= 1 / (1 + 1000 * d).
Proof. exact gain_stop. Qed.
Print Assumptions C75_damped.
(** C75, refuted: min_wavelength bounds the wavelengths.  In a box of size 40
    with 120 cells, as run.py sets it up, min_wavelength is 4, but the wave with
    18 periods, of wavelength 40/18 < 4, is kept ... *)
Theorem C75_short_waves_kept_refuted :
  exists n L a, let dx := L / INR n in
    L / INR a < 12 * dx /\ 9 / 10 < gain (low_freq 0 (dx * INR n * 100)) (high_freq 0 (dx * 12)) (wave_sq n n L a 0).
Proof. exact c75_short_kept. Qed.
Print Assumptions C75_short_waves_kept_refuted.
(** ... while in a box of size 1 with min_wavelength 1/4 the wave with 3 periods,
    of wavelength 1/3 > 1/4, is damped. *)
Theorem C75_long_waves_damped_refuted :
  1 / 4 < 1 / 3 /\ gain 0 (high_freq 0 (1 / 4)) (wave_sq 8 8 1 3 0) < 1 / 1000.
Proof. exact c75_long_damped. Qed.
Print Assumptions C75_long_waves_damped_refuted.
Example C75_example : 9 / 10 <= gain 0 4 1.
Proof. apply Rle_trans with (1 - 2 / (1 + 1000 * 1)); [lra|]. apply C75_kept; try lra. Qed.

(** C76: the initial fields of a run.  'fourier': each field has mean 0 and root
    mean square |init_scale|. *)
Theorem C76_fourier : forall n k0 s draws, (0 < n)%nat -> 0 < k0 ->
  (forall m, (m < 3)%nat -> some_wave n n (fst (draws m)) (snd (draws m))) ->
  exists d o p, init_state "fourier" n k0 s draws = Ok (grid n n d, grid n n o, grid n n p) /\
    forall f, In f [d; o; p] -> gmean n n f = 0 /\ gmean n n (fun i j => f i j ^ 2) = s ^ 2.
Proof. exact init_state_fourier. Qed.
Print Assumptions C76_fourier.
(** C76: which waves the three fields contain: those of their draws, filtered by
    the band that run.py asks for, and scaled by init_scale. *)
Theorem C76_spectrum : forall n k0 s draws, (0 < n)%nat -> 0 < k0 ->
  (forall m, (m < 3)%nat -> some_wave n n (fst (draws m)) (snd (draws m))) ->
  exists d o p cd co cp, init_state "fourier" n k0 s draws = Ok (grid n n d, grid n n o, grid n n p) /\
    (0 < cd /\ 0 < co /\ 0 < cp) /\
    init_wave n (2 * PI / k0) s cd (draws 0%nat) d /\ init_wave n (2 * PI / k0) s co (draws 1%nat) o /\ init_wave n (2 * PI / k0) s cp (draws 2%nat) p.
Proof. exact c76_spectrum. Qed.
Print Assumptions C76_spectrum.
(** C76: 'sine': all three fields are equal, and bounded by |init_scale|. *)
Theorem C76_sine : forall n k0 s draws,
  exists f, init_state "sine" n k0 s draws = Ok (grid n n f, grid n n f, grid n n f) /\
  (forall i j, Rabs (f i j) <= Rabs s) /\
  forall i j, (i < n)%nat -> (j < n)%nat ->
    f i j = sine_profile (2 * PI / k0) (INR j / INR n) * sine_profile (2 * PI / k0) (INR i / INR n) * s.
Proof. exact init_state_sine. Qed.
Print Assumptions C76_sine.
(** C76: 'random' and 'normal' are the scaled draws. *)
Theorem C76_draws : forall ty n k0 s draws, ty = "random"%string \/ ty = "normal"%string ->
  init_state ty n k0 s draws =
    Ok (grid n n (fun i j => fst (draws 0%nat) i j * s), grid n n (fun i j => fst (draws 1%nat) i j * s),
        grid n n (fun i j => fst (draws 2%nat) i j * s)).
Proof. exact init_state_draw. Qed.
Print Assumptions C76_draws.
(** C76: any other name raises KeyError. *)
Theorem C76_unknown : forall ty n k0 s draws, ~ In ty ["fourier"; "sine"; "random"; "normal"]%string ->
  init_state ty n k0 s draws = Exn KeyError.
Proof. exact init_state_unknown. Qed.
Print Assumptions C76_unknown.
(** C76, the sampled sine is periodic over the box exactly when the number of
    periods L = 2 pi / k0 is an integer ... *)
Theorem C76_sine_periodic : forall L, (forall s, sine_profile L (s + 1) = sine_profile L s) <-> exists z, L = IZR z.
Proof. exact sine_period. Qed.
Print Assumptions C76_sine_periodic.
(** ... which it is not for the default k0 = 0.15: the initial field jumps at the
    periodic boundary. *)
Theorem C76_sine_default_refuted : ~ (forall s, sine_profile (2 * PI / (15 / 100)) (s + 1) = sine_profile (2 * PI / (15 / 100)) s).
Proof. exact c76_default. Qed.
Print Assumptions C76_sine_default_refuted.
Example C76_example : exists d o p, init_state "fourier" 2 1 3 (fun _ => (fun _ _ => 1, fun _ _ => 0)) = Ok (grid 2 2 d, grid 2 2 o, grid 2 2 p) /\
  gmean 2 2 p = 0 /\ gmean 2 2 (fun i j => p i j ^ 2) = 9.
Proof.
  destruct (C76_fourier 2 1 3 (fun _ => (fun _ _ => 1, fun _ _ => 0))) as (d & o & p & E & H); try lia; try lra.
  - intros m _. exists 0%nat, 1%nat. cbn. repeat split; try lia. left. lra.
  - exists d, o, p. split; [exact E|]. destruct (H p ltac:(cbn; tauto)) as [A B]. split; [exact A|]. rewrite B. ring.
Qed.
Example C76_example_spectrum : exists d o p cd co cp, init_state "fourier" 2 1 3 (fun _ => (fun _ _ => 1, fun _ _ => 0)) = Ok (grid 2 2 d, grid 2 2 o, grid 2 2 p) /\
  (0 < cd /\ 0 < co /\ 0 < cp) /\
  init_wave 2 (2 * PI / 1) 3 cd (fun _ _ => 1, fun _ _ => 0) d /\ init_wave 2 (2 * PI / 1) 3 co (fun _ _ => 1, fun _ _ => 0) o /\ init_wave 2 (2 * PI / 1) 3 cp (fun _ _ => 1, fun _ _ => 0) p.
Proof.
  apply (C76_spectrum 2 1 3 (fun _ => (fun _ _ => 1, fun _ _ => 0))); try lia; try lra.
  intros m _. exists 0%nat, 1%nat. cbn. repeat split; try lia. left. lra.
Qed.
Example C76_example_unknown : init_state "gauss" 2 1 3 (fun _ => (fun _ _ => 1, fun _ _ => 0)) = Exn KeyError.
Proof. apply C76_unknown. cbn. intuition discriminate. Qed.
