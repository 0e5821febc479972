(** Property C129: inverting the five-point Laplacian with a Fourier solver. *)
From Coq Require Import List Arith ZArith Lia Reals Lra.
From Verif Require Import Num NdArray NdFacts Spec Cplx SpecFourier ModelGradients ModelPoisson ModelHW ModelProperties PoissonProps SpecHW SpecPlasma SpecWave DftFacts WaveFacts SpecTrip SymbolFacts TripFacts TripDiag WaveDefaults.
Import ListNotations.
Local Open Scope R_scope.

(** the solver applied to the five-point Laplacian of a field, and the
    five-point Laplacian applied to the potential of the field, both return the
    same field [g]: the mean is gone and every other wave of [f] is multiplied
    by [shrink]; both backends *)
Theorem C129_round_trip ny nx dx f : (0 < ny)%nat -> (0 < nx)%nat -> 0 < dx -> exists g,
  np_fourier_poisson_double (np_periodic_laplace (Ok (grid ny nx f)) dx) dx 1 = Ok (grid ny nx g) /\
  ((Z.of_nat ny <= 65536)%Z -> (Z.of_nat nx <= 65536)%Z ->
   nb_fourier_poisson_double (nb_periodic_laplace (Ok (grid ny nx f)) dx) dx 1 = Ok (grid ny nx g)) /\
  bind (get_phi np_solve (Ok (grid ny nx f)) dx) (fun p => np_periodic_laplace (Ok p) dx) = Ok (grid ny nx g) /\
  (dft2 ny nx (fun i j => RtoC (g i j)) 0 0 = C0 /\
   forall a b, (a < ny)%nat -> (b < nx)%nat -> (a <> 0 \/ b <> 0)%nat ->
     dft2 ny nx (fun i j => RtoC (g i j)) (Z.of_nat a) (Z.of_nat b) =
     Cscal (shrink ny nx (sfreq ny a) (sfreq nx b)) (dft2 ny nx (fun i j => RtoC (f i j)) (Z.of_nat a) (Z.of_nat b))) /\
  4 / PI ^ 2 * rms ny nx (demean ny nx f) <= rms ny nx g <= rms ny nx (demean ny nx f) /\
  rms ny nx (fun i j => g i j - demean ny nx f i j) <= dx ^ 2 / 12 * rms ny nx (rlap ny nx dx f).
Proof.
  intros Hy Hx Hd. exists (trip ny nx dx f).
  split; [now apply trip_np|]. split; [intros; now apply trip_nb|]. split; [now apply trip_phi|]. split; [|split; [split|]].
  - split.
    + pose proof (trip_dft ny nx dx Hy Hx Hd f 0 0 Hy Hx) as E. rewrite (idm_00 ny nx dx 0 0 eq_refl) in E.
      etransitivity; [exact E|]. apply C_eq; cbn [re im Cscal C0 RtoC]; ring.
    + intros a b Ha Hb Hn. rewrite <- (trip_shrink ny nx dx Hy Hx Hd a b Ha Hb Hn). now apply trip_dft.
  - now apply trip_lower.
  - now apply trip_upper.
  - now apply trip_close.
Qed.
Print Assumptions C129_round_trip.

(** a single resolved wave comes back multiplied by [shrink] *)
Theorem C129_wave ny nx dx k l th : (0 < ny)%nat -> (0 < nx)%nat -> 0 < dx -> fits ny nx k l ->
  np_fourier_poisson_double (np_periodic_laplace (Ok (grid ny nx (gwave ny nx k l th))) dx) dx 1 =
  Ok (grid ny nx (fscale (shrink ny nx k l) (gwave ny nx k l th))).
Proof.
  intros Hy Hx Hd (Hk & Hl & Hn). rewrite trip_np by assumption. f_equal. apply grid_ext. intros i j _ _. now apply trip_gwave.
Qed.
Print Assumptions C129_wave.

(** the sine of the test *)
Theorem C129_test_sine n dx : (3 <= n)%nat -> 0 < dx ->
  np_fourier_poisson_double (np_periodic_laplace (Ok (grid n n (test_sine n))) dx) dx 1 =
  Ok (grid n n (fscale ((sin (PI / INR n) / (PI / INR n)) ^ 2) (test_sine n))).
Proof.
  intros Hn Hd. rewrite trip_np by (assumption || lia). f_equal. apply grid_ext. intros i j Hi Hj. now apply trip_sine.
Qed.
Print Assumptions C129_test_sine.

(** the solver is not the inverse of [periodic_laplace], not even on mean-free
    fields: on every even grid the alternating field loses more than half *)
Theorem C129_inverse_refuted ny nx dx : (0 < ny)%nat -> (0 < nx)%nat -> 0 < dx -> Nat.Even ny -> Nat.Even nx ->
  np_fourier_poisson_double (np_periodic_laplace (Ok (grid ny nx checker)) dx) dx 1 =
  Ok (grid ny nx (fscale (4 / PI ^ 2) checker)) /\ 4 / PI ^ 2 < 1 / 2.
Proof.
  intros Hy Hx Hd Ey Ex. split.
  - rewrite trip_np by assumption. f_equal. apply grid_ext. intros i j Hi Hj. now apply trip_checker.
  - pose proof PI2_bounds as B. apply Rmult_lt_reg_r with (PI ^ 2); [lra|]. unfold Rdiv at 1. rewrite Rmult_assoc, Rinv_l by lra. lra.
Qed.
Print Assumptions C129_inverse_refuted.

(** the reported energy against the energy the equations balance: what is
    missing is at most dx^2/6 times the mean square of the vorticity *)
Theorem C129_energy rest ny nx dx (n o p : list nat -> nat -> nat -> R) : (0 < ny)%nat -> (0 < nx)%nat -> 0 < dx ->
  (forall r, inb rest r -> get_phi np_solve (Ok (grid ny nx (o r))) dx = Ok (grid ny nx (p r))) ->
  exists e,
    get_energy (Ok (stack rest ny nx n)) (Ok (stack rest ny nx p)) dx = Ok (build rest e) /\
    forall r, inb rest r ->
      0 <= spec_energy ny nx dx (n r) (o r) - e r <= dx ^ 2 / 6 * gmean ny nx (fun i j => o r i j ^ 2).
Proof. intros Hy Hx Hd Hp. now apply energy_gap. Qed.
Print Assumptions C129_energy.

(** and it can miss all of the kinetic energy *)
Theorem C129_energy_refuted ny nx dx : (0 < ny)%nat -> (0 < nx)%nat -> 0 < dx -> Nat.Even ny -> Nat.Even nx -> exists p,
  get_phi np_solve (Ok (grid ny nx checker)) dx = Ok (grid ny nx p) /\
  get_energy (Ok (grid ny nx (fconst 0))) (Ok (grid ny nx p)) dx = Ok (build [] (fun _ => 0)) /\
  spec_energy ny nx dx (fconst 0) checker = dx ^ 2 / (4 * PI ^ 2).
Proof. intros Hy Hx Hd Ey Ex. now apply energy_ck. Qed.
Print Assumptions C129_energy_refuted.

(** the enstrophy from the vorticity and the one from its potential *)
Theorem C129_enstrophy rest ny nx dx (n o p : list nat -> nat -> nat -> R) : (0 < ny)%nat -> (0 < nx)%nat -> 0 < dx ->
  (forall r, inb rest r -> get_phi np_solve (Ok (grid ny nx (o r))) dx = Ok (grid ny nx (p r))) ->
  (forall r, inb rest r -> gmean ny nx (o r) = 0) ->
  exists u v,
    get_enstrophy (Ok (stack rest ny nx n)) (Ok (stack rest ny nx o)) dx = Ok (build rest u) /\
    get_enstrophy_phi (Ok (stack rest ny nx n)) (Ok (stack rest ny nx p)) dx = Ok (build rest v) /\
    forall r, inb rest r -> Rabs (sqrt (2 * v r) - sqrt (2 * u r)) <= dx ^ 2 / 12 * rms ny nx (rlap ny nx dx (o r)).
Proof. intros Hy Hx Hd Hp Z. now apply enstrophy_gap. Qed.
Print Assumptions C129_enstrophy.
Theorem C129_enstrophy_no_density rest ny nx dx (n o p : list nat -> nat -> nat -> R) : (0 < ny)%nat -> (0 < nx)%nat -> 0 < dx ->
  (forall r, inb rest r -> get_phi np_solve (Ok (grid ny nx (o r))) dx = Ok (grid ny nx (p r))) ->
  (forall r, inb rest r -> agree ny nx (n r) (fconst 0)) -> (forall r, inb rest r -> gmean ny nx (o r) = 0) ->
  exists u v,
    get_enstrophy (Ok (stack rest ny nx n)) (Ok (stack rest ny nx o)) dx = Ok (build rest u) /\
    get_enstrophy_phi (Ok (stack rest ny nx n)) (Ok (stack rest ny nx p)) dx = Ok (build rest v) /\
    forall r, inb rest r -> 16 / PI ^ 4 * u r <= v r <= u r.
Proof. intros Hy Hx Hd Hp N Z. now apply enstrophy_zero_n. Qed.
Print Assumptions C129_enstrophy_no_density.

(** cases *)
Example C129_case_test : fits 512 512 1 1. Proof. unfold fits. lia. Qed.
Example C129_case_frames :
  (forall r, inb [2%nat] r -> get_phi np_solve (Ok (grid 4 6 ((fun _ => checker) r))) 1 = Ok (grid 4 6 ((fun _ => invlap 4 6 1 checker) r))) /\
  gmean 4 6 checker = 0 /\ checker 0 0 = 1.
Proof.
  split; [|split].
  - intros r _. cbv beta. destruct (HWFacts.backend_acts 4 6 ModelBackend.np_backend 1 1 ltac:(lia) ltac:(lia) ltac:(lra) (or_introl eq_refl)) as [A _ _ _].
    exact (A checker).
  - unfold gmean, gsum, checker. cbn. field.
  - unfold checker. cbn. reflexivity.
Qed.
