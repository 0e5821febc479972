(** C121: the Fourier Poisson solvers in binary64. *)
From Coq Require Import List Arith ZArith Reals Lra Lia SpecFloat Bool String.
From Verif Require Import Num NdArray ModelHW ModelBackend ModelSchemes ModelIO ModelRun ModelRun64 ModelPoisson ModelPoisson64 Spec SpecFourier SpecHW SpecRound
  SpecRoundStep SpecRun SpecRun64 SpecPoisson64 RoundFacts RoundCons RoundReal RoundEval RoundProps Run64Facts Run64Wit PoissonRound FftRegime FftWit SymRound PiFacts.
Import List ListNotations.
Local Open Scope R_scope.
Local Existing Instance TimeF64.
Local Existing Instance NumF64.

(** the NumPy solver: every value it returns is finite and within d of the
    exact inverse Laplacian of the same vorticity; the transforms are any
    functions with errors of eps times the sum of their inputs *)
Theorem C121_numpy : forall ny nx eps (fft ifft : fft_fun) (dx : f64) B P,
  (1 < ny * nx)%nat -> (Z.of_nat ny <= 1000000)%Z -> (Z.of_nat nx <= 1000000)%Z -> eps <= 0.01 ->
  fft_accurate ny nx eps fft -> ifft_accurate ny nx eps ifft -> finite64 dx -> scale64 (fval dx) -> scale64 B ->
  let Lam := inv_sum ny nx (fval dx) in let d := (5 * eps + 40 * uro) * (Lam * B) in
  Lam * B + d <= P -> solves64 ny nx dx (np_poisson64 fft ifft) B P d.
Proof. exact np_solves. Qed.
Print Assumptions C121_numpy.

(** the Numba solver: its frequencies are 16-bit integers, and the constant
    mode is divided by 1e14 instead of being removed *)
Theorem C121_numba : forall ny nx eps (fft ifft : fft_fun) (dx : f64) B P,
  (1 < ny * nx)%nat -> (Z.of_nat ny <= 65536)%Z -> (Z.of_nat nx <= 65536)%Z -> eps <= 0.01 ->
  fft_accurate ny nx eps fft -> ifft_accurate ny nx eps ifft -> finite64 dx -> scale64 (fval dx) -> scale64 B ->
  let Lam := inv_sum ny nx (fval dx) in let d := (5 * eps + 40 * uro) * (Lam * B) + 2.1 / 100000000000000 * (fval dx ^ 2 * B) in
  Lam * B + d <= P -> solves64 ny nx dx (nb_poisson64 fft ifft) B P d.
Proof. exact nb_solves. Qed.
Print Assumptions C121_numba.

(** the size of the inverse Laplacian, which C115 and C120 left open *)
Theorem C121_bound : forall ny nx dx, (0 < ny)%nat -> (0 < nx)%nat -> inv_bound ny nx dx (inv_sum ny nx dx).
Proof. exact inv_sum_bound. Qed.
Print Assumptions C121_bound.

(** the potential of the model (the vorticity less its mean goes to the
    solver): its error does not see the error of the mean *)
Theorem C121_potential : forall (nb : bool) ny nx eps fft ifft dx (h : hw f64) B P,
  (1 < ny * nx)%nat -> fft_size nb ny -> fft_size nb nx -> eps <= / 20000 ->
  fft_accurate ny nx eps fft -> ifft_accurate ny nx eps ifft -> finite64 dx -> scale64 (fval dx) -> scale64 B -> scale64 (2.02 * B) ->
  poisson_solver (schemes h) = (if nb then nb_poisson64 fft ifft else np_poisson64 fft ifft) ->
  let Lam := inv_sum ny nx (fval dx) in let d := phi_fft_err nb eps ny nx (fval dx) B in
  1.001 * (Lam * B) <= P ->
  0 <= d <= Lam * B / 1000 /\ solves64 ny nx dx (fun om dx => snd (hw_get_phi h om dx)) B P d.
Proof. exact fft_phi. Qed.
Print Assumptions C121_potential.

(** all hypotheses of C115 and C120 about the solver follow from the accuracy
    of the transforms *)
Theorem C121_regime : forall nb eps fft ifft ny nx dx dx0 N c1 nu pb kap zon B P S dt,
  fft_regime nb eps fft ifft ny nx dx N c1 nu pb kap zon B P S dt ->
  regime ny nx dx (fft_schemes nb fft ifft) dx0 N c1 nu pb kap zon (inv_sum ny nx (fval dx)) B P S (phi_fft_err nb eps ny nx (fval dx) B) dt /\
  keeps_shape ny nx dx (fun om dx => snd (hw_get_phi (hw64 (fft_schemes nb fft ifft) dx0 N c1 nu pb kap zon) om dx)).
Proof. exact c121_regime. Qed.
Print Assumptions C121_regime.

(** the file of a run in binary64 with a Fourier solver against the solution
    of the semi-discrete system *)
Theorem C121_file : forall ny nx dx N c1 nu k0 pb kap Y T M, (0 < ny)%nat -> (0 < nx)%nat -> 0 < fval dx ->
  let p := par64 N c1 nu pb kap false in
  0 <= T -> hw_solution p ny nx (fval dx) Y T -> (forall s, 0 <= s <= T -> sbdd ny nx M (Y s)) ->
  exists C h0, 0 <= C /\ 0 < h0 /\ forall nb eps fft ifft B P S dt, fft_regime nb eps fft ifft ny nx dx N c1 nu pb kap false B P S dt ->
  fval dt <= h0 -> B <= 2 ^ 127 -> P <= 2 ^ 127 -> T <= 2 ^ 100 ->
  forall t c fs k e n o phi0, call64 dx N c1 nu k0 pb kap dt c fs k -> INR (leaves t) <= 2 ^ 50 -> INR k * fval dt <= T ->
  close64 ny nx e n o (Y 0) ->
  let Lam := inv_sum ny nx (fval dx) in let d := phi_fft_err nb eps ny nx (fval dx) B in
  let E := exp (2 * lip p (fval dx) Lam B * T) * (e + T * (step_err p ny (fval dx) d B S (fval dt) / fval dt)) + C * fval dt ^ 4 in
  1.001 * (M + E) + 1.1 * (fval dt * S) <= B ->
  let call := run (hw_sim64 (fft_schemes nb fft ifft) t ny nx) c (plasma64 (grid ny nx n) (grid ny nx o) (grid ny nx phi0)) in
  exists g D W F Tm, result_of call fs = Ok tt /\ disk_of call fs = Some g /\ holds64 ny nx g (entries c k) D W F Tm /\
  forall j, In j (entries c k) ->
    close64 ny nx (stored E B) (D j) (W j) (Y (INR j * fval dt)) /\
    (j <> 0%nat -> phi_near ny nx (fval dx) (stored (Lam * E + d) P) (F j) (Y (INR j * fval dt))) /\
    near (Tm j) (INR j * fval dt) (/ 2 ^ 23 * T + / 2 ^ 149).
Proof.
  intros ny nx dx N c1 nu k0 pb kap Y T M Hy Hx Hd p HT HY HM.
  destruct (c119_solution ny nx dx N c1 nu k0 pb kap Y T M Hy Hx Hd HT HY HM) as (C & h0 & HC & Hh & H). exists C, h0. split; [exact HC|]. split; [exact Hh|].
  intros nb eps fft ifft B P S dt HR L1 L2 L3 L4. destruct (c121_regime nb eps fft ifft ny nx dx dx N c1 nu pb kap false B P S dt HR) as [R K].
  exact (H _ _ _ _ _ _ _ R K L1 L2 L3 L4).
Qed.
Print Assumptions C121_file.

(** ** concrete case: a grid of 1 x 2 cells, where the transform is a sum and a
    difference *)
Example C121_case : forall nb, fft_regime nb (4 * uro) fft12 ifft12 1 2 one64 1 one64 z64 one64 one64 false 4 1 16 dt64.
Proof. exact case_fft. Qed.
(** vorticity 1, -1: both solvers return -1/pi^2, 1/pi^2 to the last bit but
    a few (-0.10132118364233777 in decimal) *)
Example C121_values : let om := grid 1 2 (fun _ j => if (j =? 0)%nat then f64_ofZ 1 else f64_ofZ (-1)) in
  let x := S754_finite false 7300960718341920 (-56) in
  let phi := grid 1 2 (fun _ j => if (j =? 0)%nat then SFopp x else x) in
  np_poisson64 fft12 ifft12 (Ok om) one64 = Ok phi /\ nb_poisson64 fft12 ifft12 (Ok om) one64 = Ok phi.
Proof. split; vm_compute; reflexivity. Qed.

(** the additional term of the Numba solver is not an artefact of the proof:
    for a constant vorticity 1 the NumPy solver returns 0 and the Numba solver
    1e-14 *)
Definition numba_removes_mean : Prop := forall ny nx (fft ifft : fft_fun) dx (om : nat -> nat -> f64) q,
  fft_accurate ny nx (4 * uro) fft -> ifft_accurate ny nx (4 * uro) ifft -> (forall i j, om i j = f64_ofZ 1) ->
  nb_poisson64 fft ifft (Ok (grid ny nx om)) dx = Ok q -> forall i j, (i < ny)%nat -> (j < nx)%nat -> get q [j; i] = z64.
Theorem C121_mean_refuted : ~ numba_removes_mean.
Proof.
  intros H. set (q := grid 1 2 (fun _ _ => S754_finite false 6338253001141147 (-99))).
  assert (E : nb_poisson64 fft12 ifft12 (Ok (grid 1 2 (fun _ _ => f64_ofZ 1))) one64 = Ok q) by (vm_compute; reflexivity).
  assert (A : fft_accurate 1 2 (4 * uro) fft12) by (destruct uro_small; apply (acc_mono _ _ (2 * uro)); [apply fft12_acc|lra]).
  specialize (H 1%nat 2%nat fft12 ifft12 one64 _ q A ifft12_acc (fun _ _ => eq_refl) E 0%nat 0%nat ltac:(lia) ltac:(lia)).
  vm_compute in H. discriminate H.
Qed.
Print Assumptions C121_mean_refuted.
Example C121_mean_numpy : np_poisson64 fft12 ifft12 (Ok (grid 1 2 (fun _ _ => f64_ofZ 1))) one64 = Ok (grid 1 2 (fun _ _ => z64)).
Proof. vm_compute. reflexivity. Qed.
