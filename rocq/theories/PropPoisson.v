(** Properties C12-C17 and C56: Fourier Poisson solvers. *)
From Coq Require Import List Arith ZArith Reals.
From Verif Require Import Num NdArray Spec Cplx SpecFourier ModelPoisson PoissonProps.
Import ListNotations.
Local Open Scope R_scope.

(** C12: get_phi with the NumPy solver returns the unique mean-free solution. *)
Theorem C12_get_phi_inverts ny nx dx om : (0 < ny)%nat -> (0 < nx)%nat -> dx <> 0 ->
  exists phi,
    get_phi (fun t dx => np_fourier_poisson_double t dx 1) (Ok (grid ny nx om)) dx = Ok (grid ny nx phi) /\
    (forall i j, (i < ny)%nat -> (j < nx)%nat ->
       speclap ny nx dx phi i j = RtoC (om i j - gmean ny nx om)) /\
    gmean ny nx phi = 0 /\
    (forall psi,
       (forall i j, (i < ny)%nat -> (j < nx)%nat ->
          speclap ny nx dx psi i j = RtoC (om i j - gmean ny nx om)) ->
       gmean ny nx psi = 0 ->
       forall i j, (i < ny)%nat -> (j < nx)%nat -> psi i j = phi i j).
Proof. exact (c12 ny nx dx om). Qed.

Example C12_nonvacuous :
  get_phi (fun t dx => np_fourier_poisson_double t dx 1)
    (Ok (grid 1 2 (fun _ j => match j with O => 1 | _ => -1 end))) (1/2) =
  Ok (grid 1 2 (fun i j => - (match j with O => 1 | _ => -1 end) / (4 * PI ^ 2))).
Proof. exact zig_phi. Qed.

(** C13: the two solvers differ by the mean of the input over 1e14 (the
    numba DC divisor), and get_phi does not see the difference. *)
Theorem C13_solvers_differ_by_mean ny nx dx f : (0 < ny)%nat -> (0 < nx)%nat ->
  (Z.of_nat ny <= 65536)%Z -> (Z.of_nat nx <= 65536)%Z ->
  exists u,
    np_fourier_poisson_double (Ok (grid ny nx f)) dx 1 = Ok (grid ny nx u) /\
    nb_fourier_poisson_double (Ok (grid ny nx f)) dx 1 =
    Ok (grid ny nx (fun i j => u i j + gmean ny nx f * dx ^ 2 / 10 ^ 14)).
Proof. exact (c13_diff ny nx dx f). Qed.

Theorem C13_solvers_differ_times ny nx dx f t : (0 < ny)%nat -> (0 < nx)%nat ->
  (Z.of_nat ny <= 65536)%Z -> (Z.of_nat nx <= 65536)%Z ->
  exists u,
    np_fourier_poisson_double (Ok (grid ny nx f)) dx (S t) = Ok (grid ny nx u) /\
    nb_fourier_poisson_double (Ok (grid ny nx f)) dx (S t) =
    Ok (grid ny nx (fun i j => u i j + gmean ny nx f * dx ^ 2 / (10 ^ 14) ^ S t)).
Proof. exact (c13_times ny nx dx f t). Qed.

Theorem C13_get_phi_agree ny nx om dx : (0 < ny)%nat -> (0 < nx)%nat ->
  (Z.of_nat ny <= 65536)%Z -> (Z.of_nat nx <= 65536)%Z ->
  get_phi (fun t dx => nb_fourier_poisson_double t dx 1) (Ok (grid ny nx om)) dx =
  get_phi (fun t dx => np_fourier_poisson_double t dx 1) (Ok (grid ny nx om)) dx.
Proof. exact (get_phi_nb ny nx om dx). Qed.

(** C14 *)
Theorem C14_fftfreq_equal n : (1 <= n)%nat -> (Z.of_nat n <= 65536)%Z ->
  custom_fftfreq n = np_fftfreq n.
Proof. exact (c14_eq n). Qed.
Theorem C14_fftfreq_differs_above n : (65536 < Z.of_nat n)%Z -> custom_fftfreq n <> np_fftfreq n.
Proof. exact (c14_ne n). Qed.
(** what the table contains: signed frequency over n *)
Theorem C14_fftfreq_values n i : (i < n)%nat -> nth i (np_fftfreq n) 0 = IZR (sfreq n i) / INR n.
Proof. exact (c14_spec n i). Qed.

(** C15 *)
Theorem C15_linear ny nx dx a b f g u v : (0 < ny)%nat -> (0 < nx)%nat ->
  np_fourier_poisson_double (Ok (grid ny nx f)) dx 1 = Ok (grid ny nx u) ->
  np_fourier_poisson_double (Ok (grid ny nx g)) dx 1 = Ok (grid ny nx v) ->
  np_fourier_poisson_double (Ok (grid ny nx (fadd (fscale a f) (fscale b g)))) dx 1 =
  Ok (grid ny nx (fadd (fscale a u) (fscale b v))).
Proof. exact (c15_linear ny nx dx a b f g u v). Qed.
Theorem C15_real_part_loses_nothing ny nx f t : (0 < ny)%nat -> (0 < nx)%nat ->
  exists w, np_poisson_complex (Ok (grid ny nx f)) t = Ok (grid ny nx w) /\
    forall i j, im (w i j) = 0.
Proof. exact (c15_real ny nx f t). Qed.
Theorem C15_symmetric ny nx dx f g u v : (0 < ny)%nat -> (0 < nx)%nat ->
  np_fourier_poisson_double (Ok (grid ny nx f)) dx 1 = Ok (grid ny nx u) ->
  np_fourier_poisson_double (Ok (grid ny nx g)) dx 1 = Ok (grid ny nx v) ->
  inner ny nx f v = inner ny nx u g.
Proof. exact (c15_symmetric ny nx dx f g u v). Qed.
Theorem C15_negative ny nx dx f u : (0 < ny)%nat -> (0 < nx)%nat -> dx <> 0 ->
  np_fourier_poisson_double (Ok (grid ny nx f)) dx 1 = Ok (grid ny nx u) ->
  inner ny nx f u <= 0 /\ (inner ny nx f u = 0 <-> is_const ny nx f).
Proof. exact (c15_negative ny nx dx f u). Qed.
Theorem C15_shift_equivariant ny nx dx sy sx f u : (0 < ny)%nat -> (0 < nx)%nat ->
  np_fourier_poisson_double (Ok (grid ny nx f)) dx 1 = Ok (grid ny nx u) ->
  np_fourier_poisson_double (Ok (grid ny nx (ftrans ny nx sy sx f))) dx 1 =
  Ok (grid ny nx (ftrans ny nx sy sx u)).
Proof. exact (c15_shift ny nx dx sy sx f u). Qed.
Theorem C15_total ny nx dx f : (0 < ny)%nat -> (0 < nx)%nat ->
  exists u, np_fourier_poisson_double (Ok (grid ny nx f)) dx 1 = Ok (grid ny nx u).
Proof. exact (solved_total ny nx dx f). Qed.

(** C16 *)
Theorem C16_square n f dx t : (0 < n)%nat ->
  np_fourier_poisson_numpy (Ok (grid n n f)) dx t = np_fourier_poisson_double (Ok (grid n n f)) dx t.
Proof. exact (PoissonFacts.generic_square n f dx t). Qed.
Theorem C16_nonsquare_raises ny nx f dx t : (2 <= ny)%nat -> (2 <= nx)%nat -> ny <> nx ->
  np_fourier_poisson_numpy (Ok (grid ny nx f)) dx t = Exn ValueError.
Proof. exact (PoissonFacts.generic_nonsquare ny nx f dx t). Qed.

(** C17 *)
Theorem C17_numpy_fourier_laplace_refuted ny nx g dx N : (0 < ny)%nat -> (0 < nx)%nat ->
  np_fourier_laplace (Ok (grid ny nx g)) dx N = Exn NameError.
Proof. exact (c17_nameerror ny nx g dx N). Qed.
Theorem C17_numpy_fourier_laplace_never_returns (g : nd R) dx N a : np_fourier_laplace g dx N <> Ok a.
Proof. exact (c17_never g dx N a). Qed.
Theorem C17_phiml_inverted_by_solver ny nx dx N f : (0 < ny)%nat -> (0 < nx)%nat -> dx <> 0 ->
  gmean ny nx f = 0 ->
  exists L, pm_fourier_laplace (Ok (grid ny nx f)) dx N = Ok (grid ny nx L) /\
    np_fourier_poisson_double (Ok (grid ny nx L)) dx N = Ok (grid ny nx f).
Proof. exact (c17_inverse ny nx dx N f). Qed.
Theorem C17_phiml_solver_equals_numpy ny nx f dx t : (0 < ny)%nat -> (0 < nx)%nat ->
  pm_fourier_poisson (Ok (grid ny nx f)) dx t = np_fourier_poisson_double (Ok (grid ny nx f)) dx t.
Proof.
  intros Hy Hx. rewrite PoissonFacts.pm_solver_grid, PoissonFacts.np_solver_grid by assumption. reflexivity.
Qed.
Example C17_nonvacuous : gmean 1 2 (fun _ j => match j with O => 1 | _ => -1 end) = 0.
Proof. exact gmean_zig. Qed.

(** C56: phiml fourier_laplace with N >= 2 scales with dx only once. *)
Theorem C56_phiml_fourier_laplace ny nx dx N f : (0 < ny)%nat -> (0 < nx)%nat -> dx <> 0 ->
  pm_fourier_laplace (Ok (grid ny nx f)) dx (S N) =
  Ok (grid ny nx (fun i j => (dx ^ 2) ^ N * speclap_iter (S N) ny nx dx f i j)).
Proof. exact (c56_char ny nx dx N f). Qed.
Theorem C56_N_fold_refuted : exists (ny nx : nat) (dx : R) (f g h : nat -> nat -> R),
  pm_fourier_laplace (Ok (grid ny nx f)) dx 1 = Ok (grid ny nx g) /\
  pm_fourier_laplace (Ok (grid ny nx g)) dx 1 = Ok (grid ny nx h) /\
  pm_fourier_laplace (Ok (grid ny nx f)) dx 2 <> Ok (grid ny nx h).
Proof. exact c56_counter. Qed.

Print Assumptions C12_get_phi_inverts.
Print Assumptions C13_get_phi_agree.
Print Assumptions C14_fftfreq_equal.
Print Assumptions C15_negative.
Print Assumptions C16_square.
Print Assumptions C17_phiml_inverted_by_solver.
Print Assumptions C56_N_fold_refuted.
