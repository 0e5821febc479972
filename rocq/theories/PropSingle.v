(** Property C130: the single precision solver. *)
From Coq Require Import List Arith ZArith Lia Reals Lra.
From Verif Require Import Num NdArray NdFacts Spec ModelPoisson PoissonProps SpecHW SpecPlasma SymbolFacts SpecTrip TripFacts ModelSingle SpecSingle SingleFacts HWFacts.
Import ListNotations.
Local Open Scope R_scope.

(** every cell of the result is a single precision number nearest to what the
    double precision solver returns for the input rounded in the same way *)
Theorem C130_value ny nx f dx t : (0 < ny)%nat -> (0 < nx)%nat -> in_range32 ny nx f -> exists fr u,
  (forall i j, nearest_single (f i j) (fr i j)) /\
  np_fourier_poisson_double (Ok (grid ny nx fr)) dx t = Ok (grid ny nx u) /\
  (in_range32 ny nx u -> exists g,
     np_fourier_poisson_single (Ok (grid ny nx f)) dx t = Ok (grid ny nx g) /\
     forall i j, nearest_single (u i j) (g i j)).
Proof.
  intros Hy Hx Hf. exists (fun i j => round32 (f i j)). eexists. split; [intros; apply round32_nearest|].
  split; [now apply PoissonFacts.np_solver_grid|]. intros Hu. eexists. split; [apply single_double; [assumption|now apply PoissonFacts.np_solver_grid|assumption]|].
  intros i j. apply round32_nearest.
Qed.
Print Assumptions C130_value.

(** distance from the double precision result, root mean squares; the factor of
    the input error is the largest value the solver multiplies a wave with *)
Theorem C130_error ny nx f dx v : (0 < ny)%nat -> (0 < nx)%nat -> 0 < dx -> in_range32 ny nx f ->
  (forall fr u, (forall i j, nearest_single (f i j) (fr i j)) -> np_fourier_poisson_double (Ok (grid ny nx fr)) dx 1 = Ok (grid ny nx u) -> in_range32 ny nx u) ->
  np_fourier_poisson_double (Ok (grid ny nx f)) dx 1 = Ok (grid ny nx v) -> exists g,
  np_fourier_poisson_single (Ok (grid ny nx f)) dx 1 = Ok (grid ny nx g) /\
  rms ny nx (fun i j => g i j - v i j) <=
    / 2 ^ 24 * rms ny nx v
    + (1 + / 2 ^ 24) * / ((2 * PI) ^ 2 / ((INR ny * dx) ^ 2 + (INR nx * dx) ^ 2)) * (/ 2 ^ 24 * rms ny nx f + / 2 ^ 150)
    + / 2 ^ 150.
Proof.
  intros Hy Hx Hd Hf Hr Ev. apply (single_err ny nx Hy Hx f dx v Hd Hf); [|exact Ev].
  apply (Hr (fun i j => round32 (f i j))); [intros; apply round32_nearest|]. now apply np_solver_invlap.
Qed.
Print Assumptions C130_error.

(** the mean of the potential is zero in double precision, not in single *)
Theorem C130_mean_free_refuted : exists dx f g v, 0 < dx /\ in_range32 1 3 f /\
  np_fourier_poisson_single (Ok (grid 1 3 f)) dx 1 = Ok (grid 1 3 g) /\
  np_fourier_poisson_double (Ok (grid 1 3 f)) dx 1 = Ok (grid 1 3 v) /\
  gmean 1 3 v = 0 /\ gmean 1 3 g = / (3 * 2 ^ 22).
Proof.
  destruct single3 as (g & v & H). exists h3, f3, g, v. split; [exact h3_pos|]. split; [|exact H].
  assert (B : 4 <= 2 ^ 127). { apply Rle_trans with (2 ^ 2); [lra|]. apply Rle_pow; [lra|lia]. }
  intros i j _ Hj. destruct j as [|[|[|j]]]; [| | |lia]; unfold f3; apply Rabs_le; lra.
Qed.
Print Assumptions C130_mean_free_refuted.

(** values above the range leave the model; [in_range32] holds for all the
    fields below four, for example *)
Example C130_case : in_range32 1 3 f3 /\ nearest_single (3 * c3) (3 + / 2 ^ 22).
Proof.
  split.
  - assert (B : 4 <= 2 ^ 127). { apply Rle_trans with (2 ^ 2); [lra|]. apply Rle_pow; [lra|lia]. }
    intros i j _ Hj. destruct j as [|[|[|j]]]; [| | |lia]; unfold f3; apply Rabs_le; lra.
  - rewrite <- r_3c. apply round32_nearest.
Qed.
