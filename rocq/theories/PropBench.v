(** C113: the benchmark script compares kernels that agree. *)
From Coq Require Import Arith ZArith Bool Reals String List Lia Lra.
From Verif Require Import Num NdArray NdFacts Spec ModelBench SpecBench BenchFacts.
Import ListNotations.
Local Open Scope R_scope.
Local Open Scope string_scope.

(** the gradient of numpy in the benchmark is the central difference for spacing 1,
    whatever dx is *)
Theorem C113_intrinsic : forall ny nx dx f, (0 < ny)%nat -> (0 < nx)%nat ->
  np_instrinsic_gradient (Ok (grid ny nx f)) dx = Ok (grid ny nx (cdy ny 1 f)).
Proof. exact intrinsic_grid. Qed.
Print Assumptions C113_intrinsic.
(** so the gradient group passes the comparison exactly if the central differences
    for dx and for 1 agree *)
Theorem C113_gradient : forall junk dx n f b, (0 < n)%nat ->
  exists r, group_check junk dx "periodic_gradient" (grid n n f, b) = Ok r /\ (r = true <-> agree_within n (cdy n dx f) (cdy n 1 f)).
Proof. exact gradient_check. Qed.
Print Assumptions C113_gradient.
(** the Laplacians and the brackets pass for all arrays *)
Theorem C113_laplace : forall junk dx n f b, (0 < n)%nat -> group_check junk dx "periodic_laplace" (grid n n f, b) = Ok true.
Proof. exact laplace_check. Qed.
Print Assumptions C113_laplace.
Theorem C113_bracket : forall junk dx n f g, (0 < n)%nat -> dx <> 0 -> group_check junk dx "poisson_bracket" (grid n n f, grid n n g) = Ok true.
Proof. exact bracket_check. Qed.
Print Assumptions C113_bracket.
(** the Poisson solvers pass while the mean is small against 10^6 / dx^2, and fail
    on constants that are larger *)
Theorem C113_poisson : forall junk dx n f b, (0 < n)%nat -> (Z.of_nat n <= 65536)%Z ->
  exists r, group_check junk dx "poisson_solvers" (grid n n f, b) = Ok r /\ (Rabs (gmean n n f) * dx ^ 2 <= 10 ^ 6 -> r = true).
Proof. exact poisson_check. Qed.
Print Assumptions C113_poisson.
Theorem C113_poisson_refuted : ~ (forall junk dx n f b, 0 < dx -> (0 < n)%nat -> (Z.of_nat n <= 65536)%Z -> small_field f ->
  group_check junk dx "poisson_solvers" (grid n n f, b) = Ok true).
Proof. exact poisson_refuted. Qed.
Print Assumptions C113_poisson_refuted.
(** ** The script with the default groups: no comparison ever fails on arrays as it
    sets them up if and only if |1 - dx| <= 3e-5 dx *)
Theorem C113_main : forall junk dx scale measured, 0 < dx -> (1 <= measured "periodic_gradient")%nat ->
  (forall input, (forall name n, set_up n (input name n)) -> bench_main junk default_groups dx scale input measured = Ok true) <->
  Rabs (1 - dx) <= 3 / 10 ^ 5 * dx.
Proof. exact main_iff. Qed.
Print Assumptions C113_main.
(** so with the default dx = 1 it runs through, with dx = 1/10 it need not *)
Theorem C113_default : forall junk scale measured input, (forall name n, set_up n (input name n)) ->
  bench_main junk default_groups 1 scale input measured = Ok true.
Proof. exact main_default. Qed.
Print Assumptions C113_default.
Theorem C113_dx_refuted : ~ (forall junk dx scale measured input, 0 < dx -> (forall name n, set_up n (input name n)) ->
  bench_main junk default_groups dx scale input measured = Ok true).
Proof. exact main_refuted. Qed.
Print Assumptions C113_dx_refuted.
(** other group names end it with a TypeError, after the groups before *)
Theorem C113_unknown : forall junk dx scale input measured l1 name l2, ~ In name default_groups ->
  bench_main junk l1 dx scale input measured = Ok true ->
  bench_main junk (l1 ++ name :: l2) dx scale input measured = Exn TypeError.
Proof. exact main_unknown. Qed.
Print Assumptions C113_unknown.

(** inputs as set up, one row of the first array at 1/2000 *)
Definition ridge (i j : nat) : R := if (i =? 2)%nat then / 2000 else 0.
Example C113_setup_ex : forall n, set_up n (grid n n ridge, grid n n (fun _ _ => 0)).
Proof. intros n. exists ridge, (fun _ _ => 0). split; [reflexivity|]. split; intros i j; unfold ridge; destruct (i =? 2)%nat; lra. Qed.
(** with dx = 1/10 their gradients are told apart *)
Example C113_gradient_ex : forall junk b, group_check junk (1 / 10) "periodic_gradient" (grid 16 16 ridge, b) = Ok false.
Proof.
  intros junk b. destruct (C113_gradient junk (1 / 10) 16 ridge b ltac:(lia)) as (r & E & H). rewrite E. destruct r; [exfalso|reflexivity].
  destruct H as [H _]. specialize (H eq_refl 1%nat 0%nat ltac:(lia) ltac:(lia)).
  unfold cdy in H. cbn [ndiv nsub nmul nofZ NumR] in H. change (sh 16 1 1) with 2%nat in H. change (sh 16 1 (-1)) with 0%nat in H.
  unfold ridge in H. cbn [Nat.eqb] in H. rewrite !Rabs_pos_eq in H by lra. lra.
Qed.
Example C113_unknown_ex : forall junk input measured, (forall name n, set_up n (input name n)) ->
  bench_main junk (default_groups ++ ["downsample"])%list 1 1000 input measured = Exn TypeError.
Proof. intros junk input measured H. apply C113_unknown; [cbn; intuition discriminate|now apply C113_default]. Qed.
