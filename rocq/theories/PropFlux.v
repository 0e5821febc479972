(** Property C150: the reported flux is at most the reported energy. *)
From Coq Require Import List Arith ZArith Lia Bool Reals Lra Psatz String.
From Verif Require Import Num NdArray NdFacts Spec GradFacts SumFacts LapFacts Cplx SpecFourier DftFacts ModelGradients ModelProperties SpecDiag DiagFacts DiagProps
  SpecHW BalanceProps BalanceWit.
Import ListNotations.
Local Open Scope R_scope.

(** central differences along the two axes of the grid *)
Definition slope_y (ny : nat) (dx : R) (f : field) : field := fun i j => (f (sh ny i 1) j - f (sh ny i (-1)) j) / (2 * dx).
Definition slope_x (nx : nat) (dx : R) (f : field) : field := fun i j => (f i (sh nx j 1) - f i (sh nx j (-1))) / (2 * dx).

Lemma flux_defect ny nx (n p : field) dx s : s * s = 1 ->
  gmean ny nx (fun i j => n i j ^ 2 + (cdx nx dx p i j ^ 2 + cdy ny dx p i j ^ 2)) / 2 - s * (- gmean ny nx (fun i j => n i j * cdy ny dx p i j)) =
  gmean ny nx (fun i j => (n i j + s * slope_y ny dx p i j) ^ 2 + slope_x nx dx p i j ^ 2) / 2.
Proof.
  intros Hs.
  rewrite (mn_ext ny nx (fun i j => (n i j + s * slope_y ny dx p i j) ^ 2 + slope_x nx dx p i j ^ 2)
    (fun i j => (n i j ^ 2 + (cdx nx dx p i j ^ 2 + cdy ny dx p i j ^ 2)) + 2 * s * (n i j * cdy ny dx p i j))).
  - rewrite (mn_add ny nx (fun i j => n i j ^ 2 + (cdx nx dx p i j ^ 2 + cdy ny dx p i j ^ 2))), mn_scal. field.
  - intros i j _ _. replace (cdy ny dx p i j) with (slope_y ny dx p i j) by (symmetry; apply cdy_R). replace (cdx nx dx p i j) with (slope_x nx dx p i j) by (symmetry; apply cdx_R).
    generalize (slope_y ny dx p i j) (slope_x nx dx p i j). intros a b.
    replace ((n i j + s * a) ^ 2) with (n i j ^ 2 + 2 * s * (n i j * a) + (s * s) * a ^ 2) by ring. rewrite Hs. ring.
Qed.

(** For all fields, on any stack of frames: |Gamma_n| <= E in every frame, with
    Gamma_n = E exactly when the density is minus the slope of the potential
    along y and the potential has no slope along x, and Gamma_n = - E exactly
    when the density is plus that slope. *)
Theorem C150_flux rest ny nx (n p : frames) dx : (0 < ny)%nat -> (0 < nx)%nat ->
  exists e g : list nat -> R,
    get_energy (Ok (stack rest ny nx n)) (Ok (stack rest ny nx p)) dx = Ok (build rest e) /\
    get_gamma_n (Ok (stack rest ny nx n)) (Ok (stack rest ny nx p)) dx None = Ok (build rest g) /\
    forall r, inb rest r -> Rabs (g r) <= e r /\
      (g r = e r <-> forall i j, (i < ny)%nat -> (j < nx)%nat -> n r i j = - slope_y ny dx (p r) i j /\ slope_x nx dx (p r) i j = 0) /\
      (g r = - e r <-> forall i j, (i < ny)%nat -> (j < nx)%nat -> n r i j = slope_y ny dx (p r) i j /\ slope_x nx dx (p r) i j = 0).
Proof.
  intros Hy Hx. eexists _, _. split; [now apply energy_stack|]. split; [now apply gamma_n_stack|]. intros r _. cbv beta.
  pose proof (flux_defect ny nx (n r) (p r) dx 1 ltac:(ring)) as P. pose proof (flux_defect ny nx (n r) (p r) dx (-1) ltac:(ring)) as M.
  set (E := gmean ny nx (fun i j => n r i j ^ 2 + _) / 2) in *. set (G := - gmean ny nx (fun i j => n r i j * cdy ny dx (p r) i j)) in *.
  assert (Z : forall s, let d := fun i j => (n r i j + s * slope_y ny dx (p r) i j) ^ 2 + slope_x nx dx (p r) i j ^ 2 in
    0 <= gmean ny nx d /\ (gmean ny nx d = 0 <-> forall i j, (i < ny)%nat -> (j < nx)%nat -> n r i j = - s * slope_y ny dx (p r) i j /\ slope_x nx dx (p r) i j = 0)).
  { intros s d. assert (D : forall i j, (i < ny)%nat -> (j < nx)%nat -> 0 <= d i j).
    { intros i j _ _. unfold d. pose proof (pow2_ge_0 (n r i j + s * slope_y ny dx (p r) i j)). pose proof (pow2_ge_0 (slope_x nx dx (p r) i j)). lra. }
    split; [now apply gmean_nonneg|]. rewrite (gmean_zero ny nx d Hy Hx D). split.
    - intros V i j Hi Hj. specialize (V i j Hi Hj). unfold d in V.
      pose proof (pow2_ge_0 (n r i j + s * slope_y ny dx (p r) i j)). pose proof (pow2_ge_0 (slope_x nx dx (p r) i j)). split; nra.
    - intros V i j Hi Hj. destruct (V i j Hi Hj) as [V1 V2]. unfold d. rewrite V1, V2. ring. }
  destruct (Z 1) as [P1 P2]. destruct (Z (-1)) as [M1 M2]. cbv zeta in P1, P2, M1, M2.
  set (p1 := gmean ny nx (fun i j => (n r i j + 1 * _) ^ 2 + _)) in *. set (m1 := gmean ny nx (fun i j => (n r i j + -1 * _) ^ 2 + _)) in *.
  clearbody p1 m1 E G.
  split; [apply Rabs_le; split; lra|]. split.
  - transitivity (p1 = 0); [split; intros; lra|]. rewrite P2. split; intros V i j Hi Hj; destruct (V i j Hi Hj) as [V1 V2]; (split; [lra|exact V2]).
  - transitivity (m1 = 0); [split; intros; lra|]. rewrite M2. split; intros V i j Hi Hj; destruct (V i j Hi Hj) as [V1 V2]; (split; [lra|exact V2]).
Qed.
(** A derivative handed to get_gamma_n is taken as it is: the bound is lost when
    it belongs to another spacing. *)
Theorem C150_given_derivative_refuted :
  ~ (forall (n p : field) (d : R) g e, 0 < d ->
     get_gamma_n (Ok (grid 4 1 n)) (Ok (grid 4 1 p)) 1 (Some (force (np_periodic_gradient (Ok (grid 4 1 p)) d (-2)))) = Ok (scal g) ->
     get_energy (Ok (grid 4 1 n)) (Ok (grid 4 1 p)) 1 = Ok (scal e) -> Rabs g <= e).
Proof.
  intros H. set (p := fun i (_ : nat) => if (i =? 1)%nat then 1 else 0). set (n := fun i (_ : nat) => if (i =? 2)%nat then 1 else 0).
  assert (H0 : (0 < 4)%nat) by lia. assert (H1 : (0 < 1)%nat) by lia.
  assert (G : get_gamma_n (Ok (grid 4 1 n)) (Ok (grid 4 1 p)) 1 (Some (force (np_periodic_gradient (Ok (grid 4 1 p)) (1 / 10) (-2)))) =
    Ok (scal (- gmean 4 1 (fun i j => n i j * cdy 4 (1 / 10) p i j)))) by exact (gamma_n_stack [] 4 1 H0 H1 (fun _ => n) (fun _ => p) (1 / 10)).
  pose proof (energy_stack [] 4 1 H0 H1 (fun _ => n) (fun _ => p) 1) as E.
  specialize (H n p (1 / 10) _ _ ltac:(lra) G E). cbv beta in H. unfold gmean, gsum in H. cbn [rsum INR] in H. rewrite !cdy_R, !cdx_R in H.
  unfold n, p in H. cbn in H. change (Pos.to_nat 1) with 1%nat in H. change (Pos.to_nat 2) with 2%nat in H. change (Pos.to_nat 3) with 3%nat in H. cbn in H.
  rewrite Rabs_right in H by lra. lra.
Qed.

(** both bounds are attained by fields that do not vanish *)
Example C150_case : let p := fun (r : list nat) i (_ : nat) => if (i =? 1)%nat then 1 else 0 in
  let n := fun r i j => - slope_y 4 1 (p r) i j in
  n [] 2%nat 0%nat = 1 / 2 /\ forall r i j, (j < 1)%nat -> slope_x 1 1 (p r) i j = 0.
Proof.
  cbv zeta. split; [unfold slope_y; change (sh 4 2 1) with 3%nat; change (sh 4 2 (-1)) with 1%nat; cbn; lra|].
  intros r i j Hj. unfold slope_x, Rdiv. cbn. ring.
Qed.

Print Assumptions C150_flux.
Print Assumptions C150_given_derivative_refuted.
