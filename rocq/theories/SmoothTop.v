(** The accuracy theorems at the level of the program's functions. *)
From Coq Require Import List Arith ZArith Lia Bool Reals Lra Psatz String.
From Verif Require Import Num NdArray NdFacts ModelGradients Spec GradFacts SumFacts LapFacts GradProps ModelArakawa ArakawaFacts ArakawaProps
  Cplx DftFacts SpecFourier ModelPoisson PoissonFacts PoissonProps ModelHW ModelBackend SpecHW SpecPlasma HWFacts StepFacts RhsFacts HWProps
  SpecSmooth SmoothFacts SmoothStencil SmoothBracket WaveFacts.
Import List ListNotations.
Local Open Scope R_scope.

Section T.
Variables (ny nx : nat) (dx : R).
Hypothesis Hy : (0 < ny)%nat.
Hypothesis Hx : (0 < nx)%nat.
Hypothesis Hd : 0 < dx.
Local Notation Ly := (INR ny * dx).
Local Notation Lx := (INR nx * dx).
Local Notation per := (periodic Ly Lx).
Local Notation Y i := (INR i * dx).

Lemma c93_gradient M u D (axis : Z) : smooth 3 M u D -> per u -> (axis = 0 \/ axis = 1)%Z ->
  exists g, np_periodic_gradient (Ok (grid ny nx (sample dx u))) dx axis = Ok (Some (grid ny nx g)) /\
    nb_periodic_gradient (Ok (grid ny nx (sample dx u))) dx axis = Ok (Some (grid ny nx g)) /\
    forall i j, (i < ny)%nat -> (j < nx)%nat ->
      Rabs (g i j - (if (axis =? 0)%Z then D 1%nat 0%nat else D 0%nat 1%nat) (Y i) (Y j)) <= M * dx ^ 2 / 6.
Proof.
  intros H P Ha. eexists. split; [apply (np_grad_pos ny nx dx (sample dx u) axis Hy Hx Ha)|].
  split; [rewrite (nb_np_grad _ _ _ Ha); apply (np_grad_pos ny nx dx (sample dx u) axis Hy Hx Ha)|].
  intros i j Hi Hj. destruct (axis =? 0)%Z; [now apply (cdy_smooth ny nx dx)|now apply (cdx_smooth ny nx dx)].
Qed.
Lemma c93_laplace M u D (n : nat) : smooth (2 + 2 * n) M u D -> per u ->
  exists g, nb_periodic_laplace_N (Ok (grid ny nx (sample dx u))) dx (Z.of_nat n) = Ok (grid ny nx g) /\
    np_periodic_laplace_N (Ok (grid ny nx (sample dx u))) dx (Z.of_nat n) = Ok (grid ny nx g) /\
    forall i j, (i < ny)%nat -> (j < nx)%nat ->
      Rabs (g i j - dlap_iter n D 0%nat 0%nat (Y i) (Y j)) <= INR n * 2 ^ n / 12 * M * dx ^ 2.
Proof.
  intros H P. eexists.
  assert (E : nb_periodic_laplace_N (Ok (grid ny nx (sample dx u))) dx (Z.of_nat n) = Ok (grid ny nx (lap_iter n ny nx dx (sample dx u)))).
  { rewrite nb_periodic_laplace_N_grid by (try assumption; lia). now rewrite Nat2Z.id. }
  split; [exact E|]. split.
  - rewrite <- laplace_N_agree; [exact E|apply wf_build|reflexivity|lia].
  - intros i j Hi Hj. now apply lap_smooth.
Qed.
Lemma c93_bracket Mp Mq u v P Q : smooth 3 Mp u P -> smooth 3 Mq v Q -> per u -> per v ->
  exists g, (forall junk, np_periodic_arakawa junk (Ok (grid ny nx (sample dx u))) (Ok (grid ny nx (sample dx v))) dx = Ok (grid ny nx g)) /\
    np_periodic_arakawa_vec (Ok (grid ny nx (sample dx u))) (Ok (grid ny nx (sample dx v))) dx = Ok (grid ny nx g) /\
    nb_periodic_arakawa_vec (Ok (grid ny nx (sample dx u))) (Ok (grid ny nx (sample dx v))) dx = Ok (grid ny nx g) /\
    nb_periodic_arakawa (Ok (grid ny nx (sample dx u))) (Ok (grid ny nx (sample dx v))) dx = Ok (grid ny nx g) /\
    nb_periodic_arakawa_stencil (Ok (grid ny nx (sample dx u))) (Ok (grid ny nx (sample dx v))) dx = Ok (grid ny nx g) /\
    forall i j, (i < ny)%nat -> (j < nx)%nat -> Rabs (g i j - bracket P Q (Y i) (Y j)) <= 4 * Mp * Mq * dx ^ 2.
Proof.
  intros Hu Hv Pu Pv. exists (ara ny nx dx (sample dx u) (sample dx v)).
  assert (E : np_periodic_arakawa_vec (Ok (grid ny nx (sample dx u))) (Ok (grid ny nx (sample dx v))) dx = Ok (grid ny nx (ara ny nx dx (sample dx u) (sample dx v)))) by (now apply np_periodic_arakawa_vec_grid).
  assert (W : forall f : nat -> nat -> R, wf (grid ny nx f)) by (intros; apply wf_build).
  split; [|split; [exact E|split; [|split; [|split]]]].
  - intros junk. rewrite <- E. apply (c07_exact junk); auto; lra.
  - rewrite <- E. apply c07_bits; auto.
  - rewrite <- E. apply (c07_exact (fun _ _ => 0)); auto; lra.
  - rewrite <- E. apply c07_bits; auto.
  - intros i j Hi Hj. rewrite <- jacobian_ara by lra. now apply bracket_smooth.
Qed.

(** get_phi inverts the continuous Laplacian on resolved waves *)
Lemma c94 ws : Forall (resolved ny nx) ws ->
  get_phi np_solve (Ok (grid ny nx (sample dx (dlap (trigD Ly Lx ws) 0%nat 0%nat)))) dx = Ok (grid ny nx (sample dx (trig Ly Lx ws))).
Proof.
  intros F. rewrite get_phi_np by assumption. f_equal. apply grid_ext. intros i j Hi Hj.
  rewrite invlap_centered by (assumption || lra). apply invlap_trig; try assumption. lra.
Qed.
Lemma c94_nb ws : (Z.of_nat ny <= 65536)%Z -> (Z.of_nat nx <= 65536)%Z -> Forall (resolved ny nx) ws ->
  get_phi nb_solve (Ok (grid ny nx (sample dx (dlap (trigD Ly Lx ws) 0%nat 0%nat)))) dx = Ok (grid ny nx (sample dx (trig Ly Lx ws))).
Proof. intros By Bx F. rewrite get_phi_nb by assumption. now apply c94. Qed.

Variables (b : backend R) (p : par) (dx0 : R) (test : bool).
Hypothesis Hb : backend_ok ny nx b.
Local Notation hw := (hw_of b p dx0 test).
Local Notation k := (3 + 2 * pN p)%nat.

Lemma c95 y u v w P Q O Mp Mq Mo PU QU dt :
  args_ok ny nx y (sample dx v) (sample dx w) ->
  smooth k Mp u P -> smooth k Mq v Q -> smooth k Mo w O -> per u -> per v -> per w ->
  (pzon p = true -> antider_y u PU /\ antider_y v QU) ->
  exists lg d, gradient_2d hw y (Some (grid ny nx (sample dx u))) dt dx = (lg, Ok d) /\ exists dn do_, ns_get d "density" = Ok (grid ny nx dn) /\ ns_get d "omega" = Ok (grid ny nx do_) /\
    forall i j, (i < ny)%nat -> (j < nx)%nat ->
      Rabs (dn i j - pde_n p Ly P Q PU QU (Y i) (Y j)) <= err_n p Mp Mq * dx ^ 2 /\
      Rabs (do_ i j - pde_o p Ly P Q O PU QU (Y i) (Y j)) <= err_o p Mp Mq Mo * dx ^ 2.
Proof.
  intros Ha Hu Hv Hw Pu Pv Pw A.
  destruct (c18 b p dx0 test ny nx dx Hy Hx ltac:(lra) Hb y _ _ (sample dx u) dt Ha) as (lg & d & E & En & Eo & _).
  exists lg, d. split; [exact E|]. eexists _, _. split; [exact En|]. split; [exact Eo|]. intros i j Hi Hj. split.
  - now apply rhs_n_smooth.
  - now apply rhs_o_smooth.
Qed.
Lemma c95_solved y ws v Q Mq PU QU dt : Forall (resolved ny nx) ws ->
  let u := trig Ly Lx ws in let P := trigD Ly Lx ws in let O := dlap P in
  args_ok ny nx y (sample dx v) (sample dx (O 0%nat 0%nat)) ->
  smooth k Mq v Q -> per v -> (pzon p = true -> antider_y u PU /\ antider_y v QU) ->
  exists lg d, gradient_2d hw y None dt dx = (lg, Ok d) /\
    exists dn do_, ns_get d "density" = Ok (grid ny nx dn) /\ ns_get d "omega" = Ok (grid ny nx do_) /\
    forall i j, (i < ny)%nat -> (j < nx)%nat ->
      Rabs (dn i j - pde_n p Ly P Q PU QU (Y i) (Y j)) <= err_n p (trigM Ly Lx ws k) Mq * dx ^ 2 /\
      Rabs (do_ i j - pde_o p Ly P Q O PU QU (Y i) (Y j)) <= err_o p (trigM Ly Lx ws k) Mq (2 * trigM Ly Lx ws (2 + k)) * dx ^ 2.
Proof.
  intros F u P O Ha Hv Pv A.
  assert (Hy' : 0 < INR ny) by (now apply INR_pos). assert (Hx' : 0 < INR nx) by (now apply INR_pos).
  assert (N1 : Ly <> 0) by (apply Rmult_integral_contrapositive_currified; lra).
  assert (N2 : Lx <> 0) by (apply Rmult_integral_contrapositive_currified; lra).
  assert (Pu : per u) by (now apply trig_periodic).
  assert (Pw : per (O 0%nat 0%nat)).
  { intros s t. unfold O, P. rewrite !dlap_trig. split; apply wsum_ext; intros w _; f_equal.
    - pose proof (trig_periodic Ly Lx [w] N1 N2 s t) as [X _]. unfold trig in X. cbn in X. lra.
    - pose proof (trig_periodic Ly Lx [w] N1 N2 s t) as [_ X]. unfold trig in X. cbn in X. lra. }
  destruct (c18_no_phi b p dx0 test ny nx dx Hy Hx ltac:(lra) Hb y _ _ dt Ha) as (lg & E & _).
  rewrite E. rewrite (grid_ext ny nx (invlap ny nx dx (sample dx (O 0%nat 0%nat))) (sample dx u)).
  - destruct (c95 y u v (O 0%nat 0%nat) P Q O (trigM Ly Lx ws k) Mq (2 * trigM Ly Lx ws (2 + k)) PU QU dt Ha) as (lg' & d & E' & S); try assumption.
    + apply trig_smooth.
    + apply (smooth_dlap _ _ (trig Ly Lx ws)). apply trig_smooth.
    + rewrite E'. eexists _, d. split; [reflexivity|exact S].
  - intros i j Hi Hj. apply invlap_trig; try assumption. lra.
Qed.
End T.
