(** Properties C93-C95: accuracy of the stencils, of the Poisson solver and of
    the right-hand side against the partial differential equations. *)
From Coq Require Import List Arith ZArith Lia Bool Reals Lra String.
From Verif Require Import Num NdArray ModelGradients ModelArakawa ModelPoisson ModelHW ModelBackend Spec SpecHW SpecPlasma PoissonProps
  BalanceWit SpecSmooth WaveFacts SmoothTop.
Import List ListNotations.
Local Open Scope R_scope.

(** C93: on samples of a smooth periodic field the stencils are accurate to
    second order in the grid spacing, with explicit constants. *)
Theorem C93_gradient ny nx dx : (0 < ny)%nat -> (0 < nx)%nat -> 0 < dx ->
  forall M u D (axis : Z), smooth 3 M u D -> periodic (INR ny * dx) (INR nx * dx) u -> (axis = 0 \/ axis = 1)%Z ->
  exists g, np_periodic_gradient (Ok (grid ny nx (sample dx u))) dx axis = Ok (Some (grid ny nx g)) /\
    nb_periodic_gradient (Ok (grid ny nx (sample dx u))) dx axis = Ok (Some (grid ny nx g)) /\
    forall i j, (i < ny)%nat -> (j < nx)%nat ->
      Rabs (g i j - (if (axis =? 0)%Z then D 1%nat 0%nat else D 0%nat 1%nat) (INR i * dx) (INR j * dx)) <= M * dx ^ 2 / 6.
Proof. exact (c93_gradient ny nx dx). Qed.
Print Assumptions C93_gradient.
Theorem C93_laplace ny nx dx : (0 < ny)%nat -> (0 < nx)%nat -> 0 < dx ->
  forall M u D (n : nat), smooth (2 + 2 * n) M u D -> periodic (INR ny * dx) (INR nx * dx) u ->
  exists g, nb_periodic_laplace_N (Ok (grid ny nx (sample dx u))) dx (Z.of_nat n) = Ok (grid ny nx g) /\
    np_periodic_laplace_N (Ok (grid ny nx (sample dx u))) dx (Z.of_nat n) = Ok (grid ny nx g) /\
    forall i j, (i < ny)%nat -> (j < nx)%nat ->
      Rabs (g i j - dlap_iter n D 0%nat 0%nat (INR i * dx) (INR j * dx)) <= INR n * 2 ^ n / 12 * M * dx ^ 2.
Proof. exact (c93_laplace ny nx dx). Qed.
Print Assumptions C93_laplace.
Theorem C93_bracket ny nx dx : (0 < ny)%nat -> (0 < nx)%nat -> 0 < dx ->
  forall Mp Mq u v P Q, smooth 3 Mp u P -> smooth 3 Mq v Q ->
  periodic (INR ny * dx) (INR nx * dx) u -> periodic (INR ny * dx) (INR nx * dx) v ->
  exists g, (forall junk, np_periodic_arakawa junk (Ok (grid ny nx (sample dx u))) (Ok (grid ny nx (sample dx v))) dx = Ok (grid ny nx g)) /\
    np_periodic_arakawa_vec (Ok (grid ny nx (sample dx u))) (Ok (grid ny nx (sample dx v))) dx = Ok (grid ny nx g) /\
    nb_periodic_arakawa_vec (Ok (grid ny nx (sample dx u))) (Ok (grid ny nx (sample dx v))) dx = Ok (grid ny nx g) /\
    nb_periodic_arakawa (Ok (grid ny nx (sample dx u))) (Ok (grid ny nx (sample dx v))) dx = Ok (grid ny nx g) /\
    nb_periodic_arakawa_stencil (Ok (grid ny nx (sample dx u))) (Ok (grid ny nx (sample dx v))) dx = Ok (grid ny nx g) /\
    forall i j, (i < ny)%nat -> (j < nx)%nat -> Rabs (g i j - bracket P Q (INR i * dx) (INR j * dx)) <= 4 * Mp * Mq * dx ^ 2.
Proof. exact (c93_bracket ny nx dx). Qed.
Print Assumptions C93_bracket.
(** every finite sum of waves meets the hypotheses, for all orders *)
Example C93_waves Ly Lx ws k : Ly <> 0 -> Lx <> 0 ->
  smooth k (trigM Ly Lx ws k) (trig Ly Lx ws) (trigD Ly Lx ws) /\ periodic Ly Lx (trig Ly Lx ws).
Proof. intros. split; [apply trig_smooth|now apply trig_periodic]. Qed.
(** for instance sin x on 4 x 4 cells of size pi/2, whose x-derivative cos x
    the program returns exactly up to the factor 2/pi at x = 0 *)
Example C93_value : cdx 4 (PI / 2) (sample (PI / 2) (fun _ x => sin x)) 0 0 = 2 / PI.
Proof.
  unfold cdx, sample. cbn [ndiv nsub nmul nofZ NumR]. change (sh 4 0 1) with 1%nat. change (sh 4 0 (-1)) with 3%nat.
  cbn [INR]. replace (1 * (PI / 2)) with (PI / 2) by ring. replace ((1 + 1 + 1) * (PI / 2)) with (3 * (PI / 2)) by ring.
  rewrite sin_PI2, sin_3PI2. pose proof PI_RGT_0. field. lra.
Qed.

(** C94: on resolved waves get_phi inverts the continuous Laplacian exactly. *)
Theorem C94_get_phi_exact ny nx dx : (0 < ny)%nat -> (0 < nx)%nat -> 0 < dx -> forall ws, Forall (resolved ny nx) ws ->
  get_phi (fun t dx => np_fourier_poisson_double t dx 1)
    (Ok (grid ny nx (sample dx (dlap (trigD (INR ny * dx) (INR nx * dx) ws) 0%nat 0%nat)))) dx =
  Ok (grid ny nx (sample dx (trig (INR ny * dx) (INR nx * dx) ws))).
Proof. exact (c94 ny nx dx). Qed.
Print Assumptions C94_get_phi_exact.
Theorem C94_get_phi_exact_numba ny nx dx : (0 < ny)%nat -> (0 < nx)%nat -> 0 < dx -> forall ws,
  (Z.of_nat ny <= 65536)%Z -> (Z.of_nat nx <= 65536)%Z -> Forall (resolved ny nx) ws ->
  get_phi (fun t dx => nb_fourier_poisson_double t dx 1)
    (Ok (grid ny nx (sample dx (dlap (trigD (INR ny * dx) (INR nx * dx) ws) 0%nat 0%nat)))) dx =
  Ok (grid ny nx (sample dx (trig (INR ny * dx) (INR nx * dx) ws))).
Proof. exact (c94_nb ny nx dx). Qed.
Print Assumptions C94_get_phi_exact_numba.
(** -(1 + 4) cos(y + 2 x) is the Laplacian of cos(y + 2 x), which 3 x 5 cells resolve *)
Definition w12 : cwave := mkWave 1 0 1 2.
Example C94_example : resolved 3 5 w12 /\
  forall y x, trig (2 * PI) (2 * PI) [w12] y x = cos (y + 2 * x) /\
              dlap (trigD (2 * PI) (2 * PI) [w12]) 0%nat 0%nat y x = - 5 * cos (y + 2 * x).
Proof.
  split; [unfold resolved; cbn; lia|]. intros y x. pose proof PI_RGT_0.
  assert (E : kyw (2 * PI) w12 * y + kxw (2 * PI) w12 * x + wth w12 = y + 2 * x) by (unfold kyw, kxw; cbn; field; lra).
  split.
  - unfold trig, wave. cbn [wsum fold_right]. rewrite E. cbn. ring.
  - unfold dlap, trigD, wave. cbn [wsum fold_right Nat.add INR pow]. cbn [wA wth w12].
    unfold kyw, kxw. cbn [wk wl w12].
    replace (2 * PI * 1 / (2 * PI) * y + 2 * PI * 2 / (2 * PI) * x + (0 + (1 + 1) * (PI / 2))) with (y + 2 * x + PI) by (field; lra).
    rewrite neg_cos. field. lra.
Qed.

(** C95: the right-hand side the program computes is the one of the partial
    differential equations up to an explicit multiple of dx^2 - for a given
    potential ... *)
Theorem C95_gradient_given_phi ny nx dx : (0 < ny)%nat -> (0 < nx)%nat -> 0 < dx ->
  forall b p dx0 test, backend_ok ny nx b -> forall y u v w P Q O Mp Mq Mo PU QU dt,
  args_ok ny nx y (sample dx v) (sample dx w) ->
  smooth (3 + 2 * pN p) Mp u P -> smooth (3 + 2 * pN p) Mq v Q -> smooth (3 + 2 * pN p) Mo w O ->
  periodic (INR ny * dx) (INR nx * dx) u -> periodic (INR ny * dx) (INR nx * dx) v -> periodic (INR ny * dx) (INR nx * dx) w ->
  (pzon p = true -> antider_y u PU /\ antider_y v QU) ->
  exists lg d, gradient_2d (hw_of b p dx0 test) y (Some (grid ny nx (sample dx u))) dt dx = (lg, Ok d) /\
    exists dn do_, ns_get d "density" = Ok (grid ny nx dn) /\ ns_get d "omega" = Ok (grid ny nx do_) /\
    forall i j, (i < ny)%nat -> (j < nx)%nat ->
      Rabs (dn i j - pde_n p (INR ny * dx) P Q PU QU (INR i * dx) (INR j * dx)) <= err_n p Mp Mq * dx ^ 2 /\
      Rabs (do_ i j - pde_o p (INR ny * dx) P Q O PU QU (INR i * dx) (INR j * dx)) <= err_o p Mp Mq Mo * dx ^ 2.
Proof. exact (c95 ny nx dx). Qed.
Print Assumptions C95_gradient_given_phi.
(** ... and, when the program solves for the potential itself, for every
    vorticity that is the Laplacian of a resolved wave sum. *)
Theorem C95_gradient_solved ny nx dx : (0 < ny)%nat -> (0 < nx)%nat -> 0 < dx ->
  forall b p dx0 test, backend_ok ny nx b -> forall y ws v Q Mq PU QU dt, Forall (resolved ny nx) ws ->
  let u := trig (INR ny * dx) (INR nx * dx) ws in let P := trigD (INR ny * dx) (INR nx * dx) ws in let O := dlap P in
  args_ok ny nx y (sample dx v) (sample dx (O 0%nat 0%nat)) ->
  smooth (3 + 2 * pN p) Mq v Q -> periodic (INR ny * dx) (INR nx * dx) v -> (pzon p = true -> antider_y u PU /\ antider_y v QU) ->
  exists lg d, gradient_2d (hw_of b p dx0 test) y None dt dx = (lg, Ok d) /\
    exists dn do_, ns_get d "density" = Ok (grid ny nx dn) /\ ns_get d "omega" = Ok (grid ny nx do_) /\
    forall i j, (i < ny)%nat -> (j < nx)%nat ->
      Rabs (dn i j - pde_n p (INR ny * dx) P Q PU QU (INR i * dx) (INR j * dx))
        <= err_n p (trigM (INR ny * dx) (INR nx * dx) ws (3 + 2 * pN p)) Mq * dx ^ 2 /\
      Rabs (do_ i j - pde_o p (INR ny * dx) P Q O PU QU (INR i * dx) (INR j * dx))
        <= err_o p (trigM (INR ny * dx) (INR nx * dx) ws (3 + 2 * pN p)) Mq (2 * trigM (INR ny * dx) (INR nx * dx) ws (2 + (3 + 2 * pN p))) * dx ^ 2.
Proof. exact (c95_solved ny nx dx). Qed.
Print Assumptions C95_gradient_solved.
(** the hypotheses hold for density and vorticity made of resolved waves; an
    antiderivative in y of cos(x) is y cos(x) *)
Example C95_nonvacuous :
  let L := INR 5 * (2 * PI / 5) in
  args_ok 5 5 (kw 5 5 (sample (2 * PI / 5) (trig L L [w12])) (sample (2 * PI / 5) (dlap (trigD L L [w12]) 0%nat 0%nat)))
    (sample (2 * PI / 5) (trig L L [w12])) (sample (2 * PI / 5) (dlap (trigD L L [w12]) 0%nat 0%nat)) /\
  Forall (resolved 5 5) [w12] /\ backend_ok 5 5 np_backend /\ antider_y (fun y x => cos x) (fun y x => cos x * y).
Proof.
  split; [apply kw_ok|]. split; [constructor; [unfold resolved; cbn; lia|constructor]|]. split; [now left|].
  intros y x. cbn beta. apply SmoothFacts.dpl_eq with (cos x * 1); [|ring].
  apply (SmoothFacts.dpl_scal (cos x) (fun s => s)). apply SmoothFacts.dpl_id.
Qed.
