(** Property C139: directions: turns, reflections and the background gradient. *)
From Coq Require Import List Arith ZArith Lia Bool Reals Lra Psatz String.
From Verif Require Import Num NdArray NdFacts Spec SumFacts LapFacts GradFacts ModelHW ModelBackend ModelProperties SpecDiag SpecHW SpecPlasma HWFacts StepFacts RhsFacts HWProps BalanceWit SpecZonal ZonalFacts
  SpecTurn TurnFacts TurnTop SpecAdvect AdvectFacts PropAdvect PropScale.
Import ListNotations.
Local Open Scope R_scope.

(** The background gradient reversed: the mirror image in y with the opposite
    sign, for all parameters. *)
Theorem C139_reversed_gradient ny nx dx : (0 < ny)%nat -> (0 < nx)%nat -> dx <> 0 -> forall bk dx0 test, backend_ok ny nx bk ->
  forall step p pl PL n o phi t t2 dt m, step = rk4_step \/ step = euler_step ->
  let T := fun f => fopp (mirror_y ny f) in
  plasma_ok test ny nx pl n o phi t -> agree ny nx phi (invlap ny nx dx o) -> plasma_ok test ny nx PL (T n) (T o) (T phi) t2 ->
  exists pl' PL' n' o' phi',
    snd (steps (fun pl => step (hw_of bk p dx0 test) pl dt dx) m pl) = Ok pl' /\ plasma_ok test ny nx pl' n' o' phi' (t + INR m * dt) /\
    snd (steps (fun pl => step (hw_of bk (with_kappa p (- pkap p)) dx0 test) pl dt dx) m PL) = Ok PL' /\
    plasma_ok test ny nx PL' (T n') (T o') (T phi') (t2 + INR m * dt).
Proof.
  intros Hy Hx Hd bk dx0 test Hb step p pl PL n o phi t t2 dt m Hs T.
  exact (turn_run ny nx ny nx dx p _ T Hy Hx Hy Hx Hd (symm_mirror_y ny nx dx Hy Hx Hd p) bk dx0 test Hb Hb T (fun _ _ _ => eq_refl) step pl PL n o phi t t2 dt m Hs).
Qed.
Print Assumptions C139_reversed_gradient.
(** ... or the fields turned by half a turn. *)
Theorem C139_half_turn ny nx dx : (0 < ny)%nat -> (0 < nx)%nat -> dx <> 0 -> forall bk dx0 test, backend_ok ny nx bk ->
  forall step p pl PL n o phi t t2 dt m, step = rk4_step \/ step = euler_step ->
  let T := half_turn ny nx in
  plasma_ok test ny nx pl n o phi t -> agree ny nx phi (invlap ny nx dx o) -> plasma_ok test ny nx PL (T n) (T o) (T phi) t2 ->
  exists pl' PL' n' o' phi',
    snd (steps (fun pl => step (hw_of bk p dx0 test) pl dt dx) m pl) = Ok pl' /\ plasma_ok test ny nx pl' n' o' phi' (t + INR m * dt) /\
    snd (steps (fun pl => step (hw_of bk (with_kappa p (- pkap p)) dx0 test) pl dt dx) m PL) = Ok PL' /\
    plasma_ok test ny nx PL' (T n') (T o') (T phi') (t2 + INR m * dt).
Proof.
  intros Hy Hx Hd bk dx0 test Hb step p pl PL n o phi t t2 dt m Hs T.
  refine (turn_run ny nx ny nx dx p _ _ Hy Hx Hy Hx Hd (symm_comp _ _ _ _ _ _ _ _ _ _ _ _ (symm_mirror_y ny nx dx Hy Hx Hd p) (symm_mirror ny nx dx _ Hy Hx Hd))
    bk dx0 test Hb Hb T _ step pl PL n o phi t t2 dt m Hs).
  intros f i j. unfold T, half_turn, fopp, mirror, mirror_y. ring.
Qed.
Print Assumptions C139_half_turn.
(** Without a background gradient and with the plain coupling no direction is
    preferred: x and y exchanged, on the exchanged grid, *)
Theorem C139_exchanged_axes ny nx dx : (0 < ny)%nat -> (0 < nx)%nat -> dx <> 0 -> forall bk dx0 test, backend_ok ny nx bk -> backend_ok nx ny bk ->
  forall step p pl PL n o phi t t2 dt m, step = rk4_step \/ step = euler_step -> pkap p = 0 -> pzon p = false ->
  let T := fun f => fopp (transposed f) in
  plasma_ok test ny nx pl n o phi t -> agree ny nx phi (invlap ny nx dx o) -> plasma_ok test nx ny PL (T n) (T o) (T phi) t2 ->
  exists pl' PL' n' o' phi',
    snd (steps (fun pl => step (hw_of bk p dx0 test) pl dt dx) m pl) = Ok pl' /\ plasma_ok test ny nx pl' n' o' phi' (t + INR m * dt) /\
    snd (steps (fun pl => step (hw_of bk p dx0 test) pl dt dx) m PL) = Ok PL' /\
    plasma_ok test nx ny PL' (T n') (T o') (T phi') (t2 + INR m * dt).
Proof.
  intros Hy Hx Hd bk dx0 test Hb Hb2 step p pl PL n o phi t t2 dt m Hs K Z T.
  exact (turn_run ny nx nx ny dx p p T Hy Hx Hx Hy Hd (symm_transposed ny nx dx p Hy Hx Hd K Z) bk dx0 test Hb Hb2 T (fun _ _ _ => eq_refl) step pl PL n o phi t t2 dt m Hs).
Qed.
Print Assumptions C139_exchanged_axes.
(** ... and the fields turned by a right angle. *)
Theorem C139_quarter_turn ny nx dx : (0 < ny)%nat -> (0 < nx)%nat -> dx <> 0 -> forall bk dx0 test, backend_ok ny nx bk -> backend_ok nx ny bk ->
  forall step p pl PL n o phi t t2 dt m, step = rk4_step \/ step = euler_step -> pkap p = 0 -> pzon p = false ->
  let T := quarter_turn ny in
  plasma_ok test ny nx pl n o phi t -> agree ny nx phi (invlap ny nx dx o) -> plasma_ok test nx ny PL (T n) (T o) (T phi) t2 ->
  exists pl' PL' n' o' phi',
    snd (steps (fun pl => step (hw_of bk p dx0 test) pl dt dx) m pl) = Ok pl' /\ plasma_ok test ny nx pl' n' o' phi' (t + INR m * dt) /\
    snd (steps (fun pl => step (hw_of bk p dx0 test) pl dt dx) m PL) = Ok PL' /\
    plasma_ok test nx ny PL' (T n') (T o') (T phi') (t2 + INR m * dt).
Proof.
  intros Hy Hx Hd bk dx0 test Hb Hb2 step p pl PL n o phi t t2 dt m Hs K Z T.
  refine (turn_run ny nx nx ny dx p p _ Hy Hx Hx Hy Hd (symm_comp _ _ _ _ _ _ _ _ _ _ _ _ (symm_transposed ny nx dx p Hy Hx Hd K Z) (symm_mirror nx ny dx p Hx Hy Hd))
    bk dx0 test Hb Hb2 T _ step pl PL n o phi t t2 dt m Hs).
  intros f i j. unfold T, quarter_turn, fopp, mirror, transposed. ring.
Qed.
Print Assumptions C139_quarter_turn.
(** With the gradient the axes cannot be exchanged: it drives the density by
    the y-derivative of the potential only. *)
Theorem C139_axes_with_gradient_refuted : exists p pl PL n o phi pl' PL' n' o' phi' n2 o2 phi2, pzon p = false /\
  plasma_ok true 4 4 pl n o phi 0 /\ agree 4 4 phi (invlap 4 4 1 o) /\ plasma_ok true 4 4 PL (fopp (transposed n)) (fopp (transposed o)) (fopp (transposed phi)) 0 /\
  snd (steps (fun pl => euler_step (hw_of np_backend p 1 true) pl 1 1) 1 pl) = Ok pl' /\ plasma_ok true 4 4 pl' n' o' phi' 1 /\
  snd (steps (fun pl => euler_step (hw_of np_backend p 1 true) pl 1 1) 1 PL) = Ok PL' /\ plasma_ok true 4 4 PL' n2 o2 phi2 1 /\
  n2 1%nat 1%nat <> fopp (transposed n') 1%nat 1%nat.
Proof.
  set (p := mkPar 1 0 0 0 1 false). set (phi := invlap 4 4 1 flow4). set (T := fun f : field => fopp (transposed f)). set (z := fun _ _ : nat => 0).
  assert (Hy : (0 < 4)%nat) by lia. assert (H1 : (1 : R) <> 0) by lra. assert (Hb : backend_ok 4 4 np_backend) by now left.
  assert (A2 : agree 4 4 (T phi) (invlap 4 4 1 (T flow4))).
  { intros i j Hi Hj. unfold T. rewrite invlap_opp by assumption. unfold fopp. now rewrite invlap_transposed. }
  destruct (traj 4 4 1 Hy Hy H1 np_backend 1 true Hb true p (pl0 4 4 z flow4 phi 0) z flow4 phi 0 1 1 (pl0_ok _ _ _ _ _ _ _) (fun _ _ _ _ => eq_refl))
    as (pl' & phi' & S1 & Q1 & _).
  destruct (traj 4 4 1 Hy Hy H1 np_backend 1 true Hb true p (pl0 4 4 (T z) (T flow4) (T phi) 0) (T z) (T flow4) (T phi) 0 1 1 (pl0_ok _ _ _ _ _ _ _) A2)
    as (pl2' & phi2 & S2 & Q2 & _).
  replace (0 + INR 1 * 1) with 1 in Q1, Q2 by (cbn; ring). cbn [iter_step spec_of] in Q1, Q2.
  eexists p, _, _, z, flow4, phi, pl', pl2', _, _, phi', _, _, phi2. split; [reflexivity|].
  split; [apply pl0_ok|]. split; [intros i j _ _; reflexivity|]. split; [apply pl0_ok|]. split; [exact S1|]. split; [exact Q1|]. split; [exact S2|]. split; [exact Q2|].
  unfold euler.
  pose proof (rhs_n_ext p 4 4 1 Hy Hy H1 (invlap 4 4 1 (T flow4)) (T z) (T phi) (T z)
    (fun i j Hi Hj => eq_sym (A2 i j Hi Hj)) (fun _ _ _ _ => eq_refl) 1%nat 1%nat ltac:(lia) ltac:(lia)) as R2.
  change (- 0 + 1 * rhs_n p 4 4 1 (invlap 4 4 1 (T flow4)) (T z) 1 1 <> - (0 + 1 * rhs_n p 4 4 1 phi z 1 1)). rewrite R2.
  unfold rhs_n, hyper. cbn [p pN pc1 pnu ppb pkap]. rewrite !cdy_R. unfold T, fopp, transposed.
  change (sh 4 1 1) with 2%nat. change (sh 4 1 (-1)) with 0%nat. unfold phi, flow4. rewrite !flow_value by lia. cbn [co4].
  set (c := 4 / PI ^ 2). assert (C : 0 < c) by (unfold c; apply Rdiv_lt_0_compat; [lra|]; pose proof PI_RGT_0; nra).
  intros E. ring_simplify in E. lra.
Qed.
Print Assumptions C139_axes_with_gradient_refuted.
(** Transfer rate, energy and enstrophy of exchanged axes and of mirror images
    are the same; the particle flux of the mirror image is reversed. *)
Theorem C139_diagnostics rest ny nx (n p o : frames) c1 dx : (0 < ny)%nat -> (0 < nx)%nat ->
  let fr (f : frames) := Ok (stack rest ny nx f) in
  let tr (f : frames) := Ok (stack rest nx ny (fun r => fopp (transposed (f r)))) in
  let mr (f : frames) := Ok (stack rest ny nx (fun r => fopp (mirror_y ny (f r)))) in
  (get_gamma_c (tr n) (tr p) c1 dx = get_gamma_c (fr n) (fr p) c1 dx /\ get_energy (tr n) (tr p) dx = get_energy (fr n) (fr p) dx /\
   get_enstrophy (tr n) (tr o) dx = get_enstrophy (fr n) (fr o) dx) /\
  get_gamma_c (mr n) (mr p) c1 dx = get_gamma_c (fr n) (fr p) c1 dx /\ get_energy (mr n) (mr p) dx = get_energy (fr n) (fr p) dx /\
  get_enstrophy (mr n) (mr o) dx = get_enstrophy (fr n) (fr o) dx /\ get_gamma_n (mr n) (mr p) dx None = neg_ (get_gamma_n (fr n) (fr p) dx None).
Proof. intros Hy Hx. split; [exact (c139_diag_transposed rest ny nx n p o c1 dx Hy Hx)|exact (c139_diag_mirror_y rest ny nx n p o c1 dx Hy Hx)]. Qed.
Print Assumptions C139_diagnostics.
(** a 2 x 3 grid turned into a 3 x 2 grid: the row 0 becomes the column 0 *)
Example C139_case : let p := mkPar 3 1 0.1 1 0 false in let o := fun i j : nat => row0 i j - 1 / 2 in let phi := invlap 2 3 1 o in let T := quarter_turn 2 in
  pkap p = 0 /\ pzon p = false /\ plasma_ok true 2 3 (pl0 2 3 row0 o phi 0) row0 o phi 0 /\ agree 2 3 phi (invlap 2 3 1 o) /\
  plasma_ok true 3 2 (pl0 3 2 (T row0) (T o) (T phi) 0) (T row0) (T o) (T phi) 0 /\ backend_ok 2 3 np_backend /\ backend_ok 3 2 np_backend /\
  T row0 2%nat 0%nat = 1 /\ T row0 0%nat 1%nat = 0.
Proof.
  cbv zeta. split; [reflexivity|]. split; [reflexivity|]. split; [apply pl0_ok|]. split; [intros ? ? _ _; reflexivity|]. split; [apply pl0_ok|].
  split; [now left|]. split; [now left|]. split; reflexivity.
Qed.
