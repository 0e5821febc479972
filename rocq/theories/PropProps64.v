(** C123: rounding errors of the physical diagnostics, for every order of
    summation, up to the diagnostics of the exact solution. *)
From Coq Require Import List Arith ZArith Reals Lra Lia SpecFloat Bool.
From Verif Require Import Num NdArray ModelGradients ModelProperties ModelHW ModelRun64 ModelProps64 Spec SpecHW SpecFourier SpecRound SpecRoundStep SpecProps64
  RoundFacts RoundCons RoundReal RoundProps Props64Facts Props64Diag Props64Sol Props64Wit.
Import List ListNotations.
Local Open Scope R_scope.
Local Existing Instance NumF64.

(** with numpy's mean summed row by row these are the diagnostics of
    ModelProperties.v, and that order is one of the orders meant here *)
Theorem C123_model : forall (A : Type) (Nm : Num A) (n p o Dn Dp : nd A) (c1 dx : A),
  gamma_n_by mean_last2 n p dx = get_gamma_n n p dx None /\ gamma_c_by mean_last2 n p c1 dx = get_gamma_c n p c1 dx /\
  energy_by mean_last2 n p dx = get_energy n p dx /\ enstrophy_by mean_last2 n o dx = get_enstrophy n o dx /\
  enstrophy_phi_by mean_last2 mean_last2_keep n p dx = get_enstrophy_phi n p dx /\
  DE_by mean_last2 n p Dn Dp = get_DE n p Dn Dp /\ DU_by mean_last2 n o Dn Dp = get_DU n o Dn Dp.
Proof. intros. repeat split. Qed.
Print Assumptions C123_model.
Theorem C123_rows : forall ny nx, INR (ny * nx) <= 2 ^ 50 -> INR (ny + nx) <= 1000000000000 ->
  exists t, sum_of t ny nx /\ (depth t <= ny + nx)%nat /\ forall f : nat -> nat -> f64, mean_last2 (Ok (grid ny nx f)) = mean64 t (Ok (grid ny nx f)).
Proof. exact c123_rows. Qed.
Print Assumptions C123_rows.

(** a mean: cells within [a u X] of real numbers up to [X] *)
Theorem C123_mean : forall t ny nx, (0 < ny)%nat -> (0 < nx)%nat -> sum_of t ny nx -> forall (f : nat -> nat -> f64) (g : nat -> nat -> R) X a,
  (forall i j, (i < ny)%nat -> (j < nx)%nat -> near (f i j) (g i j) (a * uro * X) /\ Rabs (g i j) <= X) ->
  0 <= X -> 0 <= a -> a * uro <= / 1000 -> eta <= uro * X / 1000000 -> 1000000 * X <= 2 ^ 1023 / 2 ^ 60 ->
  exists m, mean64 t (Ok (grid ny nx f)) = sc m /\ near m (gmean ny nx g) ((a + 1.01 * INR (depth t) + 1.1) * uro * X).
Proof. intros t ny nx Hy Hx Ht f g X a H1 H2 H3 H4 H5 H6. exists (mval t ny nx f). split; [reflexivity|]. rewrite <- big_val in H6. now apply mean_near. Qed.
Print Assumptions C123_mean.

(** the diagnostics of binary64 fields against those of the real fields they
    stand for *)
Theorem C123_gamma_n : forall ny nx dx B P n phi, (0 < ny)%nat -> (0 < nx)%nat -> finite64 dx -> scale64 (fval dx) -> scale64 B -> scale64 P ->
  bounded64 ny nx B n -> bounded64 ny nx P phi -> forall t, sum_of t ny nx ->
  exists g, gamma_n_by (mean64 t) (Ok (grid ny nx n)) (Ok (grid ny nx phi)) dx = sc g /\
  near g (flux ny nx (fval dx) (values n) (values phi)) ((1.01 * INR (depth t) + 7) * uro * (B * (P / fval dx))).
Proof. exact gamma_n_near. Qed.
Print Assumptions C123_gamma_n.
Theorem C123_gamma_c : forall ny nx dx B P n phi, (0 < ny)%nat -> (0 < nx)%nat -> scale64 B -> scale64 P ->
  bounded64 ny nx B n -> bounded64 ny nx P phi -> forall t, sum_of t ny nx -> forall c1, finite64 c1 -> Rabs (fval c1) <= 2 ^ 200 ->
  exists g, gamma_c_by (mean64 t) (Ok (grid ny nx n)) (Ok (grid ny nx phi)) c1 dx = sc g /\
  near g (sink ny nx (fval c1) (values n) (values phi)) ((1.01 * INR (depth t) + 6) * uro * (Rabs (fval c1) * ((B + P) * (B + P))) + eta).
Proof. exact gamma_c_near. Qed.
Print Assumptions C123_gamma_c.
Theorem C123_energy : forall ny nx dx B P n phi, (0 < ny)%nat -> (0 < nx)%nat -> finite64 dx -> scale64 (fval dx) -> scale64 B -> scale64 P ->
  bounded64 ny nx B n -> bounded64 ny nx P phi -> forall t, sum_of t ny nx ->
  exists g, energy_by (mean64 t) (Ok (grid ny nx n)) (Ok (grid ny nx phi)) dx = sc g /\
  near g (energy2 ny nx (fval dx) (values n) (values phi)) ((1.01 * INR (depth t) + 14) * uro * ((B * B + 2 * (P / fval dx * (P / fval dx))) / 2)).
Proof. exact energy_near. Qed.
Print Assumptions C123_energy.
Theorem C123_enstrophy : forall ny nx dx B n, (0 < ny)%nat -> (0 < nx)%nat -> scale64 B -> bounded64 ny nx B n -> forall t, sum_of t ny nx ->
  forall o O, scale64 O -> bounded64 ny nx O o ->
  exists g, enstrophy_by (mean64 t) (Ok (grid ny nx n)) (Ok (grid ny nx o)) dx = sc g /\
  near g (enstrophy2 ny nx (values n) (values o)) ((1.01 * INR (depth t) + 6) * uro * ((B + O) * (B + O) / 2)).
Proof. exact enstrophy_near. Qed.
Print Assumptions C123_enstrophy.
(** the two means of get_enstrophy_phi may be summed in different orders *)
Theorem C123_enstrophy_phi : forall ny nx dx B P n phi, (0 < ny)%nat -> (0 < nx)%nat -> finite64 dx -> scale64 (fval dx) -> scale64 B -> scale64 P ->
  bounded64 ny nx B n -> bounded64 ny nx P phi -> forall t, sum_of t ny nx -> forall t', sum_of t' ny nx -> scale64 (P / fval dx ^ 2) ->
  let L := 8 * (P / fval dx ^ 2) in
  exists g, enstrophy_phi_by (mean64 t) (mean64_keep t') (Ok (grid ny nx n)) (Ok (grid ny nx phi)) dx = sc g /\
  near g (enstrophy2 ny nx (values n) (lap5 (N := NumR) ny nx (fval dx) (values phi)))
    ((1.01 * INR (depth t) + 2.1 * INR (depth t') + 34) * uro * ((B + L) * (B + L) / 2)).
Proof. exact enstrophy_phi_near. Qed.
Print Assumptions C123_enstrophy_phi.
Theorem C123_DE : forall ny nx B P n phi, (0 < ny)%nat -> (0 < nx)%nat -> scale64 B -> scale64 P -> bounded64 ny nx B n -> bounded64 ny nx P phi ->
  forall t, sum_of t ny nx -> forall Dn Dp X1 X2, scale64 X1 -> scale64 X2 -> bounded64 ny nx X1 Dn -> bounded64 ny nx X2 Dp ->
  exists g, DE_by (mean64 t) (Ok (grid ny nx n)) (Ok (grid ny nx phi)) (Ok (grid ny nx Dn)) (Ok (grid ny nx Dp)) = sc g /\
  near g (gmean ny nx (fun i j => values n i j * values Dn i j - values phi i j * values Dp i j)) ((1.01 * INR (depth t) + 4) * uro * (B * X1 + P * X2)).
Proof. exact DE_near. Qed.
Print Assumptions C123_DE.
Theorem C123_DU : forall ny nx B n, (0 < ny)%nat -> (0 < nx)%nat -> scale64 B -> bounded64 ny nx B n -> forall t, sum_of t ny nx ->
  forall o O Dn Dp X1 X2, scale64 O -> bounded64 ny nx O o -> scale64 X1 -> scale64 X2 -> bounded64 ny nx X1 Dn -> bounded64 ny nx X2 Dp ->
  exists g, DU_by (mean64 t) (Ok (grid ny nx n)) (Ok (grid ny nx o)) (Ok (grid ny nx Dn)) (Ok (grid ny nx Dp)) = sc g /\
  near g (- gmean ny nx (fun i j => (values n i j - values o i j) * (values Dn i j - values Dp i j))) ((1.01 * INR (depth t) + 5) * uro * ((B + O) * (X1 + X2))).
Proof. exact DU_near. Qed.
Print Assumptions C123_DU.

(** after k steps of the program in binary64: the diagnostics it computes
    against those of the exact solution at that time *)
Theorem C123_solution : forall ny nx dx N c1 nu pb kap zon Y T M, (0 < ny)%nat -> (0 < nx)%nat -> 0 < fval dx ->
  let p := par64 N c1 nu pb kap zon in
  0 <= T -> hw_solution p ny nx (fval dx) Y T -> (forall s, 0 <= s <= T -> sbdd ny nx M (Y s)) ->
  exists C h0, 0 <= C /\ 0 < h0 /\ forall b dx0 Lam B P S d dt, regime ny nx dx b dx0 N c1 nu pb kap zon Lam B P S d dt ->
  fval dt <= h0 -> forall k e n o phi pl a, INR k * fval dt <= T ->
  close64 ny nx e n o (Y 0) -> pot64 ny nx dx P d phi o -> has_fields ny nx pl n o phi a ->
  let E := exp (2 * lip p (fval dx) Lam B * T) * (e + T * (step_err p ny (fval dx) d B S (fval dt) / fval dt)) + C * fval dt ^ 4 in
  1.001 * (M + E) + 1.1 * (fval dt * S) <= B -> Rabs (fval c1) <= 2 ^ 200 ->
  exists lg pl' n' o' phi' a', steps (fun pl => rk4_step (hw64 b dx0 N c1 nu pb kap zon) pl dt dx) k pl = (lg, Ok pl') /\
    has_fields ny nx pl' n' o' phi' a' /\
    forall t, sum_of t ny nx -> diag64 ny nx dx c1 t B P E (Lam * E + d) n' o' phi' (Y (INR k * fval dt)).
Proof. exact c123_solution. Qed.
Print Assumptions C123_solution.

(** ** concrete cases *)
Example C123_hyps : finite64 (f64_ofZ 1) /\ scale64 (fval (f64_ofZ 1)) /\ scale64 (2 ^ 27) /\ bounded64 1 5 (2 ^ 27) five /\ sum_of ones_first 1 5 /\
  scale64 (2 ^ 27 / fval (f64_ofZ 1) ^ 2).
Proof. exact c123_hyps. Qed.
(** the result does depend on the order *)
Example C123_order : sum_of left_to_right 1 5 /\ sum_of ones_first 1 5 /\
  exists a b, enstrophy_by (mean64 left_to_right) (Ok (grid 1 5 five)) (Ok (grid 1 5 zeros)) (f64_ofZ 1) = sc a /\
    enstrophy_by (mean64 ones_first) (Ok (grid 1 5 five)) (Ok (grid 1 5 zeros)) (f64_ofZ 1) = sc b /\ fval a <> fval b.
Proof. exact c123_order. Qed.
(** the setting of the last theorem, on one cell (see C115) *)
Example C123_regime : regime 1 1 one64 cb one64 1 one64 z64 one64 one64 false 0 4 1 16 0 dt64 /\ sum_of (Leaf 0) 1 1 /\ Rabs (fval one64) <= 2 ^ 200.
Proof.
  split; [exact case_regime|]. split; [|destruct one_scale as (_ & E & _); rewrite E, Rabs_R1; apply pow_R1_Rle; lra].
  repeat split; [exact (Permutation.Permutation_refl _)| |cbn; lra]. cbn [Nat.mul Nat.add INR]. apply pow_R1_Rle. lra.
Qed.
