(** Rounding errors of steps and simulations: the setting, and the theorems in
    terms of it. *)
From Coq Require Import List Arith ZArith Reals Lra Lia SpecFloat Bool String.
From Verif Require Import Num NdArray NdFacts ModelGradients ModelArakawa ModelProperties ModelHW ModelBackend ModelSchemes Spec Cplx SpecFourier SpecHW
  HWFacts RkOrder SpecRound RoundFacts RoundStencil RoundHW RoundCons SpecRoundStep RoundReal RoundEval RoundStep.
Import List ListNotations.
Local Open Scope R_scope.
Local Existing Instance NumF64.

(** a plasma with the given fields: keys density, omega, age in this order,
    and phi anywhere *)
Definition has_fields (ny nx : nat) (pl : ns f64) (n o phi : nat -> nat -> f64) (a : f64) : Prop :=
  ns_without "phi" pl = [("density", grid ny nx n); ("omega", grid ny nx o); ("age", scal a)]%string /\
  ns_get pl "phi" = Ok (grid ny nx phi).

(** the object the driver builds, without the conservation test *)
Definition hw64 (b : backend f64) (dx0 : f64) (N : nat) (c1 nu pb kap : f64) (zon : bool) : hw f64 :=
  hw_init b dx0 (Z.of_nat N) c1 nu pb kap zon false.
Definition par64 (N : nat) (c1 nu pb kap : f64) (zon : bool) : par := mkPar N (fval c1) (fval nu) (fval pb) (fval kap) zon.

(** the setting: finite parameters; fields up to size [B], potentials up to
    [P], sums of the terms of the time derivatives up to [S], all far from
    overflow and underflow; a solver with errors up to [d]; a step length with
    dt * (Lipschitz constant) <= 1 *)
Record regime (ny nx : nat) (dx : f64) (b : backend f64) (dx0 : f64) (N : nat) (c1 nu pb kap : f64) (zon : bool)
    (Lam B P S d : R) (dt : f64) : Prop := {
  rg_y : (0 < ny)%nat; rg_x : (0 < nx)%nat; rg_dx : finite64 dx; rg_sdx : scale64 (fval dx);
  rg_b : exists solver, b = np_schemes solver \/ b = nb_schemes solver;
  rg_c1 : finite64 c1; rg_nu : finite64 nu; rg_pb : finite64 pb; rg_kap : finite64 kap;
  rg_N : INR N <= 1000000; rg_ny : zon = true -> INR ny <= 1000000;
  rg_L : 0 <= Lam; rg_Lam : inv_bound ny nx (fval dx) Lam;
  rg_B : scale64 B; rg_P : scale64 P; rg_S : scale64 S;
  rg_g : forall k, (k < N)%nat -> scale64 ((8.01 / fval dx ^ 2) ^ k * B);
  rg_LB : Lam * B <= P; rg_size : size_n (par64 N c1 nu pb kap zon) (fval dx) P B <= S;
  rg_d : 0 <= d <= P / 1000;
  rg_sol : solves64 ny nx dx (fun om dx => snd (hw_get_phi (hw64 b dx0 N c1 nu pb kap zon) om dx)) B P d;
  rg_dt : finite64 dt; rg_sdt : scale64 (fval dt);
  rg_tL : fval dt * lip (par64 N c1 nu pb kap zon) (fval dx) Lam B <= 1 }.

Section P.
Variables (ny nx : nat) (dx : f64) (b : backend f64) (dx0 : f64) (N : nat) (c1 nu pb kap : f64) (zon : bool) (Lam B P S d : R) (dt : f64).
Hypothesis Rg : regime ny nx dx b dx0 N c1 nu pb kap zon Lam B P S d dt.
Local Notation p := (par64 N c1 nu pb kap zon).
Local Notation F := (hw_rhs p ny nx (fval dx)).
Local Notation err := (step_err p ny (fval dx) d B S (fval dt)).

Lemma c115_step B0 n o phi pl a : 1.001 * B0 + 1.1 * (fval dt * S) <= B ->
  bounded64 ny nx B0 n -> bounded64 ny nx B0 o -> pot64 ny nx dx P d phi o -> has_fields ny nx pl n o phi a ->
  exists lg pl' n' o' phi', rk4_step (hw64 b dx0 N c1 nu pb kap zon) pl dt dx = (lg, Ok pl') /\
    has_fields ny nx pl' n' o' phi' (nadd a dt) /\ pot64 ny nx dx P d phi' o' /\
    close64 ny nx err n' o' (rk4 F (fval dt) (values n, values o)).
Proof.
  destruct Rg as [H1 H2 H3 H4 (solver & H5) H6 H7 H8 H9 H10 H11 H12 H13 H14 H15 H16 H17 H18 H19 H20 H21 H22 H23 H24].
  intros HB Bn Bo Hp Hf.
  destruct (rk4_round ny nx dx H1 H2 H3 H4 solver b dx0 N c1 nu pb kap zon H5 H6 H7 H8 H9 H10 H11 Lam B P S d H12 H13 H14 H15 H16 H17 H18 H19 H20 H21
    dt H22 H23 B0 HB H24 n o phi Bn Bo Hp pl a Hf) as (lg & pl' & n' & o' & phi' & E & Hh & _ & _ & Q & Ner).
  exists lg, pl', n', o', phi'. split; [exact E|]. split; [exact Hh|]. split; [exact Q|exact Ner].
Qed.
Lemma c115_run A0 e k n o phi pl a y : close64 ny nx e n o y -> pot64 ny nx dx P d phi o -> has_fields ny nx pl n o phi a ->
  stays ny nx A0 (rk4 F (fval dt)) k y ->
  let E := (1 + 2 * (fval dt * lip p (fval dx) Lam B)) ^ k * (e + INR k * err) in
  1.001 * (A0 + E) + 1.1 * (fval dt * S) <= B ->
  exists lg pl' n' o' phi' a', steps (fun pl => rk4_step (hw64 b dx0 N c1 nu pb kap zon) pl dt dx) k pl = (lg, Ok pl') /\
    has_fields ny nx pl' n' o' phi' a' /\ pot64 ny nx dx P d phi' o' /\ close64 ny nx E n' o' (iter_step (rk4 F (fval dt)) k y).
Proof.
  destruct Rg as [H1 H2 H3 H4 (solver & H5) H6 H7 H8 H9 H10 H11 H12 H13 H14 H15 H16 H17 H18 H19 H20 H21 H22 H23 H24].
  intros C Hp Hf Hs E HB.
  destruct (run_round ny nx dx H1 H2 H3 H4 solver b dx0 N c1 nu pb kap zon H5 H6 H7 H8 H9 H10 H11 Lam B P S d H12 H13 H14 H15 H16 H17 H18 H19 H20 H21
    dt H22 H23 H24 A0 k pl n o phi a y e Hf C Hp Hs HB) as (lg & pl' & n' & o' & phi' & a' & E1 & Hh & Cl & Q).
  exists lg, pl', n', o', phi', a'. split; [exact E1|]. split; [exact Hh|]. split; [exact Q|exact Cl].
Qed.
End P.

Lemma c115_solution ny nx dx N c1 nu pb kap zon Y T M : (0 < ny)%nat -> (0 < nx)%nat -> 0 < fval dx ->
  let p := par64 N c1 nu pb kap zon in
  0 <= T -> hw_solution p ny nx (fval dx) Y T -> (forall s, 0 <= s <= T -> sbdd ny nx M (Y s)) ->
  exists C h0, 0 <= C /\ 0 < h0 /\ forall b dx0 Lam B P S d dt, regime ny nx dx b dx0 N c1 nu pb kap zon Lam B P S d dt ->
  fval dt <= h0 -> forall k e n o phi pl a, INR k * fval dt <= T ->
  close64 ny nx e n o (Y 0) -> pot64 ny nx dx P d phi o -> has_fields ny nx pl n o phi a ->
  let E := exp (2 * lip p (fval dx) Lam B * T) * (e + T * (step_err p ny (fval dx) d B S (fval dt) / fval dt)) + C * fval dt ^ 4 in
  1.001 * (M + E) + 1.1 * (fval dt * S) <= B ->
  exists lg pl' n' o' phi' a', steps (fun pl => rk4_step (hw64 b dx0 N c1 nu pb kap zon) pl dt dx) k pl = (lg, Ok pl') /\
    has_fields ny nx pl' n' o' phi' a' /\ pot64 ny nx dx P d phi' o' /\ close64 ny nx E n' o' (Y (INR k * fval dt)).
Proof.
  intros Hy Hx Hh p HT HY HM. destruct (rk4_global_hw p ny nx (fval dx) Hy Hx ltac:(lra) Y T HT HY) as (C & h0 & HC & Hh0 & HG).
  exists C, h0. split; [exact HC|]. split; [exact Hh0|]. intros b dx0 Lam B P S d dt Rg Hdt k e n o phi pl a Hk Cl Hp Hf E HB.
  destruct Rg as [H1 H2 H3 H4 (solver & H5) H6 H7 H8 H9 H10 H11 H12 H13 H14 H15 H16 H17 H18 H19 H20 H21 H22 H23 H24].
  destruct (run_solution ny nx dx H1 H2 H3 H4 solver b dx0 N c1 nu pb kap zon H5 H6 H7 H8 H9 H10 H11 Lam B P S d H12 H13 H14 H15 H16 H17 H18 H19 H20 H21
    dt H22 H23 H24 C h0 Y T M k pl n o phi a e HG HC HM Hdt Hk Hf Cl Hp) as (lg & pl' & n' & o' & phi' & a' & E1 & Hh' & Cl' & Q).
  - change (mkPar N (fval c1) (fval nu) (fval pb) (fval kap) zon) with p. unfold E in HB. lra.
  - exists lg, pl', n', o', phi', a'. split; [exact E1|]. split; [exact Hh'|]. split; [exact Q|exact Cl'].
Qed.

(** ** a concrete case: one cell, spacing 1, step 1/32, density 1, vorticity 2;
    density and vorticity both change at the rate - density *)
Definition z64 : f64 := f64_ofZ 0.
Definition dt64 : f64 := S754_finite false 4503599627370496 (-57).
Definition zsolver : nd f64 -> f64 -> nd f64 := fun _ _ => Ok (grid 1 1 (fun _ _ => z64)).
Definition cn : nat -> nat -> f64 := fun _ _ => one64.
Definition co : nat -> nat -> f64 := fun _ _ => f64_ofZ 2.
Definition cpl : ns f64 := [("density", grid 1 1 cn); ("omega", grid 1 1 co); ("phi", grid 1 1 (fun _ _ => z64)); ("age", scal z64)]%string.
Definition cb := np_schemes zsolver.

Lemma invlap11 d f i j : invlap 1 1 d f i j = 0.
Proof.
  unfold invlap, idft2. cbn [csum Nat.eqb andb]. unfold Cscal, Cadd, Cmul, C0. cbn [re im]. ring.
Qed.
Lemma dt64_val : fval dt64 = / 32 /\ finite64 dt64.
Proof.
  split; [|split; [vm_compute; reflexivity|exact I]]. unfold dt64, fval, two. cbn [powerRZ]. replace (Pos.to_nat 57) with 57%nat by reflexivity. lra.
Qed.
Lemma sc1 x : / 1000000 <= x <= 1000000 -> scale64 x.
Proof.
  intros [A C]. unfold scale64. assert (H : 2 ^ 20 <= 2 ^ 200) by (apply Rle_pow; [lra|lia]).
  assert (1000000 <= 2 ^ 20) by lra. assert (/ 2 ^ 200 <= / 2 ^ 20) by (apply Rinv_le_contravar; lra).
  assert (/ 2 ^ 20 <= / 1000000) by (apply Rinv_le_contravar; lra). lra.
Qed.
Lemma z64_ok : finite64 z64 /\ fval z64 = 0.
Proof. split; [split; [vm_compute; reflexivity|exact I]|reflexivity]. Qed.
Lemma two_ok : finite64 (f64_ofZ 2) /\ fval (f64_ofZ 2) = 2.
Proof. destruct (ofZ_exact 2) as [A C]; [lia|]. split; assumption. Qed.
Lemma pot11 o : pot64 1 1 one64 1 0 (fun _ _ => z64) o.
Proof.
  destruct z64_ok as [A C]. split; [intros i j _ _; split; [exact A|rewrite C, Rabs_R0; lra]|].
  intros i j _ _. split; [exact A|]. rewrite C, invlap11, Rminus_0_r, Rabs_R0. lra.
Qed.
Lemma case_regime : regime 1 1 one64 cb one64 1 one64 z64 one64 one64 false 0 4 1 16 0 dt64.
Proof.
  destruct one_scale as (A1 & A2 & A3). destruct dt64_val as [D1 D2]. destruct z64_ok as [Z1 Z2].
  constructor; try assumption; try lia; try lra; try (apply sc1; lra).
  - exists zsolver. now left.
  - cbn. lra.
  - intros f c Hf i j _ _. rewrite invlap11, Rabs_R0. lra.
  - intros k Hk. replace k with 0%nat by lia. cbn [pow]. rewrite Rmult_1_l. apply sc1. lra.
  - unfold size_n, size_c, par64. cbn [pN pc1 pnu ppb pkap pzon]. rewrite A2, Z2, !Rabs_R1, Rabs_R0. lra.
  - intros om Hom. exists (fun _ _ => z64). split; [reflexivity|apply pot11].
  - rewrite D1. unfold lip, par64. cbn [pN pc1 pnu ppb pkap pzon]. rewrite A2, Z2, !Rabs_R1, Rabs_R0. lra.
Qed.
Lemma case_start : has_fields 1 1 cpl cn co (fun _ _ => z64) z64 /\ bounded64 1 1 3 cn /\ bounded64 1 1 3 co /\ 1.001 * 3 + 1.1 * (fval dt64 * 16) <= 4.
Proof.
  destruct one_scale as (A1 & A2 & _). destruct two_ok as [B1 B2]. destruct dt64_val as [D1 _].
  split; [split; reflexivity|]. split; [intros i j _ _; split; [exact A1|]; unfold cn; rewrite A2, Rabs_R1; lra|].
  split; [intros i j _ _; split; [exact B1|]; unfold co; rewrite B2, Rabs_right; lra|]. rewrite D1. lra.
Qed.
Lemma c115_lipschitz p ny nx h : (0 < ny)%nat -> (0 < nx)%nat -> 0 < h ->
  exists Lam, 0 <= Lam /\ inv_bound ny nx h Lam /\
  forall B y z e, sbdd ny nx B y -> sbdd ny nx B z -> within ny nx e y z ->
    within ny nx (lip p h Lam B * e) (hw_rhs p ny nx h y) (hw_rhs p ny nx h z).
Proof.
  intros Hy Hx Hh. destruct (inv_bound_exists ny nx h Hy Hx Hh) as (Lam & H0 & HL). exists Lam. split; [exact H0|]. split; [exact HL|].
  intros B y z e. now apply F_lip.
Qed.
Lemma rhs11 n o i j : fst (hw_rhs (par64 1 one64 z64 one64 one64 false) 1 1 1 (n, o)) i j = - n i j.
Proof.
  destruct one_scale as (_ & A2 & _). destruct z64_ok as [_ Z2].
  unfold hw_rhs, rhs_n, hyper, coupling, par64. cbn [fst snd pN pc1 pnu ppb pkap pzon]. rewrite A2, Z2.
  replace (jacobian 1 1 1 (invlap 1 1 1 o) n i j) with 0.
  2:{ unfold jacobian, jac_pp, jac_px, jac_xp. rewrite !invlap11. field. }
  replace (cdy 1 1 (invlap 1 1 1 o) i j) with 0.
  2:{ unfold cdy. rewrite !invlap11. cbn. field. }
  rewrite invlap11. ring.
Qed.
Lemma rk4_11 n o i j : fst (rk4 (hw_rhs (par64 1 one64 z64 one64 one64 false) 1 1 1) (/ 32) (n, o)) i j = 24391553 / 25165824 * n i j.
Proof.
  unfold rk4, rk4_from, sadd, sscale, fadd, fscale. cbn [fst snd].
  rewrite !rhs11. field.
Qed.
Lemma c115_case : exists lg pl' n' o' phi', rk4_step (hw64 cb one64 1 one64 z64 one64 one64 false) cpl dt64 one64 = (lg, Ok pl') /\
  has_fields 1 1 pl' n' o' phi' dt64 /\
  n' 0%nat 0%nat = S754_finite false 8730076869470891 (-53) /\ o' 0%nat 0%nat = S754_finite false 8868638062105941 (-52) /\
  fst (rk4 (hw_rhs (par64 1 one64 z64 one64 one64 false) 1 1 1) (/ 32) (values cn, values co)) 0%nat 0%nat = 24391553 / 25165824 /\
  fval (n' 0%nat 0%nat) <> 24391553 / 25165824.
Proof.
  exists (fst (rk4_step (hw64 cb one64 1 one64 z64 one64 one64 false) cpl dt64 one64)).
  exists [("density", grid 1 1 (fun _ _ => S754_finite false 8730076869470891 (-53))); ("omega", grid 1 1 (fun _ _ => S754_finite false 8868638062105941 (-52)));
          ("age", scal dt64); ("phi", grid 1 1 (fun _ _ => z64))]%string.
  exists (fun _ _ => S754_finite false 8730076869470891 (-53)), (fun _ _ => S754_finite false 8868638062105941 (-52)), (fun _ _ => z64).
  split; [vm_compute; reflexivity|]. split; [split; reflexivity|]. split; [reflexivity|]. split; [reflexivity|]. split.
  - rewrite rk4_11. unfold values, cn. destruct one_scale as (_ & A2 & _). rewrite A2. field.
  - unfold fval, two. cbn [powerRZ]. replace (Pos.to_nat 53) with 53%nat by reflexivity. cbn [pow]. lra.
Qed.
