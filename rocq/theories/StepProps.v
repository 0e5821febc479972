(** C20 and C57 for the code's steps; a solution of the system used as a witness. *)
From Coq Require Import List Arith ZArith Lia Bool Reals Lra Psatz String Permutation.
From Verif Require Import Num NdArray NdFacts ModelGradients Spec GradFacts SumFacts LapFacts GradProps
  ModelArakawa ArakawaFacts Cplx DftFacts SpecFourier ModelPoisson PoissonFacts PoissonProps
  ModelProperties ModelHW ModelBackend SpecHW SpecPlasma HWFacts StepFacts RhsFacts SymFacts HWProps BalanceProps BalanceWit RkOrder.
Import ListNotations.
Local Open Scope R_scope.

Section P.
Variables (b : backend R) (p : par) (dx0 : R) (test : bool) (ny nx : nat) (dx : R).
Hypothesis Hy : (0 < ny)%nat.
Hypothesis Hx : (0 < nx)%nat.
Hypothesis Hd : dx <> 0.
Hypothesis Hb : backend_ok ny nx b.
Local Notation h := (hw_of b p dx0 test).
Local Notation agree := (agree ny nx).
Local Notation sagree := (sagree ny nx).
Local Notation plasma_ok := (plasma_ok test ny nx).

Lemma c20_taylor pl n o phi a c : plasma_ok pl n o phi a -> agree phi (invlap ny nx dx o) ->
  hw_taylor p ny nx dx c (n, o) ->
  exists q : list state, (forall k, (k <= 4)%nat -> nth k q szero = c k) /\
    forall dt, exists pl' n' o' phi', snd (rk4_step h pl dt dx) = Ok pl' /\ plasma_ok pl' n' o' phi' (a + dt) /\
      (n', o') = ssum (List.length q) (fun k => sscale (dt ^ k) (nth k q szero)).
Proof.
  intros Hpl Hphi Hc. destruct (rk4_taylor p ny nx dx Hy Hx Hd (n, o) c Hc) as (q & Hq & E).
  exists q. split; [exact Hq|]. intros dt.
  destruct (rk4_step_grid b p dx0 test ny nx dx Hy Hx (backend_acts ny nx b dx (pN p) Hy Hx Hd Hb) pl n o phi a dt Hpl Hphi) as (pl' & E' & P & _).
  eexists pl', _, _, _. rewrite E'. split; [reflexivity|]. split; [exact P|]. now rewrite <- surjective_pairing.
Qed.
Lemma c20_linear pl n o phi a dt : ppb p = 0 -> plasma_ok pl n o phi a -> agree phi (invlap ny nx dx o) ->
  exists pl' n' o' phi', snd (rk4_step h pl dt dx) = Ok pl' /\ plasma_ok pl' n' o' phi' (a + dt) /\
    (n', o') = ssum 5 (fun k => sscale (dt ^ k / INR (fact k)) (Nat.iter k (hw_rhs p ny nx dx) (n, o))).
Proof.
  intros Hp Hpl Hphi.
  destruct (rk4_step_grid b p dx0 test ny nx dx Hy Hx (backend_acts ny nx b dx (pN p) Hy Hx Hd Hb) pl n o phi a dt Hpl Hphi) as (pl' & E' & P & _).
  eexists pl', _, _, _. rewrite E'. split; [reflexivity|]. split; [exact P|]. rewrite <- surjective_pairing. now apply rk4_linear.
Qed.
Lemma c20_local Y T pl phi a : 0 <= T -> hw_solution p ny nx dx Y T ->
  plasma_ok pl (fst (Y 0)) (snd (Y 0)) phi a -> agree phi (invlap ny nx dx (snd (Y 0))) ->
  exists C, 0 <= C /\ forall dt, 0 <= dt <= T -> dt <= 1 ->
    exists pl' n' o' phi', snd (rk4_step h pl dt dx) = Ok pl' /\ plasma_ok pl' n' o' phi' (a + dt) /\
      within ny nx (C * dt ^ 5) (n', o') (Y dt).
Proof.
  intros HT HY Hpl Hphi. destruct (rk4_local_hw p ny nx dx Hy Hx Hd Y T HT HY) as (C & HC & HL).
  exists C. split; [exact HC|]. intros dt Hdt H1.
  destruct (rk4_step_grid b p dx0 test ny nx dx Hy Hx (backend_acts ny nx b dx (pN p) Hy Hx Hd Hb) pl _ _ phi a dt Hpl Hphi) as (pl' & E' & P & _).
  eexists pl', _, _, _. rewrite E'. split; [reflexivity|]. split; [exact P|].
  rewrite <- !surjective_pairing. now apply HL.
Qed.
Lemma c20_global Y T pl phi a : 0 <= T -> hw_solution p ny nx dx Y T ->
  plasma_ok pl (fst (Y 0)) (snd (Y 0)) phi a -> agree phi (invlap ny nx dx (snd (Y 0))) ->
  exists C h0, 0 <= C /\ 0 < h0 /\ forall dt k, 0 < dt <= h0 -> INR k * dt <= T ->
    exists pl' n' o' phi', snd (steps (fun pl => rk4_step h pl dt dx) k pl) = Ok pl' /\
      plasma_ok pl' n' o' phi' (a + INR k * dt) /\ within ny nx (C * dt ^ 4) (n', o') (Y (INR k * dt)).
Proof.
  intros HT HY Hpl Hphi. destruct (rk4_global_hw p ny nx dx Hy Hx Hd Y T HT HY) as (C & h0 & HC & Hh & HG).
  exists C, h0. split; [exact HC|]. split; [exact Hh|]. intros dt k Hdt Hk.
  destruct (c19 b p dx0 test ny nx dx Hy Hx Hd Hb pl _ _ phi a dt k Hpl Hphi) as (pl' & phi' & E & P & _).
  eexists pl', _, _, phi'. split; [exact E|]. split; [exact P|]. rewrite <- !surjective_pairing. now apply HG.
Qed.
Lemma c20_global_euler Y T pl phi a : 0 <= T -> hw_solution p ny nx dx Y T ->
  plasma_ok pl (fst (Y 0)) (snd (Y 0)) phi a -> agree phi (invlap ny nx dx (snd (Y 0))) ->
  exists C h0, 0 <= C /\ 0 < h0 /\ forall dt k, 0 < dt <= h0 -> INR k * dt <= T ->
    exists pl' n' o' phi', snd (steps (fun pl => euler_step h pl dt dx) k pl) = Ok pl' /\
      plasma_ok pl' n' o' phi' (a + INR k * dt) /\ within ny nx (C * dt) (n', o') (Y (INR k * dt)).
Proof.
  intros HT HY Hpl Hphi. destruct (euler_global_hw p ny nx dx Hy Hx Hd Y T HT HY) as (C & h0 & HC & Hh & HG).
  exists C, h0. split; [exact HC|]. split; [exact Hh|]. intros dt k Hdt Hk.
  destruct (c19_euler b p dx0 test ny nx dx Hy Hx Hd Hb pl _ _ phi a dt k Hpl Hphi) as (pl' & phi' & E & P & _).
  eexists pl', _, _, phi'. split; [exact E|]. split; [exact P|]. rewrite <- !surjective_pairing. now apply HG.
Qed.
End P.

(** *** C57: the two backends *)
Lemma two_runs test ny nx (Phi : field -> field -> field -> state) S dt (s1 s2 : ns R -> M (ns R)) :
  (forall pl n o phi a, plasma_ok test ny nx pl n o phi a -> exists pl', snd (s1 pl) = Ok pl' /\
     plasma_ok test ny nx pl' (fst (Phi phi n o)) (snd (Phi phi n o)) (S (snd (Phi phi n o))) (a + dt)) ->
  (forall pl n o phi a, plasma_ok test ny nx pl n o phi a -> exists pl', snd (s2 pl) = Ok pl' /\
     plasma_ok test ny nx pl' (fst (Phi phi n o)) (snd (Phi phi n o)) (S (snd (Phi phi n o))) (a + dt)) ->
  forall k pl1 pl2 n o phi a, plasma_ok test ny nx pl1 n o phi a -> plasma_ok test ny nx pl2 n o phi a ->
  exists pl1' pl2' n' o' phi', snd (steps s1 k pl1) = Ok pl1' /\ snd (steps s2 k pl2) = Ok pl2' /\
    plasma_ok test ny nx pl1' n' o' phi' (a + INR k * dt) /\ plasma_ok test ny nx pl2' n' o' phi' (a + INR k * dt).
Proof.
  intros H1 H2. induction k as [|k IH]; intros pl1 pl2 n o phi a P1 P2.
  - exists pl1, pl2, n, o, phi. cbn. rewrite Rmult_0_l, Rplus_0_r. auto.
  - destruct (H1 _ _ _ _ _ P1) as (q1 & E1 & Q1), (H2 _ _ _ _ _ P2) as (q2 & E2 & Q2).
    rewrite (snd_steps_S s1 k pl1 q1 E1), (snd_steps_S s2 k pl2 q2 E2).
    replace (a + INR (Datatypes.S k) * dt) with (a + dt + INR k * dt) by (rewrite S_INR; ring). eapply IH; eauto.
Qed.
Lemma c57 b1 b2 p dx0 test ny nx dx step dt k pl n o phi a : (0 < ny)%nat -> (0 < nx)%nat -> dx <> 0 ->
  backend_ok ny nx b1 -> backend_ok ny nx b2 -> stepper step ->
  plasma_ok test ny nx pl n o phi a ->
  exists pl1 pl2,
    snd (steps (fun pl => step (hw_of b1 p dx0 test) pl dt dx) k pl) = Ok pl1 /\
    snd (steps (fun pl => step (hw_of b2 p dx0 test) pl dt dx) k pl) = Ok pl2 /\
    forall key, In key ["density"; "omega"; "phi"; "age"]%string -> ns_get pl1 key = ns_get pl2 key.
Proof.
  intros Hy Hx Hd B1 B2 Hs Hpl.
  assert (G : exists pl1' pl2' n' o' phi', snd (steps (fun pl => step (hw_of b1 p dx0 test) pl dt dx) k pl) = Ok pl1' /\
    snd (steps (fun pl => step (hw_of b2 p dx0 test) pl dt dx) k pl) = Ok pl2' /\
    plasma_ok test ny nx pl1' n' o' phi' (a + INR k * dt) /\ plasma_ok test ny nx pl2' n' o' phi' (a + INR k * dt)).
  { pose proof (backend_acts ny nx b1 dx (pN p) Hy Hx Hd B1) as A1. pose proof (backend_acts ny nx b2 dx (pN p) Hy Hx Hd B2) as A2.
    destruct Hs as [ -> | -> ].
    - apply (two_runs test ny nx (fun phi n o => rk4_from (hw_rhs p ny nx dx) (rhs_n p ny nx dx phi n, rhs_o p ny nx dx phi n o) dt (n, o))
        (invlap ny nx dx) dt) with (n := n) (o := o) (phi := phi); auto; intros pl0 n0 o0 phi0 a0 P0.
      + destruct (rk4_step_grid_phi b1 p dx0 test ny nx dx Hy Hx A1 _ _ _ _ _ dt P0) as (q & E & Q & _). exists q. now rewrite E.
      + destruct (rk4_step_grid_phi b2 p dx0 test ny nx dx Hy Hx A2 _ _ _ _ _ dt P0) as (q & E & Q & _). exists q. now rewrite E.
    - apply (two_runs test ny nx (fun phi n o => sadd (n, o) (sscale dt (rhs_n p ny nx dx phi n, rhs_o p ny nx dx phi n o)))
        (invlap ny nx dx) dt) with (n := n) (o := o) (phi := phi); auto; intros pl0 n0 o0 phi0 a0 P0.
      + destruct (euler_step_grid_phi b1 p dx0 test ny nx dx Hy Hx A1 _ _ _ _ _ dt P0) as (q & E & Q & _). exists q. now rewrite E.
      + destruct (euler_step_grid_phi b2 p dx0 test ny nx dx Hy Hx A2 _ _ _ _ _ dt P0) as (q & E & Q & _). exists q. now rewrite E. }
  destruct G as (q1 & q2 & n' & o' & phi' & E1 & E2 & Q1 & Q2). exists q1, q2. split; [exact E1|]. split; [exact E2|].
  destruct Q1, Q2. intros key Hk. cbn in Hk. destruct Hk as [<-|[<-|[<-|[<-|[]]]]]; congruence.
Qed.

(** *** a solution of the system: viscous decay of a striped density *)
Definition decay (t : R) : state := (fscale (exp (-4 * t)) zig, fconst 0).
Lemma decay_solution T : hw_solution (pW 0 1 1 1 false) 2 2 1 decay T.
Proof.
  intros t i j _ Hi Hj.
  assert (A0 : agree 2 2 (invlap 2 2 1 (fconst 0)) (fconst 0)) by (apply invlap_0; lia || lra).
  assert (E1 : fst (hw_rhs (pW 0 1 1 1 false) 2 2 1 (decay t)) i j = exp (-4 * t) * -4 * zig i j).
  { cbn [hw_rhs fst snd decay].
    rewrite (rhs_n_ext (pW 0 1 1 1 false) 2 2 1) with (phi' := fconst 0) (n' := fscale (exp (-4 * t)) zig); try (assumption || lia || lra || (intros ? ? ? ?; reflexivity)).
    unfold rhs_n. cbn [pc1 ppb pkap pW]. rewrite cdy_const, jacobian_ara, ara_antisym, ara_const by lra.
    assert (Hh : hyper (pW 0 1 1 1 false) 2 2 1 (fscale (exp (-4 * t)) zig) i j = exp (-4 * t) * (-4 * zig i j)).
    { pose proof (hyper_lin (pW 0 1 1 1 false) 2 2 1 (exp (-4 * t)) 0 zig zig i j) as HL.
      rewrite hyper_zig in HL by (assumption || lia).
      transitivity (hyper (pW 0 1 1 1 false) 2 2 1 (fadd (fscale (exp (-4 * t)) zig) (fscale 0 zig)) i j).
      - apply hyper_ext; try lia. intros a c _ _. unfold fadd, fscale. ring.
      - rewrite HL. ring. }
    rewrite Hh. ring. }
  assert (E2 : snd (hw_rhs (pW 0 1 1 1 false) 2 2 1 (decay t)) i j = 0).
  { cbn [hw_rhs fst snd decay].
    rewrite (rhs_o_ext (pW 0 1 1 1 false) 2 2 1) with (phi' := fconst 0) (n' := fscale (exp (-4 * t)) zig) (o' := fconst 0); try (assumption || lia || lra || (intros ? ? ? ?; reflexivity)).
    unfold rhs_o. cbn [pc1 ppb pkap pW]. rewrite jacobian_ara, ara_const, hyper_c0 by lra. ring. }
  rewrite E1, E2. split.
  - cbn [decay fst]. unfold fscale.
    assert (D : derivable_pt_lim (mult_fct (comp exp (mult_fct (fct_cte (-4)) id)) (fct_cte (zig i j))) t
      ((exp (-4 * t) * (0 * t + -4 * 1)) * zig i j + exp (-4 * t) * 0)).
    { apply (derivable_pt_lim_mult (comp exp (mult_fct (fct_cte (-4)) id)) (fct_cte (zig i j))); [|apply derivable_pt_lim_const].
      apply derivable_pt_lim_comp; [|apply derivable_pt_lim_exp].
      apply (derivable_pt_lim_mult (fct_cte (-4)) id); [apply derivable_pt_lim_const|apply derivable_pt_lim_id]. }
    replace ((exp (-4 * t) * (0 * t + -4 * 1)) * zig i j + exp (-4 * t) * 0) with (exp (-4 * t) * -4 * zig i j) in D by ring.
    exact D.
  - cbn [decay snd]. apply derivable_pt_lim_const.
Qed.

(** a consistent plasma state with non-zero fields *)
Definition phiw : field := fun i j => - (/ PI ^ 2) * zig i j.
Lemma phiw_ok : agree 1 2 phiw (invlap 1 2 1 zig).
Proof.
  pose proof PI_RGT_0 as HPI.
  intros i j Hi Hj. rewrite invlap_rmult, rmult_zig by (assumption || lia || lra).
  unfold inv_sym. cbn [is00 Nat.eqb andb]. rewrite lam_12. unfold phiw. rewrite pow_1. field. lra.
Qed.
