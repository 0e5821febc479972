(** The step size limit of advection, at the level of the code. *)
From Coq Require Import List Arith ZArith Lia Bool Reals Lra Psatz String.
From Verif Require Import Num NdArray NdFacts ModelArakawa Spec GradFacts SumFacts LapFacts GradProps ArakawaFacts Cplx SpecFourier ModelHW ModelBackend
  SpecHW SpecPlasma HWFacts StepFacts RhsFacts HWProps SymFacts PoissonProps PoissonRound SpecWave WaveHW SpecZonal ZonalFacts SpecAdvect AdvectFacts ModelHW.
Import ListNotations.
Local Open Scope R_scope.

Section T.
Variables (ny nx : nat) (dx : R).
Hypothesis Hy : (0 < ny)%nat.
Hypothesis Hx : (0 < nx)%nat.
Hypothesis Hd : dx <> 0.
Local Notation ag := (agree ny nx).

Lemma c135_bracket D f g h : 0 <= D -> spread ny nx D f ->
  np_periodic_arakawa_vec (Ok (grid ny nx f)) (Ok (grid ny nx g)) dx = Ok (grid ny nx h) ->
  inner ny nx h h <= (D / dx ^ 2) ^ 2 * inner ny nx g g.
Proof.
  intros HD HS E. rewrite np_periodic_arakawa_vec_grid in E by assumption.
  assert (E' : grid ny nx (ara ny nx dx f g) = grid ny nx h) by congruence.
  assert (A : ag h (jacobian ny nx dx f g)).
  { intros i j Hi Hj. rewrite jacobian_ara by assumption. symmetry. now apply (grid_inj ny nx _ _ E'). }
  rewrite (inner_ext ny nx _ _ _ _ A A). now apply jac_norm.
Qed.
Lemma steady_zonal p o : xonly ny nx o -> steady_flow p ny nx dx o.
Proof.
  intros Z. pose proof (xo_invlap ny nx dx Hy Hx Hd o Z) as ZI. split.
  - intros i j Hi Hj. now apply (xo_jac ny nx dx Hy Hx).
  - right. intros i j Hi Hj. now apply (xo_cdy ny nx dx Hy).
Qed.
Lemma steady_wave p k l z o : pkap p = 0 -> fits ny nx k l -> ag o (pwave ny nx k l z) -> steady_flow p ny nx dx o.
Proof.
  intros K F E. split; [|now left]. intros i j Hi Hj.
  rewrite (jac_ext ny nx dx Hy Hx Hd _ _ (pwave ny nx k l (Cscal (- / ksq ny nx dx k l) z)) (pwave ny nx k l z)); [| |exact E].
  - now apply jac_pwave.
  - intros a c Ha Hc. rewrite (invlap_ext ny nx dx _ _ a c E). now apply invlap_pwave.
Qed.

Variables (b : backend R) (dx0 : R) (test : bool).
Hypothesis Hb : backend_ok ny nx b.
Variables (p : par) (o : field).
Hypothesis H1 : pc1 p = 0.
Hypothesis Hnu : pnu p = 0.
Hypothesis Hst : steady_flow p ny nx dx o.
Local Notation phi0 := (invlap ny nx dx o).
Local Notation F := (hw_rhs p ny nx dx).
Local Notation sl := (sl ny nx dx p o).
Local Notation ip := (inner ny nx).

Lemma sl_brackets k n : ag (sl k n) (fscale ((- ppb p) ^ k) (brackets k ny nx dx phi0 n)).
Proof.
  induction k as [|k IH].
  - intros i j _ _. unfold fscale. cbn. ring.
  - change (sl (S k) n) with (slope ny nx dx p o (sl k n)).
    eapply agree_trans; [apply slope_ext; [assumption..|exact IH]|].
    intros i j Hi Hj. unfold slope, fscale at 1. cbn [brackets].
    rewrite (jac_ext ny nx dx Hy Hx Hd phi0 _ phi0 (fadd (fscale ((- ppb p) ^ k) (brackets k ny nx dx phi0 n)) (fscale 0 (fconst 0)))).
    2: easy. 2: { intros u v _ _. unfold fadd, fscale. ring. }
    rewrite (jac_lin_r ny nx dx Hd). unfold fscale. cbn [pow]. ring.
Qed.
Lemma sl_msq k n : ip (sl k n) (sl k n) / (INR ny * INR nx) = ppb p ^ (2 * k) * msq ny nx (brackets k ny nx dx phi0 n).
Proof.
  rewrite (inner_ext ny nx _ _ _ _ (sl_brackets k n) (sl_brackets k n)). unfold msq, gmean, inner.
  rewrite (gsum_ext ny nx _ (fun i j => ppb p ^ (2 * k) * (brackets k ny nx dx phi0 n i j ^ 2))).
  2: { intros i j _ _. unfold fscale. rewrite pow_mult. replace (ppb p ^ 2) with ((- ppb p) ^ 2) by ring. rewrite <- pow_mult, Nat.mul_comm, pow_mult. ring. }
  rewrite gsum_scal. unfold Rdiv. ring.
Qed.
Lemma msq_ip n : ip n n / (INR ny * INR nx) = msq ny nx n.
Proof. unfold msq, gmean, inner. f_equal. apply gsum_ext. intros. ring. Qed.

Lemma one_step (step : ns R -> M (ns R)) pl pl' : snd (steps step 1 pl) = Ok pl' -> snd (step pl) = Ok pl'.
Proof. cbn [steps]. destruct (step pl) as [l [r|e]]; cbn; intros E; [exact E|discriminate E]. Qed.
Lemma steady_steps e dt m n : ag (snd (iter_step (spec_of e F dt) m (n, o))) o.
Proof.
  assert (G : forall y, ag (snd y) o -> ag (snd (iter_step (spec_of e F dt) m y)) o); [|now apply G].
  induction m as [|m IH]; intros y E; cbn [iter_step]; [exact E|]. apply IH.
  destruct e; cbn [spec_of]; [now apply euler_steady|now apply rk4_steady].
Qed.
(** the flow rests, and the code follows the specified step *)
Lemma steady_traj e pl n phi a dt m : plasma_ok test ny nx pl n o phi a -> ag phi phi0 ->
  exists pl', snd (steps (fun pl => code_of e (hw_of b p dx0 test) pl dt dx) m pl) = Ok pl' /\
    plasma_ok test ny nx pl' (fst (iter_step (spec_of e F dt) m (n, o))) o phi (a + INR m * dt).
Proof.
  intros P A. destruct (traj ny nx dx Hy Hx Hd b dx0 test Hb e p pl n o phi a dt m P A) as (pl' & phi' & E & Q & A').
  exists pl'. split; [exact E|]. pose proof (steady_steps e dt m n) as S.
  apply (plasma_ok_ext test ny nx _ _ _ _ _ _ _ _ Q); [easy|exact S|].
  intros i j Hi Hj. rewrite (A' i j Hi Hj), (A i j Hi Hj). now apply invlap_ext.
Qed.
Lemma c135_rk4 pl n phi a dt : plasma_ok test ny nx pl n o phi a -> ag phi phi0 ->
  exists pl' n', snd (rk4_step (hw_of b p dx0 test) pl dt dx) = Ok pl' /\ plasma_ok test ny nx pl' n' o phi (a + dt) /\
    msq ny nx n' = msq ny nx n - dt ^ 6 * ppb p ^ 6 / 72 * msq ny nx (brackets 3 ny nx dx phi0 n)
                   + dt ^ 8 * ppb p ^ 8 / 576 * msq ny nx (brackets 4 ny nx dx phi0 n).
Proof.
  intros P A. destruct (steady_traj false pl n phi a dt 1 P A) as (pl' & E & Q). cbn [iter_step spec_of] in Q.
  exists pl', (fst (rk4 F dt (n, o))). split; [exact (one_step _ _ _ E)|]. split.
  - replace (a + dt) with (a + INR 1 * dt) by (cbn; ring). exact Q.
  - rewrite <- !msq_ip. rewrite (rk4_square ny nx dx Hy Hx Hd p o H1 Hnu Hst dt (n, o) (fun i j _ _ => eq_refl)). cbn [fst].
    pose proof (sl_msq 3 n) as E3. pose proof (sl_msq 4 n) as E4.
    change (ppb p ^ (2 * 3)) with (ppb p ^ 6) in E3. change (ppb p ^ (2 * 4)) with (ppb p ^ 8) in E4. unfold Rdiv in *.
    set (v := / (INR ny * INR nx)) in *.
    transitivity (ip n n * v - dt ^ 6 * / 72 * (ip (sl 3 n) (sl 3 n) * v) + dt ^ 8 * / 576 * (ip (sl 4 n) (sl 4 n) * v)); [ring|].
    rewrite E3, E4, <- !msq_ip. fold v. unfold Rdiv. fold v. ring.
Qed.
Lemma c135_euler pl n phi a dt : plasma_ok test ny nx pl n o phi a -> ag phi phi0 ->
  exists pl' n', snd (euler_step (hw_of b p dx0 test) pl dt dx) = Ok pl' /\ plasma_ok test ny nx pl' n' o phi (a + dt) /\
    msq ny nx n' = msq ny nx n + dt ^ 2 * ppb p ^ 2 * msq ny nx (brackets 1 ny nx dx phi0 n).
Proof.
  intros P A. destruct (steady_traj true pl n phi a dt 1 P A) as (pl' & E & Q). cbn [iter_step spec_of] in Q.
  exists pl', (fst (euler F dt (n, o))). split; [exact (one_step _ _ _ E)|]. split.
  - replace (a + dt) with (a + INR 1 * dt) by (cbn; ring). exact Q.
  - rewrite <- !msq_ip. rewrite (euler_square ny nx dx Hy Hx Hd p o H1 Hnu Hst dt (n, o) (fun i j _ _ => eq_refl)). cbn [fst].
    pose proof (sl_msq 1 n) as E1. change (ppb p ^ (2 * 1)) with (ppb p ^ 2) in E1. change (sl 1 n) with (slope ny nx dx p o n) in E1. unfold Rdiv in *.
    rewrite Rmult_plus_distr_r, Rmult_assoc, E1, <- !msq_ip. unfold Rdiv. ring.
Qed.
Lemma contract_steps D dt : 0 <= D -> spread ny nx D phi0 -> (dt * ppb p * D / dx ^ 2) ^ 2 <= 8 ->
  forall m y, ag (snd y) o -> ip (fst (iter_step (rk4 F dt) m y)) (fst (iter_step (rk4 F dt) m y)) <= ip (fst y) (fst y).
Proof.
  intros HD HS HL m. induction m as [|m IH]; intros y E; cbn [iter_step]; [lra|].
  eapply Rle_trans; [apply IH; now apply rk4_steady|now apply (rk4_contract ny nx dx Hy Hx Hd p o H1 Hnu Hst D)].
Qed.
Lemma msq_le f g : ip f f <= ip g g -> msq ny nx f <= msq ny nx g.
Proof.
  intros L. rewrite <- !msq_ip. unfold Rdiv. apply Rmult_le_compat_r; [|exact L]. left. apply Rinv_0_lt_compat, Rmult_lt_0_compat; now apply lt_0_INR.
Qed.
Lemma msq_lt f g : ip f f < ip g g <-> msq ny nx f < msq ny nx g.
Proof.
  rewrite <- !msq_ip. assert (K : 0 < / (INR ny * INR nx)) by (apply Rinv_0_lt_compat, Rmult_lt_0_compat; now apply lt_0_INR).
  unfold Rdiv. split; [now apply Rmult_lt_compat_r|now apply Rmult_lt_reg_r].
Qed.
Lemma c135_contracts D pl n phi a dt m : plasma_ok test ny nx pl n o phi a -> ag phi phi0 ->
  spread ny nx D phi0 -> Rabs (dt * ppb p) * D / dx ^ 2 <= 2 * sqrt 2 ->
  exists pl' n', snd (steps (fun pl => rk4_step (hw_of b p dx0 test) pl dt dx) m pl) = Ok pl' /\
    plasma_ok test ny nx pl' n' o phi (a + INR m * dt) /\ msq ny nx n' <= msq ny nx n.
Proof.
  intros P A HS HL. destruct (steady_traj false pl n phi a dt m P A) as (pl' & E & Q). cbn [spec_of] in Q.
  exists pl', (fst (iter_step (rk4 F dt) m (n, o))). split; [exact E|]. split; [exact Q|]. apply msq_le.
  assert (HD : 0 <= D) by (pose proof (HS 0 0 0 0 Hy Hx Hy Hx)%nat; lra).
  apply (contract_steps D dt HD HS); [|easy].
  assert (d2 : 0 < dx ^ 2) by (pose proof (pow2_ge_0 dx); pose proof (pow_nonzero dx 2 Hd); lra).
  replace ((dt * ppb p * D / dx ^ 2) ^ 2) with ((Rabs (dt * ppb p) * D / dx ^ 2) ^ 2).
  2: { rewrite <- (pow2_abs (dt * ppb p * D / dx ^ 2)). unfold Rdiv. rewrite !Rabs_mult, (Rabs_pos_eq D), (Rabs_pos_eq (/ dx ^ 2)); [reflexivity|left; now apply Rinv_0_lt_compat|assumption]. }
  replace 8 with ((2 * sqrt 2) ^ 2) by (rewrite Rpow_mult_distr, pow2_sqrt by lra; ring).
  apply pow_incr. split; [|exact HL]. apply Rmult_le_pos; [apply Rmult_le_pos; [apply Rabs_pos|exact HD]|left; now apply Rinv_0_lt_compat].
Qed.
Lemma c135_grows pl n phi a : plasma_ok test ny nx pl n o phi a -> ag phi phi0 -> ppb p <> 0 -> 0 < msq ny nx (brackets 1 ny nx dx phi0 n) ->
  exists dt0, 0 < dt0 /\ forall dt, dt0 < dt -> exists pl' n', snd (rk4_step (hw_of b p dx0 test) pl dt dx) = Ok pl' /\
    plasma_ok test ny nx pl' n' o phi (a + dt) /\ msq ny nx n < msq ny nx n'.
Proof.
  intros P A Hp HB.
  assert (HI : 0 < ip (slope ny nx dx p o n) (slope ny nx dx p o n)).
  { pose proof (sl_msq 1 n) as E1. change (sl 1 n) with (slope ny nx dx p o n) in E1. change (ppb p ^ (2 * 1)) with (ppb p ^ 2) in E1.
    assert (q : 0 < ppb p ^ 2) by (pose proof (pow2_ge_0 (ppb p)); pose proof (pow_nonzero (ppb p) 2 Hp); lra).
    assert (r : 0 < INR ny * INR nx) by (apply Rmult_lt_0_compat; now apply lt_0_INR).
    assert (t : ip (slope ny nx dx p o n) (slope ny nx dx p o n) = ppb p ^ 2 * msq ny nx (brackets 1 ny nx dx phi0 n) * (INR ny * INR nx)) by (rewrite <- E1; field; split; apply not_0_INR; lia).
    rewrite t. apply Rmult_lt_0_compat; [apply Rmult_lt_0_compat|]; assumption. }
  destruct (rk4_grows ny nx dx Hy Hx Hd p o H1 Hnu Hst n HI) as (dt0 & D0 & G). exists dt0. split; [exact D0|]. intros dt L.
  destruct (steady_traj false pl n phi a dt 1 P A) as (pl' & E & Q). cbn [iter_step spec_of] in Q.
  exists pl', (fst (rk4 F dt (n, o))). split; [exact (one_step _ _ _ E)|]. split.
  - replace (a + dt) with (a + INR 1 * dt) by (cbn; ring). exact Q.
  - apply msq_lt. apply (G dt (n, o) L); [easy|reflexivity].
Qed.
End T.
