(** The alternating field under the full system. *)
From Coq Require Import List Arith ZArith Lia Bool Reals Lra Psatz String Permutation.
From Verif Require Import Num NdArray NdFacts Spec GradFacts SumFacts LapFacts GradProps ArakawaFacts Cplx DftFacts SpecFourier PoissonFacts PoissonProps
  ModelHW ModelBackend SpecHW SpecPlasma HWFacts StepFacts RhsFacts SymFacts HWProps SmoothStencil WaveFacts SpecWave WaveHW WaveStab WaveDiff.
Import ListNotations.
Local Open Scope R_scope.

Lemma cos_pi_nat i : cos (PI * INR i) = (-1) ^ i /\ sin (PI * INR i) = 0.
Proof.
  induction i as [|i [C S]]; [cbn [INR pow]; rewrite Rmult_0_r, cos_0, sin_0; auto|].
  rewrite S_INR. replace (PI * (INR i + 1)) with (PI * INR i + PI) by ring. rewrite neg_cos, neg_sin, C, S. cbn [pow]. split; ring.
Qed.

Section N.
Variables (ny nx : nat) (h : R).
Hypothesis Hy : (0 < ny)%nat.
Hypothesis Hx : (0 < nx)%nat.
Hypothesis Hh : h <> 0.
Hypothesis Ey : Nat.Even ny.
Hypothesis Ex : Nat.Even nx.
Local Notation ky := (Z.of_nat (ny / 2)).
Local Notation kx := (Z.of_nat (nx / 2)).

Lemma half_even n : Nat.Even n -> (n = 2 * (n / 2))%nat.
Proof. intros [e ->]. rewrite (Nat.mul_comm 2 e), Nat.div_mul by lia. lia. Qed.
Lemma checker_gwave i j : checker i j = gwave ny nx ky kx 0 i j.
Proof.
  unfold gwave.
  assert (E : forall n i, (0 < n)%nat -> Nat.Even n -> 2 * PI * IZR (Z.of_nat (n / 2)) / INR n * INR i = PI * INR i).
  { intros n q Hn En. rewrite <- INR_IZR_INZ. pose proof (half_even n En) as Q. rewrite Q at 2. rewrite mult_INR. change (INR 2) with 2.
    assert (INR (n / 2) <> 0) by (apply not_0_INR; lia). field. assumption. }
  rewrite !E by assumption. rewrite Rplus_0_r, cos_plus.
  destruct (cos_pi_nat i) as [-> ->]. destruct (cos_pi_nat j) as [-> ->]. unfold checker. rewrite pow_add. ring.
Qed.
(** wave number of the alternating field *)
Lemma invlap_checker c i j : invlap ny nx h (fscale c checker) i j = - (h ^ 2 / (2 * PI ^ 2)) * c * checker i j.
Proof.
  rewrite (invlap_ext ny nx h _ (fadd (fscale c (gwave ny nx ky kx 0)) (fscale 0 (gwave ny nx ky kx 0))))
    by (intros a b _ _; unfold fadd, fscale; rewrite <- checker_gwave; ring).
  rewrite invlap_lin by assumption.
  assert (E : invlap ny nx h (gwave ny nx ky kx 0) i j = - (h ^ 2 / (2 * PI ^ 2)) * checker i j).
  { rewrite invlap_rmult, rmult_gwave by (try assumption; apply inv_sym_even). rewrite <- checker_gwave.
    pose proof (half_even ny Ey) as Qy. pose proof (half_even nx Ex) as Qx.
    assert (P : forall n, (0 < n)%nat -> n = (2 * (n / 2))%nat -> pidx n (Z.of_nat (n / 2)) = (n / 2)%nat).
    { intros n Hn En. unfold pidx. rewrite Z.mod_small by lia. now rewrite Nat2Z.id. }
    rewrite !P by assumption. unfold inv_sym. unfold is00. replace (ny / 2 =? 0)%nat with false by (symmetry; apply Nat.eqb_neq; lia).
    cbn [andb]. rewrite pow_1.
    assert (L : lam ny nx (ny / 2) (nx / 2) = - (2 * PI ^ 2)).
    { unfold lam. assert (F : forall n, (0 < n)%nat -> n = (2 * (n / 2))%nat -> IZR (sfreq n (n / 2)) / INR n = - / 2).
      { intros n Hn En. unfold sfreq. replace (2 * (n / 2) <? n)%nat with false by (symmetry; apply Nat.ltb_ge; lia).
        rewrite minus_IZR, <- !INR_IZR_INZ. assert (Q : INR n = 2 * INR (n / 2)) by (rewrite En at 1; rewrite mult_INR; reflexivity).
        rewrite Q. assert (INR (n / 2) <> 0) by (apply not_0_INR; lia). field. assumption. }
      rewrite !F by assumption. field. }
    rewrite L. pose proof PI_RGT_0. field. lra. }
  rewrite E. ring.
Qed.
Lemma cdy_checker c i j : (i < ny)%nat -> (j < nx)%nat -> cdy ny h (fscale c checker) i j = 0.
Proof.
  intros Hi Hj. unfold cdy. cbn [ndiv nsub nmul nofZ NumR]. unfold fscale.
  pose proof (checker_sh ny nx Hy Hx 1 0 i j Ey Ex Hi Hj) as A. pose proof (checker_sh ny nx Hy Hx (-1) 0 i j Ey Ex Hi Hj) as B.
  rewrite (sh_0 nx j Hj) in A, B. rewrite A, B by lia.
  change (Z.to_nat (Z.abs 1) + Z.to_nat (Z.abs 0))%nat with 1%nat. change (Z.to_nat (Z.abs (-1)) + Z.to_nat (Z.abs 0))%nat with 1%nat.
  field. exact Hh.
Qed.
Lemma jac_checker c d i j : jacobian ny nx h (fscale c checker) (fscale d checker) i j = 0.
Proof.
  transitivity (c * d * jacobian ny nx h checker checker i j).
  - unfold jacobian, jac_pp, jac_px, jac_xp, fscale. field. exact Hh.
  - rewrite jacobian_ara, ara_self by exact Hh. ring.
Qed.

(** density in equilibrium with the potential of the vorticity c checker *)
Definition adi (c : R) : state := (fscale (- (h ^ 2 / (2 * PI ^ 2)) * c) checker, fscale c checker).

Section F.
Variables (p : par) (dt : R).
Local Notation F := (hw_rhs p ny nx h).
Local Notation s := (- (pnu p * (8 / h ^ 2) ^ pN p)).
Lemma hyper_ck c : agree ny nx (hyper p ny nx h (fscale c checker)) (fscale (s * c) checker).
Proof.
  intros i j Hi Hj. pose proof (hyper_checker ny nx h Hy Hx Hh (pN p) (pnu p) false c Ey Ex i j Hi Hj) as E. exact E.
Qed.
Lemma adi_F y c : sagree ny nx y (adi c) -> sagree ny nx (F y) (adi (s * c)).
Proof.
  intros H. apply (sagree_trans ny nx _ (F (adi c))); [now apply hw_rhs_ext|].
  set (w := h ^ 2 / (2 * PI ^ 2)).
  assert (E : agree ny nx (invlap ny nx h (fscale c checker)) (fscale (- w * c) checker)).
  { intros i j _ _. rewrite invlap_checker. reflexivity. }
  assert (Cp : forall i j, coupling p ny (fscale (- w * c) checker) (fscale (- w * c) checker) i j = 0).
  { intros i j. unfold coupling. destruct (pzon p); ring. }
  unfold hw_rhs, adi. fold w. cbn [fst snd]. split; cbn [fst snd]; intros i j Hi Hj.
  - rewrite (rhs_n_ext p ny nx h Hy Hx Hh _ (fscale (- w * c) checker) (fscale (- w * c) checker) (fscale (- w * c) checker) E (fun _ _ _ _ => eq_refl) i j Hi Hj).
    unfold rhs_n. rewrite Cp, jac_checker, cdy_checker, hyper_ck by assumption. unfold fscale. ring.
  - rewrite (rhs_o_ext p ny nx h Hy Hx Hh _ (fscale (- w * c) checker) (fscale c checker) (fscale (- w * c) checker) (fscale (- w * c) checker) (fscale c checker) E (fun _ _ _ _ => eq_refl) (fun _ _ _ _ => eq_refl) i j Hi Hj).
    unfold rhs_o. rewrite Cp, jac_checker, hyper_ck by assumption. unfold fscale. ring.
Qed.
Lemma adi_add y z c d : sagree ny nx y (adi c) -> sagree ny nx z (adi d) -> sagree ny nx (sadd y z) (adi (c + d)).
Proof. intros [A B] [A' B']. split; intros i j Hi Hj; cbn [fst snd sadd adi] in *; unfold fadd; [rewrite A, A' by assumption|rewrite B, B' by assumption]; unfold fscale; ring. Qed.
Lemma adi_scal a y c : sagree ny nx y (adi c) -> sagree ny nx (sscale a y) (adi (a * c)).
Proof. intros [A B]. split; intros i j Hi Hj; cbn [fst snd sscale adi] in *; unfold fscale; [rewrite A by assumption|rewrite B by assumption]; unfold fscale; ring. Qed.
Lemma adi_eq y c c' : c = c' -> sagree ny nx y (adi c) -> sagree ny nx y (adi c').
Proof. now intros ->. Qed.
Lemma adi_rk4 y c : sagree ny nx y (adi c) -> sagree ny nx (rk4 F dt y) (adi (growth4R (dt * s) * c)).
Proof.
  intros H. unfold rk4, rk4_from. cbv zeta.
  pose proof (adi_F _ _ H) as H1. set (k1 := F y) in *.
  pose proof (adi_F _ _ (adi_add _ _ _ _ H (adi_scal (dt / 2) _ _ H1))) as H2. set (k2 := F (sadd y (sscale (dt / 2) k1))) in *.
  pose proof (adi_F _ _ (adi_add _ _ _ _ H (adi_scal (dt / 2) _ _ H2))) as H3. set (k3 := F (sadd y (sscale (dt / 2) k2))) in *.
  pose proof (adi_F _ _ (adi_add _ _ _ _ H (adi_scal dt _ _ H3))) as H4. set (k4 := F (sadd y (sscale dt k3))) in *.
  set (t := s) in *.
  eapply adi_eq; [|exact (adi_add _ _ _ _ H (adi_scal (dt / 6) _ _ (adi_add _ _ _ _ (adi_add _ _ _ _ (adi_add _ _ _ _ H1 (adi_scal 2 _ _ H2)) (adi_scal 2 _ _ H3)) H4)))].
  unfold growth4R. field.
Qed.
Lemma adi_iter step g m y c : (forall y c, sagree ny nx y (adi c) -> sagree ny nx (step y) (adi (g * c))) ->
  sagree ny nx y (adi c) -> sagree ny nx (iter_step step m y) (adi (g ^ m * c)).
Proof.
  intros Hs. revert y c. induction m as [|m IH]; intros y c H.
  - cbn [iter_step pow]. eapply adi_eq; [|exact H]; ring.
  - cbn [iter_step]. eapply adi_eq; [|exact (IH _ _ (Hs _ _ H))]; cbn [pow]; ring.
Qed.
End F.

Variables (b : backend R) (p : par) (dx0 : R) (test : bool).
Hypothesis Hb : backend_ok ny nx b.
Local Notation HW := (hw_of b p dx0 test).
Local Notation w := (h ^ 2 / (2 * PI ^ 2)).
Lemma c103 pl c a dt m :
  plasma_ok test ny nx pl (fscale (- w * c) checker) (fscale c checker) (fscale (- w * c) checker) a ->
  let c' := growth4R (- (dt * pnu p * (8 / h ^ 2) ^ pN p)) ^ m * c in
  exists pl', snd (steps (fun pl => rk4_step HW pl dt h) m pl) = Ok pl' /\
    plasma_ok test ny nx pl' (fscale (- w * c') checker) (fscale c' checker) (fscale (- w * c') checker) (a + INR m * dt).
Proof.
  intros P c'.
  assert (Ap : agree ny nx (fscale (- w * c) checker) (invlap ny nx h (fscale c checker))).
  { intros i j _ _. rewrite invlap_checker. reflexivity. }
  destruct (c19 b p dx0 test ny nx h Hy Hx Hh Hb pl _ _ _ a dt m P Ap) as (pl' & phi' & E & P' & Ap' & _).
  exists pl'. split; [exact E|].
  destruct (adi_iter (rk4 (hw_rhs p ny nx h) dt) (growth4R (- (dt * pnu p * (8 / h ^ 2) ^ pN p))) m (adi c) c) as [I1 I2].
  - intros y d H. replace (- (dt * pnu p * (8 / h ^ 2) ^ pN p)) with (dt * - (pnu p * (8 / h ^ 2) ^ pN p)) by ring. now apply adi_rk4.
  - apply sagree_refl.
  - apply (plasma_ok_ext test ny nx _ _ _ _ _ _ _ _ P' I1 I2).
    intros i j Hi Hj. rewrite (Ap' i j Hi Hj). etransitivity; [exact (invlap_ext ny nx h _ _ i j I2)|]. cbn [snd adi]. rewrite invlap_checker. reflexivity.
Qed.
End N.
