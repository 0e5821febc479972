(** Plane waves are invariant under the whole Hasegawa-Wakatani system. *)
From Coq Require Import List Arith ZArith Lia Bool Reals Lra Psatz.
From Verif Require Import Num NdArray NdFacts Spec GradFacts SumFacts LapFacts GradProps Cplx DftFacts SpecFourier ModelPoisson PoissonFacts PoissonProps
  SpecHW SpecPlasma HWFacts StepFacts RhsFacts HWProps SpecSmooth SmoothFacts SmoothStencil WaveFacts SpecWave.
Import ListNotations.
Local Open Scope R_scope.

Lemma pwave_gwave ny nx k l z i j : pwave ny nx k l z i j = re z * gwave ny nx k l 0 i j + im z * gwave ny nx k l (PI / 2) i j.
Proof.
  unfold pwave, gwave, phase. set (t := 2 * PI * IZR k / INR ny * INR i + 2 * PI * IZR l / INR nx * INR j).
  rewrite Rplus_0_r, cos_plus, cos_PI2, sin_PI2. ring.
Qed.
Lemma pwave_add ny nx k l z w i j : pwave ny nx k l (Cadd z w) i j = pwave ny nx k l z i j + pwave ny nx k l w i j.
Proof. unfold pwave. cbn [re im Cadd]. ring. Qed.
Lemma pwave_scal ny nx k l c z i j : pwave ny nx k l (Cscal c z) i j = c * pwave ny nx k l z i j.
Proof. unfold pwave. cbn [re im Cscal]. ring. Qed.
Lemma pwave_sub ny nx k l z w i j : pwave ny nx k l (Csub z w) i j = pwave ny nx k l z i j - pwave ny nx k l w i j.
Proof. unfold pwave. cbn [re im Csub]. ring. Qed.

Lemma m1_mul x : -1 * x = - x.
Proof. ring. Qed.

Section W.
Variables (ny nx : nat) (k l : Z).
Hypothesis Hy : (0 < ny)%nat.
Hypothesis Hx : (0 < nx)%nat.
Local Notation al := (2 * PI * IZR k / INR ny).
Local Notation be := (2 * PI * IZR l / INR nx).
Local Notation th := (phase ny nx k l).
Local Notation W := (pwave ny nx k l).

Lemma pwave_sh z i j a b : W z (sh ny i a) (sh nx j b) =
  re z * cos (th i j + (IZR a * al + IZR b * be)) - im z * sin (th i j + (IZR a * al + IZR b * be)).
Proof.
  destruct (sh_coord ny i a Hy) as [q E]. destruct (sh_coord nx j b Hx) as [r E'].
  unfold pwave, phase. rewrite E, E'. pose proof (INR_pos ny Hy). pose proof (INR_pos nx Hx).
  set (t := al * INR i + be * INR j + (IZR a * al + IZR b * be)).
  replace (al * (INR i + IZR a + IZR q * INR ny) + be * (INR j + IZR b + IZR r * INR nx)) with (t + 2 * IZR (k * q + l * r) * PI)
    by (unfold t; rewrite plus_IZR, !mult_IZR; field; split; lra).
  pose proof (cis_2kpi (k * q + l * r) t) as C. unfold cis in C. injection C as C1 C2. now rewrite C1, C2.
Qed.
Lemma pwave_shy z i j a : (j < nx)%nat -> W z (sh ny i a) j = re z * cos (th i j + IZR a * al) - im z * sin (th i j + IZR a * al).
Proof. intros Hj. rewrite <- (sh_0 nx j Hj) at 1. rewrite pwave_sh. now rewrite Rmult_0_l, Rplus_0_r. Qed.
Lemma pwave_shx z i j b : (i < ny)%nat -> W z i (sh nx j b) = re z * cos (th i j + IZR b * be) - im z * sin (th i j + IZR b * be).
Proof. intros Hi. rewrite <- (sh_0 ny i Hi) at 1. rewrite pwave_sh. now rewrite Rmult_0_l, Rplus_0_l. Qed.

Lemma cdy_pwave h z i j : h <> 0 -> (j < nx)%nat -> cdy ny h (W z) i j = W (Cmul (mkC 0 (gsym ny h k)) z) i j.
Proof.
  intros Hh Hj. rewrite cdy_R, !pwave_shy by assumption. unfold pwave, gsym. cbn [re im Cmul].
  rewrite !m1_mul, !Rmult_1_l, !cos_plus, !sin_plus, cos_neg, sin_neg. field. exact Hh.
Qed.
Lemma cdx_pwave h z i j : h <> 0 -> (i < ny)%nat -> cdx nx h (W z) i j = W (Cmul (mkC 0 (gsym nx h l)) z) i j.
Proof.
  intros Hh Hi. rewrite cdx_R, !pwave_shx by assumption. unfold pwave, gsym. cbn [re im Cmul].
  rewrite !m1_mul, !Rmult_1_l, !cos_plus, !sin_plus, cos_neg, sin_neg. field. exact Hh.
Qed.
Lemma cos_half t : cos (2 * t) = 1 - 2 * sin t ^ 2.
Proof. rewrite cos_2a_sin. ring. Qed.
Lemma lap5_pwave h z i j : h <> 0 -> (i < ny)%nat -> (j < nx)%nat -> lap5 ny nx h (W z) i j = W (Cscal (- lsym ny nx h k l) z) i j.
Proof.
  intros Hh Hi Hj. rewrite lap5_R, !pwave_shy, !pwave_shx by assumption. unfold pwave, lsym. cbn [re im Cscal].
  rewrite !m1_mul, !Rmult_1_l, !cos_plus, !sin_plus, !cos_neg, !sin_neg.
  replace al with (2 * (PI * IZR k / INR ny)) by (field; apply not_0_INR; lia).
  replace be with (2 * (PI * IZR l / INR nx)) by (field; apply not_0_INR; lia).
  rewrite !cos_half. field. exact Hh.
Qed.
Lemma lap_iter_pwave m h z : h <> 0 -> agree ny nx (lap_iter m ny nx h (W z)) (W (Cscal ((- lsym ny nx h k l) ^ m) z)).
Proof.
  intros Hh. induction m as [|m IH]; intros i j Hi Hj.
  - cbn [lap_iter pow]. now rewrite pwave_scal, Rmult_1_l.
  - cbn [lap_iter]. rewrite (lap5_ext ny nx h _ _ i j Hy Hx Hi Hj IH).
    rewrite lap5_pwave by assumption. rewrite !pwave_scal. change ((- lsym ny nx h k l) ^ S m) with (- lsym ny nx h k l * (- lsym ny nx h k l) ^ m). ring.
Qed.
Lemma hyper_pwave p h z : h <> 0 -> agree ny nx (hyper p ny nx h (W z)) (W (Cscal (- damp p ny nx h k l) z)).
Proof.
  intros Hh i j Hi Hj. unfold hyper, damp. rewrite (lap_iter_pwave (pN p) h z Hh i j Hi Hj), !pwave_scal.
  set (L := lsym ny nx h k l). replace (- L) with ((-1) * L) by ring. rewrite Rpow_mult_distr, pow_add, pow_1.
  assert (E : (-1) ^ pN p * (-1) ^ pN p = 1) by (rewrite <- pow_add; replace (pN p + pN p)%nat with (2 * pN p)%nat by lia; apply pow_1_even).
  replace ((-1) ^ pN p * -1 * pnu p * ((-1) ^ pN p * L ^ pN p * W z i j)) with (- ((-1) ^ pN p * (-1) ^ pN p) * (pnu p * L ^ pN p) * W z i j) by ring.
  rewrite E. ring.
Qed.
Lemma jac_pwave h z w i j : jacobian ny nx h (W z) (W w) i j = 0.
Proof.
  unfold jacobian.
  match goal with |- ?a / 3 / ?b = 0 => assert (E : a = 0); [|rewrite E; unfold Rdiv; ring] end.
  unfold jac_pp, jac_px, jac_xp. rewrite !pwave_sh.
  rewrite !m1_mul, !Rmult_0_l, !Rmult_1_l.
  set (t := th i j). rewrite !Rplus_0_l, !Rplus_0_r.
  repeat rewrite ?cos_plus, ?sin_plus. rewrite ?cos_neg, ?sin_neg. ring.
Qed.
Lemma invlap_pwave h z : h <> 0 -> fits ny nx k l -> forall i j, invlap ny nx h (W z) i j = W (Cscal (- / ksq ny nx h k l) z) i j.
Proof.
  intros Hh (F1 & F2 & F3) i j.
  rewrite (invlap_ext ny nx h _ (fadd (fscale (re z) (gwave ny nx k l 0)) (fscale (im z) (gwave ny nx k l (PI / 2)))))
    by (intros ? ? _ _; apply pwave_gwave).
  rewrite invlap_lin, !invlap_gwave by assumption. rewrite pwave_scal, pwave_gwave. unfold ksq. ring.
Qed.
Lemma yavg_pwave z j : (k = 0)%Z -> yavg ny (W z) j = W z 0 j.
Proof.
  intros E. unfold yavg. rewrite (rsum_ext ny _ (fun _ => W z 0%nat j)).
  - rewrite rsum_const. field. apply not_0_INR; lia.
  - intros i _. unfold pwave, phase. rewrite E. unfold Rdiv. now rewrite !Rmult_0_r, !Rmult_0_l.
Qed.
Lemma yavg_pwave_0 z j : (2 * Z.abs k < Z.of_nat ny)%Z -> (k <> 0)%Z -> yavg ny (W z) j = 0.
Proof.
  intros Hk Hne. unfold yavg.
  assert (E : rsum ny (fun i => W z i j) = re (Cmul (csum ny (fun i => wn ny (k * Z.of_nat i))) (Cmul z (cis (be * INR j))))).
  { rewrite <- csum_mul_r, csum_re. apply rsum_ext. intros i Hi. unfold pwave, wn.
    replace (th i j) with (2 * PI * IZR (k * Z.of_nat i) / INR ny + be * INR j).
    - rewrite cos_plus, sin_plus. cbn [re im Cmul cis]. ring.
    - unfold phase. rewrite mult_IZR, <- INR_IZR_INZ. field. split; apply not_0_INR; lia. }
  rewrite E, csum_wn by assumption.
  destruct (Z.eqb_spec (k mod Z.of_nat ny) 0) as [M|M].
  - exfalso. apply Z.mod_divide in M; [|lia]. destruct M as [c M]. assert (c <> 0)%Z by (intros ->; lia). nia.
  - cbn. unfold Rdiv. ring.
Qed.
Lemma coupling_pwave p z w i j : (2 * Z.abs k < Z.of_nat ny)%Z ->
  pc1 p * coupling p ny (W z) (W w) i j = W (Cscal (c1_of p k) (Csub z w)) i j.
Proof.
  intros Hk. unfold coupling, c1_of. rewrite pwave_scal, pwave_sub. destruct (pzon p); cbn [andb]; [|reflexivity].
  unfold ydev. destruct (Z.eqb_spec k 0) as [E|E].
  - assert (Q : forall z, W z i j = W z 0%nat j).
    { intros u. unfold pwave, phase. rewrite E. unfold Rdiv. now rewrite !Rmult_0_r, !Rmult_0_l. }
    rewrite !yavg_pwave by assumption. rewrite !Q. ring.
  - rewrite !yavg_pwave_0 by assumption. ring.
Qed.

(** the system on waves *)
Lemma hw_rhs_wave p h v : h <> 0 -> fits ny nx k l ->
  sagree ny nx (hw_rhs p ny nx h (wstate ny nx k l v)) (wstate ny nx k l (amp_rhs p ny nx h k l v)).
Proof.
  intros Hh Hf. pose proof Hf as (F1 & F2 & F3). destruct v as [a b]. set (c := Cscal (- / ksq ny nx h k l) b).
  assert (E : agree ny nx (invlap ny nx h (W b)) (W c)) by (intros i j _ _; now apply invlap_pwave).
  unfold hw_rhs, wstate. cbn [fst snd]. split; cbn [fst snd]; intros i j Hi Hj.
  - rewrite (rhs_n_ext p ny nx h Hy Hx Hh _ (W a) (W c) (W a) E (fun _ _ _ _ => eq_refl) i j Hi Hj).
    unfold rhs_n. rewrite coupling_pwave, jac_pwave, cdy_pwave, hyper_pwave by assumption.
    unfold amp_rhs. cbn [fst snd]. fold c. rewrite !pwave_sub, !pwave_scal.
    replace (W (Cmul (mkC 0 (pkap p * gsym ny h k)) c) i j) with (pkap p * W (Cmul (mkC 0 (gsym ny h k)) c) i j).
    + ring.
    + unfold pwave. cbn [re im Cmul]. ring.
  - rewrite (rhs_o_ext p ny nx h Hy Hx Hh _ (W a) (W b) (W c) (W a) (W b) E (fun _ _ _ _ => eq_refl) (fun _ _ _ _ => eq_refl) i j Hi Hj).
    unfold rhs_o. rewrite coupling_pwave, jac_pwave, hyper_pwave by assumption.
    unfold amp_rhs. cbn [fst snd]. fold c. rewrite !pwave_sub, !pwave_scal. ring.
Qed.

Lemma sagree_trans y z w : sagree ny nx y z -> sagree ny nx z w -> sagree ny nx y w.
Proof. intros [A B] [C D]. split; intros i j Hi Hj; [rewrite A, C|rewrite B, D]; auto. Qed.
Lemma wstate_add v w : sagree ny nx (sadd (wstate ny nx k l v) (wstate ny nx k l w)) (wstate ny nx k l (aadd v w)).
Proof. split; intros i j _ _; cbn; unfold fadd; now rewrite pwave_add. Qed.
Lemma wstate_scal c v : sagree ny nx (sscale c (wstate ny nx k l v)) (wstate ny nx k l (ascal c v)).
Proof. split; intros i j _ _; cbn; unfold fscale; now rewrite pwave_scal. Qed.
Lemma sadd_ext y y' z z' : sagree ny nx y y' -> sagree ny nx z z' -> sagree ny nx (sadd y z) (sadd y' z').
Proof. intros [A B] [C D]. split; intros i j Hi Hj; cbn; unfold fadd; [rewrite A, C|rewrite B, D]; auto. Qed.
Lemma sscale_ext c y y' : sagree ny nx y y' -> sagree ny nx (sscale c y) (sscale c y').
Proof. intros [A B]. split; intros i j Hi Hj; cbn; unfold fscale; [rewrite A|rewrite B]; auto. Qed.

Section Steps.
Variables (p : par) (h dt : R).
Hypothesis Hh : h <> 0.
Hypothesis Hf : fits ny nx k l.
Local Notation F := (hw_rhs p ny nx h).
Local Notation A := (amp_rhs p ny nx h k l).
Local Notation S v := (wstate ny nx k l v).
Local Notation "y ~ v" := (sagree ny nx y (S v)) (at level 70).
Lemma W_F y v : y ~ v -> F y ~ A v.
Proof. intros H. apply (sagree_trans _ (F (S v))); [now apply hw_rhs_ext|now apply hw_rhs_wave]. Qed.
Lemma W_add y z v w : y ~ v -> z ~ w -> sadd y z ~ aadd v w.
Proof. intros H H'. eapply sagree_trans; [exact (sadd_ext _ _ _ _ H H')|apply wstate_add]. Qed.
Lemma W_scal c y v : y ~ v -> sscale c y ~ ascal c v.
Proof. intros H. eapply sagree_trans; [exact (sscale_ext c _ _ H)|apply wstate_scal]. Qed.
Lemma amp_lin c v w : A (aadd v (ascal c w)) = aadd (A v) (ascal c (A w)).
Proof. destruct v as [[? ?] [? ?]], w as [[? ?] [? ?]]. unfold amp_rhs, aadd, ascal. cbn. f_equal; apply C_eq; cbn; ring. Qed.
Lemma amp_scal c w : A (ascal c w) = ascal c (A w).
Proof. destruct w as [[? ?] [? ?]]. unfold amp_rhs, aadd, ascal. cbn. f_equal; apply C_eq; cbn; ring. Qed.
Lemma W_euler y v : y ~ v -> euler F dt y ~ amp_euler p ny nx h k l dt v.
Proof. intros H. unfold euler, amp_euler. apply W_add; [exact H|]. now apply W_scal, W_F. Qed.
Lemma W_rk4 y v : y ~ v -> rk4 F dt y ~ amp_rk4 p ny nx h k l dt v.
Proof.
  intros H. unfold rk4, rk4_from.
  set (k1 := F y). assert (H1 : k1 ~ A v) by now apply W_F.
  set (k2 := F (sadd y (sscale (dt / 2) k1))). assert (H2 : k2 ~ A (aadd v (ascal (dt / 2) (A v)))) by (apply W_F, W_add, W_scal; assumption).
  set (k3 := F (sadd y (sscale (dt / 2) k2))). assert (H3 : k3 ~ A (aadd v (ascal (dt / 2) (A (aadd v (ascal (dt / 2) (A v)))))))
    by (apply W_F, W_add, W_scal; assumption).
  set (k4 := F (sadd y (sscale dt k3))).
  assert (H4 : k4 ~ A (aadd v (ascal dt (A (aadd v (ascal (dt / 2) (A (aadd v (ascal (dt / 2) (A v))))))))))
    by (apply W_F, W_add, W_scal; assumption).
  cbv zeta. 
  pose proof (W_add _ _ _ _ H (W_scal (dt / 6) _ _ (W_add _ _ _ _ (W_add _ _ _ _ (W_add _ _ _ _ H1 (W_scal 2 _ _ H2)) (W_scal 2 _ _ H3)) H4))) as Q.
  match type of Q with sagree _ _ ?a ?b => change (sagree ny nx a (S (amp_rk4 p ny nx h k l dt v))) end.
  match type of Q with sagree _ _ _ (S ?b) => replace (amp_rk4 p ny nx h k l dt v) with b; [exact Q|] end.
  unfold amp_rk4. repeat rewrite ?amp_lin, ?amp_scal.
  set (v1 := A v). set (v2 := A v1). set (v3 := A v2). set (v4 := A v3).
  destruct v as [[? ?] [? ?]], v1 as [[? ?] [? ?]], v2 as [[? ?] [? ?]], v3 as [[? ?] [? ?]], v4 as [[? ?] [? ?]].
  unfold aadd, ascal. cbn [fst snd]. f_equal; apply C_eq; cbn [Cplx.re Cplx.im Cadd Cscal]; field.
Qed.
Lemma W_iter step astep m y v : (forall y v, y ~ v -> step y ~ astep v) -> y ~ v -> iter_step step m y ~ aiter astep m v.
Proof. intros Hs. revert y v. induction m as [|m IH]; intros y v H; [exact H|]. cbn [iter_step aiter]. now apply IH, Hs. Qed.
End Steps.
End W.
