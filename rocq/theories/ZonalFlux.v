(** Averages over y of the time derivative. *)
From Coq Require Import List Arith ZArith Lia Bool Reals Lra Psatz String.
From Verif Require Import Num NdArray NdFacts Spec GradFacts SumFacts Cplx SpecFourier ModelHW ModelBackend
  SpecHW SpecPlasma HWFacts StepFacts RhsFacts HWProps SpecZonal.
Import ListNotations.
Local Open Scope R_scope.

Section F.
Variables (ny nx : nat) (dx : R).
Hypothesis (Hy : (0 < ny)%nat) (Hx : (0 < nx)%nat) (Hd : dx <> 0).
Local Notation sum := (rsum ny).
Local Notation up i := (sh ny i 1).
Local Notation dn i := (sh ny i (-1)).
Implicit Types u v w : nat -> R.

Lemma ny0 : INR ny <> 0. Proof. apply not_0_INR. lia. Qed.
Lemma up_dn i : (i < ny)%nat -> sh ny (dn i) 1 = i.
Proof. intros H. rewrite sh_sh by assumption. now apply sh_0. Qed.
Lemma dn_up i : (i < ny)%nat -> sh ny (up i) (-1) = i.
Proof. intros H. rewrite sh_sh by assumption. now apply sh_0. Qed.
Definition SS u v : R := sum (fun i => u i * (v (up i) - v (dn i))).
Lemma SS_anti u v : SS u v = - SS v u.
Proof.
  unfold SS. rewrite <- rsum_opp.
  rewrite (rsum_ext ny _ (fun i => u i * v (up i) - u i * v (dn i))) by (intros; ring).
  rewrite (rsum_ext ny (fun i => - _) (fun i => v i * u (dn i) - v i * u (up i))) by (intros; ring).
  rewrite !rsum_sub. f_equal.
  - rewrite <- (rsum_shift ny 1 (fun i => v i * u (dn i))) by assumption. apply rsum_ext. intros i Hi. rewrite dn_up by assumption. ring.
  - rewrite <- (rsum_shift ny (-1) (fun i => v i * u (up i))) by assumption. apply rsum_ext. intros i Hi. rewrite up_dn by assumption. ring.
Qed.
Lemma SS_add_l u w v : SS (fun i => u i + w i) v = SS u v + SS w v.
Proof. unfold SS. rewrite <- rsum_add. apply rsum_ext. intros. ring. Qed.
Lemma SS_add_r u w v : SS v (fun i => u i + w i) = SS v u + SS v w.
Proof. unfold SS. rewrite <- rsum_add. apply rsum_ext. intros. ring. Qed.

Lemma col_SS (phi g : field) j : colflux ny dx phi g j = SS (fun i => phi i j) (fun i => g i j) / (2 * dx * INR ny).
Proof.
  unfold colflux, yavg. rewrite SS_anti. pose proof ny0.
  rewrite (rsum_ext ny _ (fun i => (- / (2 * dx)) * (g i j * (phi (up i) j - phi (dn i) j)))).
  - rewrite rsum_scal. unfold SS. field. tauto.
  - intros i Hi. unfold cdy. cbn. field. assumption.
Qed.
Lemma flux_SS (phi g : field) j : let j' := sh nx j 1 in
  xflux ny nx dx phi g j = (2 * SS (fun i => phi i j) (fun i => g i j) + SS (fun i => phi i j) (fun i => g i j') + SS (fun i => phi i j') (fun i => g i j)
    + 2 * SS (fun i => phi i j') (fun i => g i j')) / (12 * dx * INR ny).
Proof.
  cbv zeta. unfold xflux. rewrite !col_SS. pose proof ny0. set (j' := sh nx j 1).
  assert (E : SS (fun i => (phi i j + phi i j') / 2) (fun i => (g i j + g i j') / 2) =
    / 4 * (SS (fun i => phi i j) (fun i => g i j) + SS (fun i => phi i j) (fun i => g i j') + SS (fun i => phi i j') (fun i => g i j) + SS (fun i => phi i j') (fun i => g i j'))).
  { unfold SS. rewrite <- !rsum_add, <- rsum_scal. apply rsum_ext. intros. field. }
  rewrite E. field. tauto.
Qed.

Lemma sum_up u : sum (fun i => u (up i)) = sum u. Proof. now apply rsum_shift. Qed.
Lemma sum_dn u : sum (fun i => u (dn i)) = sum u. Proof. now apply rsum_shift. Qed.

Lemma yavg_jac (f g : field) j : (j < nx)%nat ->
  yavg ny (jacobian ny nx dx f g) j = (xflux ny nx dx f g j - xflux ny nx dx f g (sh nx j (-1))) / dx.
Proof.
  intros Hj. rewrite !flux_SS. rewrite sh_sh by assumption. change (-1 + 1)%Z with 0%Z. rewrite (sh_0 nx j Hj).
  set (p := sh nx j 1). set (m := sh nx j (-1)). unfold yavg. pose proof ny0.
  pose (h := fun i => g i j * (f i p - f i m) - f i j * (g i p - g i m)).
  rewrite (rsum_ext ny _ (fun i => / (12 * dx ^ 2) *
    ((f i p * (g (up i) j - g (dn i) j) - f i m * (g (up i) j - g (dn i) j) - g i p * (f (up i) j - f (dn i) j) + g i m * (f (up i) j - f (dn i) j))
     + (f i p * (g (up i) p - g (dn i) p) - f i m * (g (up i) m - g (dn i) m) - g i p * (f (up i) p - f (dn i) p) + g i m * (f (up i) m - f (dn i) m))
     + (h (up i) - h (dn i))))).
  2: { intros i Hi. unfold jacobian, jac_pp, jac_px, jac_xp. rewrite !(sh_0 nx j Hj), !(sh_0 ny i Hi). fold p m. unfold h. field. assumption. }
  rewrite rsum_scal, !rsum_add, !rsum_sub, (sum_up h), (sum_dn h).
  change (sum (fun i => f i p * (g (up i) j - g (dn i) j))) with (SS (fun i => f i p) (fun i => g i j)).
  change (sum (fun i => f i m * (g (up i) j - g (dn i) j))) with (SS (fun i => f i m) (fun i => g i j)).
  change (sum (fun i => g i p * (f (up i) j - f (dn i) j))) with (SS (fun i => g i p) (fun i => f i j)).
  change (sum (fun i => g i m * (f (up i) j - f (dn i) j))) with (SS (fun i => g i m) (fun i => f i j)).
  change (sum (fun i => f i p * (g (up i) p - g (dn i) p))) with (SS (fun i => f i p) (fun i => g i p)).
  change (sum (fun i => f i m * (g (up i) m - g (dn i) m))) with (SS (fun i => f i m) (fun i => g i m)).
  change (sum (fun i => g i p * (f (up i) p - f (dn i) p))) with (SS (fun i => g i p) (fun i => f i p)).
  change (sum (fun i => g i m * (f (up i) m - f (dn i) m))) with (SS (fun i => g i m) (fun i => f i m)).
  rewrite (SS_anti (fun i => g i p) (fun i => f i j)), (SS_anti (fun i => g i m) (fun i => f i j)), (SS_anti (fun i => g i p) (fun i => f i p)), (SS_anti (fun i => g i m) (fun i => f i m)).
  field. tauto.
Qed.
Lemma yavg_ext (f g : field) j : (forall i, (i < ny)%nat -> f i j = g i j) -> yavg ny f j = yavg ny g j.
Proof. intros E. unfold yavg. f_equal. now apply rsum_ext. Qed.
Lemma yavg_cdy (f : field) j : yavg ny (cdy ny dx f) j = 0.
Proof.
  unfold yavg. rewrite (rsum_ext ny _ (fun i => / (2 * dx) * (f (up i) j - f (dn i) j))) by (intros; unfold cdy; cbn; field; assumption).
  rewrite rsum_scal, rsum_sub, (sum_up (fun i => f i j)), (sum_dn (fun i => f i j)). unfold Rdiv. ring.
Qed.
Lemma yavg_lap5 (f : field) i j : yavg ny (lap5 ny nx dx f) j = lap5 ny nx dx (fun _ j => yavg ny f j) i j.
Proof.
  pose proof ny0. unfold yavg. rewrite (rsum_ext ny _ (fun i => / dx ^ 2 * (f (dn i) j + f i (sh nx j (-1)) - 4 * f i j + f i (sh nx j 1) + f (up i) j)))
    by (intros; unfold lap5; cbn; field; assumption).
  rewrite rsum_scal, !rsum_add, rsum_sub, rsum_add, rsum_scal, (sum_up (fun i => f i j)), (sum_dn (fun i => f i j)).
  unfold lap5. cbn. field. tauto.
Qed.
Lemma yavg_lap k (f : field) i j : (i < ny)%nat -> (j < nx)%nat -> yavg ny (lap_iter k ny nx dx f) j = lap_iter k ny nx dx (fun _ j => yavg ny f j) i j.
Proof.
  revert i j. induction k as [|k IH]; intros i j Hi Hj; [reflexivity|]. cbn [lap_iter]. rewrite (yavg_lap5 _ i).
  unfold lap5. rewrite <- (IH (sh ny i (-1)) j), <- (IH (sh ny i 1) j), <- (IH i (sh nx j (-1))), <- (IH i (sh nx j 1)), <- (IH i j) by (try apply sh_lt; assumption).
  reflexivity.
Qed.
Lemma yavg_ydev (f : field) j : yavg ny (ydev ny f) j = 0.
Proof. pose proof ny0. unfold ydev. unfold yavg at 1. rewrite rsum_sub, rsum_const. unfold yavg. field. assumption. Qed.
Lemma yavg_sub (f g : field) j : yavg ny (fun i j => f i j - g i j) j = yavg ny f j - yavg ny g j.
Proof. unfold yavg. rewrite rsum_sub. unfold Rdiv. ring. Qed.
Lemma yavg_add (f g : field) j : yavg ny (fun i j => f i j + g i j) j = yavg ny f j + yavg ny g j.
Proof. unfold yavg. rewrite rsum_add. unfold Rdiv. ring. Qed.
Lemma yavg_scal c (f : field) j : yavg ny (fun i j => c * f i j) j = c * yavg ny f j.
Proof. unfold yavg. rewrite rsum_scal. unfold Rdiv. ring. Qed.
Lemma yavg_coupling p (f g : field) j : yavg ny (coupling p ny f g) j = if pzon p then 0 else yavg ny f j - yavg ny g j.
Proof.
  unfold coupling. destruct (pzon p); rewrite yavg_sub; [|reflexivity].
  change (yavg ny (ydev ny f) j - yavg ny (ydev ny g) j = 0). rewrite !yavg_ydev. ring.
Qed.
Lemma yavg_hyper p (f : field) i j : (i < ny)%nat -> (j < nx)%nat -> yavg ny (hyper p ny nx dx f) j = hyper p ny nx dx (fun _ j => yavg ny f j) i j.
Proof. intros Hi Hj. unfold hyper. rewrite yavg_scal. now rewrite (yavg_lap _ f i j Hi Hj). Qed.

Lemma yavg_rhs_n p (phi n : field) i j : (i < ny)%nat -> (j < nx)%nat -> yavg ny (rhs_n p ny nx dx phi n) j =
  (if pzon p then 0 else pc1 p * (yavg ny phi j - yavg ny n j))
  - ppb p * ((xflux ny nx dx phi n j - xflux ny nx dx phi n (sh nx j (-1))) / dx)
  + hyper p ny nx dx (fun _ j => yavg ny n j) i j.
Proof.
  intros Hi Hj. unfold rhs_n. rewrite yavg_add, !yavg_sub, !yavg_scal, yavg_coupling, yavg_jac, yavg_cdy by assumption.
  rewrite (yavg_hyper p n i j Hi Hj). destruct (pzon p); ring.
Qed.
Lemma yavg_rhs_o p (phi n o : field) i j : (i < ny)%nat -> (j < nx)%nat -> yavg ny (rhs_o p ny nx dx phi n o) j =
  (if pzon p then 0 else pc1 p * (yavg ny phi j - yavg ny n j))
  - ppb p * ((xflux ny nx dx phi o j - xflux ny nx dx phi o (sh nx j (-1))) / dx)
  + hyper p ny nx dx (fun _ j => yavg ny o j) i j.
Proof.
  intros Hi Hj. unfold rhs_o. rewrite yavg_add, !yavg_sub, !yavg_scal, yavg_coupling, yavg_jac by assumption.
  rewrite (yavg_hyper p o i j Hi Hj). destruct (pzon p); ring.
Qed.

Variables (b : backend R) (p : par) (dx0 : R) (test : bool).
Hypothesis Hb : backend_ok ny nx b.
Lemma c133 y n o phi dt : args_ok ny nx y n o ->
  exists lg d dn do_, gradient_2d (hw_of b p dx0 test) y (Some (grid ny nx phi)) dt dx = (lg, Ok d) /\
    ns_get d "density" = Ok (grid ny nx dn) /\ ns_get d "omega" = Ok (grid ny nx do_) /\
    forall i j, (i < ny)%nat -> (j < nx)%nat ->
      let cpl := if pzon p then 0 else pc1 p * (yavg ny phi j - yavg ny n j) in
      let div g := (xflux ny nx dx phi g j - xflux ny nx dx phi g (sh nx j (-1))) / dx in
      yavg ny dn j = cpl - ppb p * div n + hyper p ny nx dx (fun _ j => yavg ny n j) i j /\
      yavg ny do_ j = cpl - ppb p * div o + hyper p ny nx dx (fun _ j => yavg ny o j) i j.
Proof.
  intros Ha. destruct (c18 b p dx0 test ny nx dx Hy Hx Hd Hb y n o phi dt Ha) as (lg & d & E & En & Eo & _).
  eexists lg, d, _, _. split; [exact E|]. split; [exact En|]. split; [exact Eo|].
  intros i j Hi Hj. cbv zeta. split; [now apply yavg_rhs_n|now apply yavg_rhs_o].
Qed.
End F.
