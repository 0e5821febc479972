(** Algebra of the Hasegawa-Wakatani right-hand side (no code involved). *)
From Coq Require Import List Arith ZArith Lia Bool Reals Lra Psatz.
From Verif Require Import Num NdArray NdFacts Spec GradFacts SumFacts LapFacts GradProps
  ArakawaFacts Cplx DftFacts SpecFourier PoissonFacts PoissonProps SpecHW SpecPlasma HWFacts StepFacts.
Import ListNotations.
Local Open Scope R_scope.

Section Rhs.
Variables (p : par) (ny nx : nat) (dx : R).
Hypothesis Hy : (0 < ny)%nat.
Hypothesis Hx : (0 < nx)%nat.
Hypothesis Hd : dx <> 0.
Local Notation J := (jacobian ny nx dx).
Local Notation S := (invlap ny nx dx).
Local Notation agree := (agree ny nx).
Local Notation sagree := (sagree ny nx).
Implicit Types f g phi n o : field.

(** *** extensionality on the grid *)
Lemma jac_ext f g f' g' : agree f f' -> agree g g' -> forall i j, J f g i j = J f' g' i j.
Proof. intros Hf Hg i j. rewrite !jacobian_ara by assumption. now apply ara_ext. Qed.
Lemma cdy_ext f g : agree f g -> forall i j, (j < nx)%nat -> cdy ny dx f i j = cdy ny dx g i j.
Proof. intros H i j Hj. unfold cdy. now rewrite !H by (auto using sh_lt). Qed.
Lemma lap_iter_ext m f g : agree f g -> agree (lap_iter m ny nx dx f) (lap_iter m ny nx dx g).
Proof.
  intros H. induction m as [|m IH]; [exact H|]. intros i j Hi Hj. cbn [lap_iter]. now apply lap5_ext.
Qed.
Lemma hyper_ext f g : agree f g -> agree (hyper p ny nx dx f) (hyper p ny nx dx g).
Proof. intros H i j Hi Hj. unfold hyper. f_equal. now apply lap_iter_ext. Qed.
Lemma yavg_ext f g j : agree f g -> (j < nx)%nat -> yavg ny f j = yavg ny g j.
Proof. intros H Hj. unfold yavg. f_equal. apply rsum_ext. intros i Hi. now apply H. Qed.
Lemma ydev_ext f g : agree f g -> agree (ydev ny f) (ydev ny g).
Proof. intros H i j Hi Hj. unfold ydev. now rewrite H, (yavg_ext f g). Qed.
Lemma coupling_ext phi n phi' n' : agree phi phi' -> agree n n' ->
  agree (coupling p ny phi n) (coupling p ny phi' n').
Proof.
  intros Hp Hn i j Hi Hj. unfold coupling. destruct (pzon p).
  - now rewrite (ydev_ext phi phi'), (ydev_ext n n').
  - now rewrite Hp, Hn.
Qed.
Lemma rhs_n_ext phi n phi' n' : agree phi phi' -> agree n n' ->
  agree (rhs_n p ny nx dx phi n) (rhs_n p ny nx dx phi' n').
Proof.
  intros Hp Hn i j Hi Hj. unfold rhs_n.
  rewrite (coupling_ext phi n phi' n'), (jac_ext phi n phi' n'), (cdy_ext phi phi'), (hyper_ext n n') by assumption.
  reflexivity.
Qed.
Lemma rhs_o_ext phi n o phi' n' o' : agree phi phi' -> agree n n' -> agree o o' ->
  agree (rhs_o p ny nx dx phi n o) (rhs_o p ny nx dx phi' n' o').
Proof.
  intros Hp Hn Ho i j Hi Hj. unfold rhs_o.
  rewrite (coupling_ext phi n phi' n'), (jac_ext phi o phi' o'), (hyper_ext o o') by assumption.
  reflexivity.
Qed.
Lemma hw_rhs_ext y z : sagree y z -> sagree (hw_rhs p ny nx dx y) (hw_rhs p ny nx dx z).
Proof.
  intros [Hn Ho]. assert (Hp : agree (S (snd y)) (S (snd z))) by (intros i j _ _; now apply invlap_ext).
  split; cbn [hw_rhs fst snd]; [now apply rhs_n_ext|now apply rhs_o_ext].
Qed.

(** *** linearity *)
Lemma invlap_lin a b f g i j : S (fadd (fscale a f) (fscale b g)) i j = a * S f i j + b * S g i j.
Proof. rewrite !invlap_rmult, rmult_lin by assumption. ring. Qed.
Lemma jac_lin_l a b f g k i j : J (fadd (fscale a f) (fscale b g)) k i j = a * J f k i j + b * J g k i j.
Proof. rewrite !jacobian_ara by assumption. apply ara_lin_l. Qed.
Lemma jac_lin_r a b f g k i j : J k (fadd (fscale a f) (fscale b g)) i j = a * J k f i j + b * J k g i j.
Proof. rewrite !jacobian_ara by assumption. apply ara_lin_r. Qed.
Lemma hyper_lin a b f g i j : hyper p ny nx dx (fadd (fscale a f) (fscale b g)) i j =
  a * hyper p ny nx dx f i j + b * hyper p ny nx dx g i j.
Proof. unfold hyper. rewrite lap_iter_lin. ring. Qed.
Lemma yavg_lin a b f g j : yavg ny (fadd (fscale a f) (fscale b g)) j = a * yavg ny f j + b * yavg ny g j.
Proof. unfold yavg, fadd, fscale. rewrite rsum_add, !rsum_scal. unfold Rdiv. ring. Qed.
Lemma ydev_lin a b f g i j : ydev ny (fadd (fscale a f) (fscale b g)) i j = a * ydev ny f i j + b * ydev ny g i j.
Proof. unfold ydev. rewrite yavg_lin. unfold fadd, fscale. ring. Qed.

(** *** zero sums *)
Lemma gsum_jac f g : gsum ny nx (J f g) = 0.
Proof. rewrite (gsum_ext ny nx _ (ara ny nx dx f g)) by (intros; now apply jacobian_ara). now apply gsum_ara. Qed.
Lemma gsum_hyper f : (1 <= pN p)%nat -> gsum ny nx (hyper p ny nx dx f) = 0.
Proof. intros HN. unfold hyper. rewrite gsum_scal, gsum_lap_iter by assumption. ring. Qed.
Lemma rsum_ydev f j : rsum ny (fun i => ydev ny f i j) = 0.
Proof.
  unfold ydev. rewrite rsum_sub, rsum_const. unfold yavg. field. apply not_0_INR. intros E0. rewrite E0 in Hy. inversion Hy.
Qed.
Lemma gsum_ydev f : gsum ny nx (ydev ny f) = 0.
Proof.
  rewrite gsum_swap. unfold gsum. rewrite (rsum_ext nx _ (fun _ => 0)); [apply rsum_zero|].
  intros j _. apply rsum_ydev.
Qed.
Lemma gsum_coupling_zonal phi n : pzon p = true -> gsum ny nx (coupling p ny phi n) = 0.
Proof. intros Hz. unfold coupling. rewrite Hz, gsum_sub, !gsum_ydev. ring. Qed.

Lemma gsum_rhs_n phi n : (1 <= pN p)%nat ->
  gsum ny nx (rhs_n p ny nx dx phi n) = pc1 p * gsum ny nx (coupling p ny phi n).
Proof.
  intros HN. unfold rhs_n. rewrite gsum_add, !gsum_sub, !gsum_scal, gsum_hyper by assumption.
  rewrite (gsum_jac phi n), (gsum_cdy ny nx dx phi Hy). ring.
Qed.
Lemma gsum_rhs_o phi n o : (1 <= pN p)%nat ->
  gsum ny nx (rhs_o p ny nx dx phi n o) = pc1 p * gsum ny nx (coupling p ny phi n).
Proof.
  intros HN. unfold rhs_o. rewrite gsum_add, gsum_sub, !gsum_scal, gsum_hyper by assumption.
  rewrite (gsum_jac phi o). ring.
Qed.

(** *** linear functionals annihilating F are invariant *)
Definition linfun (l : state -> R) : Prop :=
  (forall x y, l (sadd x y) = l x + l y) /\ (forall c x, l (sscale c x) = c * l x).
Lemma linfun_rk4 l F dt y : linfun l -> (forall z, l (F z) = 0) -> l (rk4 F dt y) = l y.
Proof.
  intros [Ha Hs] HF. unfold rk4, rk4_from. rewrite !Ha, !Hs, !Ha, !Hs, !HF. ring.
Qed.
Lemma linfun_euler l F dt y : linfun l -> (forall z, l (F z) = 0) -> l (euler F dt y) = l y.
Proof. intros [Ha Hs] HF. unfold euler. rewrite !Ha, !Hs, !HF. ring. Qed.
Lemma iter_inv (l : state -> R) Step k y : (forall z, l (Step z) = l z) -> l (iter_step Step k y) = l y.
Proof. intros H. revert y. induction k as [|k IH]; intros y; [reflexivity|]. cbn [iter_step]. now rewrite IH. Qed.

Definition mean_n (y : state) : R := gmean ny nx (fst y).
Definition mean_o (y : state) : R := gmean ny nx (snd y).
Lemma gmean_add f g : gmean ny nx (fadd f g) = gmean ny nx f + gmean ny nx g.
Proof. unfold gmean, fadd. rewrite gsum_add. unfold Rdiv. ring. Qed.
Lemma gmean_scale c f : gmean ny nx (fscale c f) = c * gmean ny nx f.
Proof. unfold gmean, fscale. rewrite gsum_scal. unfold Rdiv. ring. Qed.
Lemma linfun_n : linfun mean_n.
Proof. split; intros; unfold mean_n; cbn [sadd sscale fst]; [apply gmean_add|apply gmean_scale]. Qed.
Lemma linfun_o : linfun mean_o.
Proof. split; intros; unfold mean_o; cbn [sadd sscale snd]; [apply gmean_add|apply gmean_scale]. Qed.
Lemma linfun_d : linfun (fun y => mean_n y - mean_o y).
Proof.
  destruct linfun_n as [A1 A2], linfun_o as [B1 B2].
  split; intros; [rewrite A1, B1|rewrite A2, B2]; ring.
Qed.
Lemma drift0 y : (1 <= pN p)%nat -> mean_n (hw_rhs p ny nx dx y) - mean_o (hw_rhs p ny nx dx y) = 0.
Proof.
  intros HN. unfold mean_n, mean_o, gmean. cbn [hw_rhs fst snd]. rewrite gsum_rhs_n, gsum_rhs_o by assumption.
  unfold Rdiv. ring.
Qed.
Lemma zonal0_n y : (1 <= pN p)%nat -> pzon p = true -> mean_n (hw_rhs p ny nx dx y) = 0.
Proof.
  intros HN Hz. unfold mean_n, gmean. cbn [hw_rhs fst snd].
  rewrite gsum_rhs_n, gsum_coupling_zonal by assumption. unfold Rdiv. ring.
Qed.
Lemma zonal0_o y : (1 <= pN p)%nat -> pzon p = true -> mean_o (hw_rhs p ny nx dx y) = 0.
Proof.
  intros HN Hz. unfold mean_o, gmean. cbn [hw_rhs fst snd].
  rewrite gsum_rhs_o, gsum_coupling_zonal by assumption. unfold Rdiv. ring.
Qed.

(** *** quadratic identities *)
Lemma inner_jac_l f g : inner ny nx f (J f g) = 0.
Proof.
  rewrite (inner_ext ny nx f f _ (ara ny nx dx f g)) by (intros; auto; now apply jacobian_ara).
  now apply inner_ara_l.
Qed.
Lemma inner_jac_r f g : inner ny nx g (J f g) = 0.
Proof.
  rewrite (inner_ext ny nx g g _ (ara ny nx dx f g)) by (intros; auto; now apply jacobian_ara).
  now apply inner_ara_r.
Qed.
Lemma invlap_selfadjoint f g : inner ny nx f (S g) = inner ny nx (S f) g.
Proof.
  transitivity (dx ^ 2 * inner ny nx f (rmult ny nx (inv_sym ny nx 0 1) g)).
  { rewrite <- inner_scal_r. apply inner_ext; auto. intros. now apply invlap_rmult. }
  rewrite rmult_selfadjoint by (auto using inv_sym_even).
  rewrite <- inner_scal_l. apply inner_ext; auto. intros. symmetry. now apply invlap_rmult.
Qed.
Lemma invlap_shift sy sx f i j : S (ftrans ny nx sy sx f) i j = ftrans ny nx sy sx (S f) i j.
Proof. unfold ftrans. rewrite !invlap_rmult by assumption. f_equal. exact (rmult_shift ny nx _ f sy sx i j Hy Hx). Qed.
Lemma invlap_cdy f i j : (i < ny)%nat -> (j < nx)%nat -> S (cdy ny dx f) i j = cdy ny dx (S f) i j.
Proof.
  intros Hi Hj.
  transitivity (S (fadd (fscale (/ (2 * dx)) (ftrans ny nx 1 0 f)) (fscale (- / (2 * dx)) (ftrans ny nx (-1) 0 f))) i j).
  { apply invlap_ext. intros a b Ha Hb. rewrite cdy_R. unfold fadd, fscale, ftrans. rewrite sh_0 by assumption.
    unfold Rdiv. ring. }
  rewrite invlap_lin, !invlap_shift, cdy_R. unfold ftrans. rewrite sh_0 by assumption. unfold Rdiv. ring.
Qed.
(** <o, d_y S o> = 0 *)
Lemma inner_o_cdy_phi o : inner ny nx o (cdy ny dx (S o)) = 0.
Proof.
  assert (E : inner ny nx o (cdy ny dx (S o)) = - inner ny nx o (cdy ny dx (S o))); [|lra].
  rewrite (inner_cdy ny nx dx o (S o) Hy) at 1.
  transitivity (- inner ny nx (S o) (cdy ny dx o)); [f_equal; apply inner_sym|]. f_equal.
  rewrite <- invlap_selfadjoint. apply inner_ext; auto. intros. now apply invlap_cdy.
Qed.
Lemma inner_sub_l f g k : inner ny nx (fsub f g) k = inner ny nx f k - inner ny nx g k.
Proof. unfold inner, fsub. rewrite <- gsum_sub. apply gsum_ext. intros. ring. Qed.
Lemma jac_sub_r f g k i j : J k (fsub f g) i j = J k f i j - J k g i j.
Proof.
  pose proof (jac_lin_r 1 (-1) f g k i j) as E.
  rewrite (jac_ext k (fsub f g) k (fadd (fscale 1 f) (fscale (-1) g))).
  - rewrite E. ring.
  - intros a b _ _. reflexivity.
  - intros a b _ _. unfold fsub, fadd, fscale. ring.
Qed.
End Rhs.
