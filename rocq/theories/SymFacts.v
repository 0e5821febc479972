(** Symmetries of the right-hand side: periodic shifts, and reflection of x
    together with negation. *)
From Coq Require Import List Arith ZArith Lia Bool Reals Lra Psatz.
From Verif Require Import Num NdArray NdFacts Spec GradFacts SumFacts LapFacts GradProps
  ArakawaFacts Cplx DftFacts SpecFourier PoissonFacts PoissonProps SpecHW SpecPlasma HWFacts StepFacts RhsFacts.
Import ListNotations.
Local Open Scope R_scope.

Section Sym.
Variables (p : par) (ny nx : nat) (dx : R).
Hypothesis Hy : (0 < ny)%nat.
Hypothesis Hx : (0 < nx)%nat.
Hypothesis Hd : dx <> 0.
Local Notation J := (jacobian ny nx dx).
Local Notation S := (invlap ny nx dx).
Local Notation agree := (agree ny nx).
Local Notation sagree := (sagree ny nx).
Implicit Types f g phi n o : field.

(** *** abstract: a linear symmetry commutes with the integrators *)
Section Abs.
Variable T : field -> field.
Hypothesis T_add : forall f g, agree (T (fadd f g)) (fadd (T f) (T g)).
Hypothesis T_scale : forall c f, agree (T (fscale c f)) (fscale c (T f)).
Hypothesis T_inv : forall o, agree (S (T o)) (T (S o)).
Hypothesis T_n : forall phi n, agree (rhs_n p ny nx dx (T phi) (T n)) (T (rhs_n p ny nx dx phi n)).
Hypothesis T_o : forall phi n o, agree (rhs_o p ny nx dx (T phi) (T n) (T o)) (T (rhs_o p ny nx dx phi n o)).
Definition sT (y : state) : state := (T (fst y), T (snd y)).

Lemma agree_refl f : agree f f. Proof. now intros i j _ _. Qed.
Lemma agree_sym f g : agree f g -> agree g f. Proof. intros H i j Hi Hj. symmetry. auto. Qed.
Lemma agree_trans f g h : agree f g -> agree g h -> agree f h.
Proof. intros H K i j Hi Hj. rewrite H by assumption. auto. Qed.
Lemma sagree_refl y : sagree y y. Proof. split; apply agree_refl. Qed.
Lemma sagree_trans x y z : sagree x y -> sagree y z -> sagree x z.
Proof. intros [] []. split; eapply agree_trans; eauto. Qed.
Lemma sadd_ext x y x' y' : sagree x x' -> sagree y y' -> sagree (sadd x y) (sadd x' y').
Proof. intros [A B] [C D]. split; intros i j Hi Hj; cbn; unfold fadd; now rewrite ?A, ?B, ?C, ?D. Qed.
Lemma sscale_ext c x x' : sagree x x' -> sagree (sscale c x) (sscale c x').
Proof. intros [A B]. split; intros i j Hi Hj; cbn; unfold fscale; now rewrite ?A, ?B. Qed.
Lemma sT_add x y : sagree (sadd (sT x) (sT y)) (sT (sadd x y)).
Proof. split; apply agree_sym; apply T_add. Qed.
Lemma sT_scale c x : sagree (sscale c (sT x)) (sT (sscale c x)).
Proof. split; apply agree_sym; apply T_scale. Qed.
Lemma sT_lin x c y x' y' : sagree x' (sT x) -> sagree y' (sT y) -> sagree (sadd x' (sscale c y')) (sT (sadd x (sscale c y))).
Proof.
  intros A B. eapply sagree_trans; [apply sadd_ext; [exact A|apply sscale_ext, B]|].
  eapply sagree_trans; [apply sadd_ext; [apply sagree_refl|apply sT_scale]|]. apply sT_add.
Qed.
Lemma sT_add' x y x' y' : sagree x' (sT x) -> sagree y' (sT y) -> sagree (sadd x' y') (sT (sadd x y)).
Proof. intros A B. eapply sagree_trans; [apply sadd_ext; [exact A|exact B]|]. apply sT_add. Qed.
Lemma sT_rhs y y' : sagree y' (sT y) -> sagree (hw_rhs p ny nx dx y') (sT (hw_rhs p ny nx dx y)).
Proof.
  intros H. eapply sagree_trans; [apply hw_rhs_ext; eassumption|]. split; cbn [hw_rhs sT fst snd].
  - eapply agree_trans; [|apply T_n]. apply rhs_n_ext; auto using agree_refl.
  - eapply agree_trans; [|apply T_o]. apply rhs_o_ext; auto using agree_refl.
Qed.
Definition rhs_phi phi (y : state) : state := (rhs_n p ny nx dx phi (fst y), rhs_o p ny nx dx phi (fst y) (snd y)).
Lemma sT_rhs_phi phi y phi' y' : agree phi' (T phi) -> sagree y' (sT y) -> sagree (rhs_phi phi' y') (sT (rhs_phi phi y)).
Proof.
  intros Hp [A B]. split; cbn.
  - eapply agree_trans; [|apply T_n]. now apply rhs_n_ext.
  - eapply agree_trans; [|apply T_o]. now apply rhs_o_ext.
Qed.
Lemma sT_rk4_from k1 k1' dt y y' : sagree k1' (sT k1) -> sagree y' (sT y) ->
  sagree (rk4_from (hw_rhs p ny nx dx) k1' dt y') (sT (rk4_from (hw_rhs p ny nx dx) k1 dt y)).
Proof.
  intros H1 H. unfold rk4_from.
  set (F := hw_rhs p ny nx dx).
  assert (H2 : sagree (F (sadd y' (sscale (dt / 2) k1'))) (sT (F (sadd y (sscale (dt / 2) k1))))) by (apply sT_rhs, sT_lin; assumption).
  set (k2 := F (sadd y (sscale (dt / 2) k1))) in *. set (k2' := F (sadd y' (sscale (dt / 2) k1'))) in *.
  assert (H3 : sagree (F (sadd y' (sscale (dt / 2) k2'))) (sT (F (sadd y (sscale (dt / 2) k2))))) by (apply sT_rhs, sT_lin; assumption).
  set (k3 := F (sadd y (sscale (dt / 2) k2))) in *. set (k3' := F (sadd y' (sscale (dt / 2) k2'))) in *.
  assert (H4 : sagree (F (sadd y' (sscale dt k3'))) (sT (F (sadd y (sscale dt k3))))) by (apply sT_rhs, sT_lin; assumption).
  apply sT_lin; [assumption|]. apply sT_add'; [|assumption]. apply sT_lin; [|assumption]. now apply sT_lin.
Qed.
Lemma sT_rk4_step phi phi' dt y y' : agree phi' (T phi) -> sagree y' (sT y) ->
  sagree (rk4_from (hw_rhs p ny nx dx) (rhs_phi phi' y') dt y') (sT (rk4_from (hw_rhs p ny nx dx) (rhs_phi phi y) dt y)).
Proof. intros Hp H. apply sT_rk4_from; [now apply sT_rhs_phi|assumption]. Qed.
Lemma sT_euler_step phi phi' dt y y' : agree phi' (T phi) -> sagree y' (sT y) ->
  sagree (sadd y' (sscale dt (rhs_phi phi' y'))) (sT (sadd y (sscale dt (rhs_phi phi y)))).
Proof. intros Hp H. apply sT_lin; [assumption|]. now apply sT_rhs_phi. Qed.
End Abs.

(** *** shifts *)
Section Shift.
Variables sy sx : Z.
Local Notation T := (ftrans ny nx sy sx).
Lemma sh_comm m i a b : (0 < m)%nat -> sh m (sh m i a) b = sh m (sh m i b) a.
Proof. intros H. rewrite !sh_sh by assumption. f_equal. lia. Qed.
Lemma shift_ext f g : agree f g -> agree (T f) (T g).
Proof. intros H i j _ _. unfold ftrans. apply H; now apply sh_lt. Qed.
Lemma cdy_shift f i j : cdy ny dx (T f) i j = T (cdy ny dx f) i j.
Proof. unfold cdy, ftrans. now rewrite !(sh_comm ny i _ sy) by assumption. Qed.
Lemma lap5_shift f i j : lap5 ny nx dx (T f) i j = T (lap5 ny nx dx f) i j.
Proof. unfold lap5, ftrans. now rewrite !(sh_comm ny i _ sy), !(sh_comm nx j _ sx) by assumption. Qed.
Lemma lap_iter_shift m f : agree (lap_iter m ny nx dx (T f)) (T (lap_iter m ny nx dx f)).
Proof.
  induction m as [|m IH]; [apply agree_refl|]. intros i j Hi Hj. cbn [lap_iter].
  rewrite <- lap5_shift. now apply lap5_ext.
Qed.
Lemma jac_shift f g i j : J (T f) (T g) i j = T (J f g) i j.
Proof.
  unfold jacobian, jac_pp, jac_px, jac_xp, ftrans.
  now rewrite !(sh_comm ny i _ sy), !(sh_comm nx j _ sx) by assumption.
Qed.
Lemma yavg_shift f j : yavg ny (T f) j = yavg ny f (sh nx j sx).
Proof. unfold yavg, ftrans. f_equal. exact (rsum_shift ny sy (fun i => f i (sh nx j sx)) Hy). Qed.
Lemma ydev_shift f i j : ydev ny (T f) i j = T (ydev ny f) i j.
Proof. unfold ydev. rewrite yavg_shift. reflexivity. Qed.
Lemma coupling_shift phi n i j : coupling p ny (T phi) (T n) i j = T (coupling p ny phi n) i j.
Proof. unfold coupling. destruct (pzon p); [|reflexivity]. now rewrite !ydev_shift. Qed.
Lemma hyper_shift f : agree (hyper p ny nx dx (T f)) (T (hyper p ny nx dx f)).
Proof. intros i j Hi Hj. unfold hyper. rewrite lap_iter_shift by assumption. reflexivity. Qed.
Lemma rhs_n_shift phi n : agree (rhs_n p ny nx dx (T phi) (T n)) (T (rhs_n p ny nx dx phi n)).
Proof. intros i j Hi Hj. unfold rhs_n. rewrite coupling_shift, jac_shift, cdy_shift, hyper_shift by assumption. reflexivity. Qed.
Lemma rhs_o_shift phi n o : agree (rhs_o p ny nx dx (T phi) (T n) (T o)) (T (rhs_o p ny nx dx phi n o)).
Proof. intros i j Hi Hj. unfold rhs_o. rewrite coupling_shift, jac_shift, hyper_shift by assumption. reflexivity. Qed.
Lemma shift_add f g : agree (T (fadd f g)) (fadd (T f) (T g)). Proof. apply agree_refl. Qed.
Lemma shift_scale c f : agree (T (fscale c f)) (fscale c (T f)). Proof. apply agree_refl. Qed.
Lemma shift_inv o : agree (S (T o)) (T (S o)).
Proof. intros i j _ _. now apply invlap_shift. Qed.
End Shift.

(** *** mirror + negate *)
Section Mirror.
Local Notation T := (fun f : field => fopp (mirror nx f)).
Lemma sh_mirror j a : pidx nx (- Z.of_nat (sh nx j a)) = sh nx (pidx nx (- Z.of_nat j)) (- a).
Proof.
  unfold sh. rewrite pidx_add by assumption. apply pidx_eq; [assumption|].
  rewrite pidx_mod by assumption.
  rewrite <- (Z.mod_add _ (- ((Z.of_nat j + a) / Z.of_nat nx))) at 1 by lia. f_equal.
  pose proof (Z.div_mod (Z.of_nat j + a) (Z.of_nat nx)). lia.
Qed.
Lemma mir_lt j : (pidx nx (- Z.of_nat j) < nx)%nat.
Proof. now apply pidx_lt. Qed.
Lemma mirror_ext f g : agree f g -> agree (T f) (T g).
Proof. intros H i j Hi _. unfold fopp, mirror. rewrite H; auto using mir_lt. Qed.
Lemma cdy_mirror f i j : cdy ny dx (T f) i j = T (cdy ny dx f) i j.
Proof. unfold fopp, mirror. rewrite !cdy_R. unfold Rdiv. ring. Qed.
Lemma lap5_mirror f i j : lap5 ny nx dx (T f) i j = T (lap5 ny nx dx f) i j.
Proof.
  unfold fopp, mirror. rewrite !lap5_R. rewrite !sh_mirror. cbn [Z.opp]. unfold Rdiv. ring.
Qed.
Lemma lap_iter_mirror m f : agree (lap_iter m ny nx dx (T f)) (T (lap_iter m ny nx dx f)).
Proof.
  induction m as [|m IH]; [apply agree_refl|]. intros i j Hi Hj. cbn [lap_iter].
  rewrite <- lap5_mirror. now apply lap5_ext.
Qed.
Lemma jac_mirror f g i j : J (T f) (T g) i j = T (J f g) i j.
Proof.
  unfold fopp, mirror, jacobian, jac_pp, jac_px, jac_xp. rewrite !sh_mirror. cbn [Z.opp]. unfold Rdiv. ring.
Qed.
Lemma yavg_mirror f j : yavg ny (T f) j = - yavg ny f (pidx nx (- Z.of_nat j)).
Proof. unfold yavg, fopp, mirror. rewrite rsum_opp. unfold Rdiv. ring. Qed.
Lemma ydev_mirror f i j : ydev ny (T f) i j = T (ydev ny f) i j.
Proof. unfold ydev. rewrite yavg_mirror. unfold fopp, mirror. ring. Qed.
Lemma coupling_mirror phi n i j : coupling p ny (T phi) (T n) i j = T (coupling p ny phi n) i j.
Proof.
  unfold coupling. destruct (pzon p).
  - rewrite !ydev_mirror. unfold fopp, mirror. ring.
  - unfold fopp, mirror. ring.
Qed.
Lemma hyper_mirror f : agree (hyper p ny nx dx (T f)) (T (hyper p ny nx dx f)).
Proof. intros i j Hi Hj. unfold hyper. rewrite lap_iter_mirror by assumption. unfold fopp, mirror. ring. Qed.
Lemma rhs_n_mirror phi n : agree (rhs_n p ny nx dx (T phi) (T n)) (T (rhs_n p ny nx dx phi n)).
Proof.
  intros i j Hi Hj. unfold rhs_n. rewrite coupling_mirror, jac_mirror, cdy_mirror, hyper_mirror by assumption.
  unfold fopp, mirror. ring.
Qed.
Lemma rhs_o_mirror phi n o : agree (rhs_o p ny nx dx (T phi) (T n) (T o)) (T (rhs_o p ny nx dx phi n o)).
Proof.
  intros i j Hi Hj. unfold rhs_o. rewrite coupling_mirror, jac_mirror, hyper_mirror by assumption.
  unfold fopp, mirror. ring.
Qed.
Lemma mirror_add f g : agree (T (fadd f g)) (fadd (T f) (T g)).
Proof. intros i j _ _. unfold fadd, fopp, mirror. ring. Qed.
Lemma mirror_scale c f : agree (T (fscale c f)) (fscale c (T f)).
Proof. intros i j _ _. unfold fscale, fopp, mirror. ring. Qed.
Lemma inv_sym_mirror k l : (k < ny)%nat -> (l < nx)%nat ->
  inv_sym ny nx 0 1 k (pidx nx (- Z.of_nat l)) = inv_sym ny nx 0 1 k l.
Proof.
  intros Hk Hl. unfold inv_sym.
  assert (E : is00 k (pidx nx (- Z.of_nat l)) = is00 k l).
  { unfold is00. f_equal. rewrite pidx_neg by assumption. destruct (Nat.eqb_spec l 0) as [->|Hn]; [reflexivity|].
    apply Nat.eqb_neq. lia. }
  rewrite E. destruct (is00 k l); [reflexivity|]. f_equal. unfold lam.
  rewrite (sq_frac_even (sfreq nx l) (sfreq nx (pidx nx (- Z.of_nat l)))); [reflexivity|now apply sfreq_neg].
Qed.
Lemma mirror_inv o : agree (S (T o)) (T (S o)).
Proof.
  intros i j Hi Hj.
  transitivity (S (fadd (fscale (-1) (mirror nx o)) (fscale 0 o)) i j).
  { apply invlap_ext. intros a b _ _. unfold fopp, fadd, fscale. ring. }
  rewrite invlap_lin by assumption. unfold fopp, mirror. rewrite !invlap_rmult by assumption.
  rewrite (rmult_mirror ny nx (inv_sym ny nx 0 1) o i j Hy Hx inv_sym_mirror). ring.
Qed.
End Mirror.
End Sym.
