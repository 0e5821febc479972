(** Conservation by the three Jacobians and their weighted sums. *)
From Coq Require Import List Arith ZArith Lia Bool Reals Lra Psatz.
From Verif Require Import Num NdArray NdFacts ModelArakawa ModelJacobians Spec SpecHW GradFacts SumFacts ArakawaFacts SpecJacobians.
Import ListNotations.
Local Open Scope R_scope.

Section J.
Variables (ny nx : nat) (dx : R).
Hypothesis Hy : (0 < ny)%nat.
Hypothesis Hx : (0 < nx)%nat.
Local Notation sum := (gsum ny nx).
Local Notation inn := (inner ny nx).
Local Notation X := (Dx nx).
Local Notation Y := (Dy ny).
Local Notation adv := (j_adv ny nx dx).
Local Notation fA := (j_fluxA ny nx dx).
Local Notation fB := (j_fluxB ny nx dx).
Local Notation q := (/ (4 * dx ^ 2)).
Implicit Types f g h : field.

Lemma sh_back n i k : (i < n)%nat -> sh n (sh n i k) (- k) = i.
Proof.
  intros Hi. unfold sh. rewrite pidx_add by lia. replace (Z.of_nat i + k + - k)%Z with (Z.of_nat i) by ring. now apply pidx_small.
Qed.
Lemma sum_X f : sum (X f) = 0.
Proof. unfold Dx. rewrite gsum_sub, (gsum_shift_x ny nx 1 f Hx), (gsum_shift_x ny nx (-1) f Hx). ring. Qed.
Lemma sum_Y f : sum (Y f) = 0.
Proof. unfold Dy. rewrite gsum_sub, (gsum_shift_y ny nx 1 f Hy), (gsum_shift_y ny nx (-1) f Hy). ring. Qed.
(** summation by parts *)
Lemma inn_shift_x f g k : sum (fun i j => f i j * g i (sh nx j k)) = sum (fun i j => f i (sh nx j (- k)) * g i j).
Proof.
  rewrite <- (gsum_shift_x ny nx k (fun i j => f i (sh nx j (- k)) * g i j) Hx). apply gsum_ext. intros i j Hi Hj. cbn beta. now rewrite sh_back.
Qed.
Lemma inn_shift_y f g k : sum (fun i j => f i j * g (sh ny i k) j) = sum (fun i j => f (sh ny i (- k)) j * g i j).
Proof.
  rewrite <- (gsum_shift_y ny nx k (fun i j => f (sh ny i (- k)) j * g i j) Hy). apply gsum_ext. intros i j Hi Hj. cbn beta. now rewrite sh_back.
Qed.
Lemma parts_x f g : inn f (X g) = - inn (X f) g.
Proof.
  unfold inner, Dx.
  rewrite (gsum_ext ny nx (fun i j => f i j * (g i (sh nx j 1) - g i (sh nx j (-1)))) (fun i j => f i j * g i (sh nx j 1) - f i j * g i (sh nx j (-1)))) by (intros; ring).
  rewrite gsum_sub, !inn_shift_x, <- gsum_sub, <- gsum_opp. apply gsum_ext. intros. cbn [Z.opp]. ring.
Qed.
Lemma parts_y f g : inn f (Y g) = - inn (Y f) g.
Proof.
  unfold inner, Dy.
  rewrite (gsum_ext ny nx (fun i j => f i j * (g (sh ny i 1) j - g (sh ny i (-1)) j)) (fun i j => f i j * g (sh ny i 1) j - f i j * g (sh ny i (-1)) j)) by (intros; ring).
  rewrite gsum_sub, !inn_shift_y, <- gsum_sub, <- gsum_opp. apply gsum_ext. intros. cbn [Z.opp]. ring.
Qed.
Lemma adv_anti f g i j : adv f g i j = - adv g f i j.
Proof. unfold j_adv, Rdiv. ring. Qed.
Lemma flux_anti f g i j : fB f g i j = - fA g f i j.
Proof. unfold j_fluxA, j_fluxB, Rdiv. ring. Qed.
Lemma sum_fA f g : sum (fA f g) = 0.
Proof. unfold j_fluxA, Rdiv. rewrite gsum_scal_r, gsum_sub. fold (Dx nx (fmul f (Y g))). rewrite sum_X, sum_Y. ring. Qed.
Lemma sum_fB f g : sum (fB f g) = 0.
Proof. rewrite (gsum_ext ny nx _ (fun i j => - fA g f i j)) by (intros; apply flux_anti). rewrite gsum_opp, sum_fA. ring. Qed.
Lemma sum_adv f g : sum (adv f g) = 0.
Proof.
  unfold j_adv, Rdiv. rewrite gsum_scal_r, gsum_sub.
  change (sum (fun i j => X f i j * Y g i j)) with (inn (X f) (Y g)). change (sum (fun i j => Y f i j * X g i j)) with (inn (Y f) (X g)).
  rewrite parts_y, parts_x.
  assert (E : inn (Y (X f)) g = inn (X (Y f)) g). { apply gsum_ext. intros i j _ _. unfold Dx, Dy. ring. }
  rewrite E. ring.
Qed.
Lemma inn_div h (F : field) : inn h (fun i j => F i j / (4 * dx ^ 2)) = inn h F * q.
Proof. unfold inner. rewrite <- gsum_scal_r. apply gsum_ext. intros. unfold Rdiv. ring. Qed.
Lemma inn_sub h (F G : field) : inn h (fun i j => F i j - G i j) = inn h F - inn h G.
Proof. unfold inner. rewrite <- gsum_sub. apply gsum_ext. intros. ring. Qed.
(** the second field against the flux form of the first *)
Lemma inn_fA_r f g : inn g (fA f g) = 0.
Proof.
  unfold j_fluxA. rewrite (inn_div g (fun i j => X (fmul f (Y g)) i j - Y (fmul f (X g)) i j)).
  rewrite (inn_sub g (X (fmul f (Y g))) (Y (fmul f (X g)))), parts_x, parts_y.
  assert (E : inn (X g) (fmul f (Y g)) = inn (Y g) (fmul f (X g))). { apply gsum_ext. intros i j _ _. unfold fmul. ring. }
  rewrite E. ring.
Qed.
Lemma inn_fA_l f g : inn f (fA f g) = - inn f (adv f g).
Proof.
  unfold j_fluxA, j_adv. rewrite (inn_div f (fun i j => X (fmul f (Y g)) i j - Y (fmul f (X g)) i j)).
  rewrite (inn_sub f (X (fmul f (Y g))) (Y (fmul f (X g)))), parts_x, parts_y.
  rewrite (inn_div f (fun i j => X f i j * Y g i j - Y f i j * X g i j)), (inn_sub f (fun i j => X f i j * Y g i j) (fun i j => Y f i j * X g i j)).
  assert (E1 : inn (X f) (fmul f (Y g)) = inn f (fun i j => X f i j * Y g i j)). { apply gsum_ext. intros i j _ _. unfold fmul. ring. }
  assert (E2 : inn (Y f) (fmul f (X g)) = inn f (fun i j => Y f i j * X g i j)). { apply gsum_ext. intros i j _ _. unfold fmul. ring. }
  rewrite E1, E2. ring.
Qed.
Lemma inn_opp h (F G : field) : (forall i j, F i j = - G i j) -> inn h F = - inn h G.
Proof. intros E. unfold inner. rewrite <- gsum_opp. apply gsum_ext. intros. rewrite E. ring. Qed.
Lemma inn_fB_l f g : inn f (fB f g) = 0.
Proof. rewrite (inn_opp f _ _ (flux_anti f g)), inn_fA_r. ring. Qed.
Lemma inn_fB_r f g : inn g (fB f g) = - inn g (adv f g).
Proof. rewrite (inn_opp g _ _ (flux_anti f g)), inn_fA_l, (inn_opp g _ _ (adv_anti f g)). ring. Qed.
Lemma inn_mix h a b c f g : inn h (j_mix ny nx dx a b c f g) = a * inn h (adv f g) + b * inn h (fA f g) + c * inn h (fB f g).
Proof.
  unfold inner. rewrite <- !gsum_scal, <- !gsum_add. apply gsum_ext. intros. unfold j_mix. ring.
Qed.
Lemma mix_sum a b c f g : sum (j_mix ny nx dx a b c f g) = 0.
Proof.
  unfold j_mix. rewrite !gsum_add, !gsum_scal. change (sum (fun i j => adv f g i j)) with (sum (adv f g)).
  change (sum (fun i j => fA f g i j)) with (sum (fA f g)). change (sum (fun i j => fB f g i j)) with (sum (fB f g)).
  rewrite sum_adv, sum_fA, sum_fB. ring.
Qed.
Lemma mix_l a b c f g : inn f (j_mix ny nx dx a b c f g) = (a - b) * inn f (adv f g).
Proof. rewrite inn_mix, inn_fA_l, inn_fB_l. ring. Qed.
Lemma mix_r a b c f g : inn g (j_mix ny nx dx a b c f g) = (a - c) * inn g (adv f g).
Proof. rewrite inn_mix, inn_fA_r, inn_fB_r. ring. Qed.

(** the mean of the three is the bracket *)
Lemma ara_mix f g i j : dx <> 0 -> (i < ny)%nat -> (j < nx)%nat -> ara ny nx dx f g i j = j_mix ny nx dx (1/3) (1/3) (1/3) f g i j.
Proof.
  intros Hd Hi Hj. rewrite ara_R. cbv zeta. unfold j_mix, j_adv, j_fluxA, j_fluxB, fmul, Dx, Dy, P. rewrite !sh_0 by assumption. field. exact Hd.
Qed.

(** fields on which centred differences alone conserve neither *)
Definition wit_f : field := fun i j => if (i =? 0)%nat && (j =? 0)%nat then 1 else 0.
Definition wit_g : field := fun i j => if (i =? 1)%nat && ((j =? 0)%nat || (j =? 1)%nat) then 1 else 0.
Lemma sum_at (F : field) : sum (fun i j => wit_f i j * F i j) = F 0%nat 0%nat.
Proof.
  unfold gsum. rewrite (rsum_ext ny _ (fun i => if (i =? 0)%nat then F 0%nat 0%nat else 0)).
  - destruct ny as [|n]; [lia|]. clear. induction n as [|n IH]; cbn [rsum Nat.eqb]; [ring|]. cbn [rsum Nat.eqb] in IH. rewrite IH. ring.
  - intros i _. unfold wit_f. destruct (i =? 0)%nat eqn:E.
    + apply Nat.eqb_eq in E. subst i. cbn [andb].
      destruct nx as [|n]; [lia|]. clear. induction n as [|n IH]; cbn [rsum Nat.eqb]; [ring|]. cbn [rsum Nat.eqb] in IH. rewrite IH. ring.
    + cbn [andb]. rewrite (rsum_ext nx _ (fun _ => 0)) by (intros; ring). apply rsum_zero.
Qed.
Lemma adv_wit : (3 <= ny)%nat -> (3 <= nx)%nat -> inn wit_g (adv wit_f wit_g) = q.
Proof.
  intros Ly Lx. unfold j_adv. rewrite (inn_div wit_g (fun i j => X wit_f i j * Y wit_g i j - Y wit_f i j * X wit_g i j)).
  rewrite (inn_sub wit_g (fun i j => X wit_f i j * Y wit_g i j) (fun i j => Y wit_f i j * X wit_g i j)).
  assert (E1 : inn wit_g (fun i j => X wit_f i j * Y wit_g i j) = - inn wit_f (X (fmul wit_g (Y wit_g)))).
  { rewrite parts_x, Ropp_involutive. apply gsum_ext. intros. unfold fmul. ring. }
  assert (E2 : inn wit_g (fun i j => Y wit_f i j * X wit_g i j) = - inn wit_f (Y (fmul wit_g (X wit_g)))).
  { rewrite parts_y, Ropp_involutive. apply gsum_ext. intros. unfold fmul. ring. }
  rewrite E1, E2. unfold inner. rewrite !sum_at. unfold Dx, Dy, fmul.
  assert (S1 : forall n, (3 <= n)%nat -> sh n 0 1 = 1%nat) by (intros n Hn; unfold sh; apply (pidx_small n 1); lia).
  assert (Sm : forall n, (3 <= n)%nat -> sh n 0 (-1) = (n - 1)%nat).
  { intros n Hn. unfold sh. rewrite <- (pidx_small n (n - 1)) by lia. apply pidx_eq; [lia|]. rewrite Nat2Z.inj_sub by lia.
    replace (Z.of_nat 0 + -1)%Z with (Z.of_nat n - Z.of_nat 1 + (-1) * Z.of_nat n)%Z by lia. rewrite Z.mod_add by lia. reflexivity. }
  assert (S2 : forall n, (3 <= n)%nat -> sh n 1 1 = 2%nat) by (intros n Hn; unfold sh; apply (pidx_small n 2); lia).
  assert (S0 : forall n, (3 <= n)%nat -> sh n 1 (-1) = 0%nat) by (intros n Hn; unfold sh; apply (pidx_small n 0); lia).
  rewrite !S1, !Sm, ?S2, ?S0 by assumption.
  assert (W : forall i j, i <> 1%nat -> wit_g i j = 0). { intros i j H. unfold wit_g. apply Nat.eqb_neq in H. now rewrite H. }
  assert (W2 : wit_g 1 (nx - 1) = 0).
  { unfold wit_g. destruct (Nat.eqb_spec (nx - 1) 0); [lia|]. destruct (Nat.eqb_spec (nx - 1) 1); [lia|]. reflexivity. }
  rewrite !(W 0%nat), !(W (ny - 1)%nat), W2 by lia. unfold wit_g. cbn. ring.
Qed.
Lemma adv_wit_l : (3 <= ny)%nat -> (3 <= nx)%nat -> inn wit_g (adv wit_g wit_f) = - q.
Proof. intros. rewrite (inn_opp wit_g _ _ (adv_anti wit_g wit_f)), adv_wit by assumption. reflexivity. Qed.
Lemma q_ne : dx <> 0 -> q <> 0.
Proof. intros H. apply Rinv_neq_0_compat. apply Rmult_integral_contrapositive. split; [lra|]. now apply pow_nonzero. Qed.
Lemma only_equal a b c : dx <> 0 -> (3 <= ny)%nat -> (3 <= nx)%nat ->
  ((forall f g, inn f (j_mix ny nx dx a b c f g) = 0) <-> a = b) /\ ((forall f g, inn g (j_mix ny nx dx a b c f g) = 0) <-> a = c).
Proof.
  intros Hd Ly Lx. pose proof (q_ne Hd) as Hq. split; split.
  - intros H. specialize (H wit_g wit_f). rewrite mix_l, adv_wit_l in H by assumption. apply Rmult_integral in H. lra.
  - intros -> f g. rewrite mix_l. ring.
  - intros H. specialize (H wit_f wit_g). rewrite mix_r, adv_wit in H by assumption. apply Rmult_integral in H. lra.
  - intros -> f g. rewrite mix_r. ring.
Qed.
End J.

(** *** the code *)
Section Code.
Variables (ny nx : nat) (dx : R).
Hypothesis Hy : (0 < ny)%nat.
Hypothesis Hx : (0 < nx)%nat.
Implicit Types f g : field.
Definition padded f : arr R := grid (1 + ny + 1) (1 + nx + 1) (fun i j => f (wrap ny 1 i) (wrap nx 1 j)).
Lemma pad_padded f : pad_all 1 (Ok (grid ny nx f)) = Ok (padded f).
Proof. now apply pad_all_grid. Qed.
Lemma rd_padded f i j a b : (i < ny)%nat -> (j < nx)%nat -> (-1 <= a <= 1)%Z -> (-1 <= b <= 1)%Z ->
  at2 (padded f) (Z.to_nat (Z.of_nat (i + 1) + a)) (Z.to_nat (Z.of_nat (j + 1) + b)) = f (sh ny i a) (sh nx j b).
Proof. intros Hi Hj Ha Hb. unfold padded. rewrite rd_grid by assumption. now rewrite !wrap_rd. Qed.
Lemma kern_pp f g i j : (i < ny)%nat -> (j < nx)%nat ->
  nb_jpp dx (fun a b => f (sh ny i a) (sh nx j b)) (fun a b => g (sh ny i a) (sh nx j b)) = j_adv ny nx dx f g i j.
Proof. intros Hi Hj. unfold nb_jpp, j_adv, Dx, Dy, four_dx2. rewrite !sh_0 by assumption. reflexivity. Qed.
Lemma kern_px f g i j : (i < ny)%nat -> (j < nx)%nat ->
  nb_jpx dx (fun a b => f (sh ny i a) (sh nx j b)) (fun a b => g (sh ny i a) (sh nx j b)) = j_fluxA ny nx dx f g i j.
Proof.
  intros Hi Hj. unfold nb_jpx, j_fluxA, fmul, Dx, Dy, four_dx2. rewrite !sh_0 by assumption. cbn [nadd nsub nmul ndiv npow nofZ NumR]. unfold Rdiv. ring.
Qed.
Lemma kern_xp f g i j : (i < ny)%nat -> (j < nx)%nat ->
  nb_jxp dx (fun a b => f (sh ny i a) (sh nx j b)) (fun a b => g (sh ny i a) (sh nx j b)) = j_fluxB ny nx dx f g i j.
Proof.
  intros Hi Hj. unfold nb_jxp, j_fluxB, fmul, Dx, Dy, four_dx2. rewrite !sh_0 by assumption. cbn [nadd nsub nmul ndiv npow nofZ NumR]. unfold Rdiv. ring.
Qed.
(** numba: the stencil over a padded pair, border removed *)
Lemma stencil_padded (k : (Z -> Z -> R) -> (Z -> Z -> R) -> R) f g (F : field) :
  (forall z p z' p', (forall a b, (-1 <= a <= 1)%Z -> (-1 <= b <= 1)%Z -> z a b = z' a b) -> (forall a b, (-1 <= a <= 1)%Z -> (-1 <= b <= 1)%Z -> p a b = p' a b) -> k z p = k z' p') ->
  (forall i j, (i < ny)%nat -> (j < nx)%nat -> k (fun a b => f (sh ny i a) (sh nx j b)) (fun a b => g (sh ny i a) (sh nx j b)) = F i j) ->
  slf2 s_mid s_mid (stencil k (pad_all 1 (Ok (grid ny nx f))) (pad_all 1 (Ok (grid ny nx g)))) = Ok (grid ny nx F).
Proof.
  intros Hk HF. rewrite !pad_all_grid by assumption. rewrite stencil_grid. rewrite slf2_grid by (cbn; lia). rewrite !s_mid_len.
  f_equal. apply grid_ext. intros i j Hi Hj. rewrite !s_mid_idx. rewrite (proj2 (interior_true ny nx i j)) by auto.
  rewrite <- HF by assumption. apply Hk; intros a b Ha Hb; now apply rd_padded.
Qed.
Lemma nb_three f g :
  slf2 s_mid s_mid (stencil (nb_jpp dx) (pad_all 1 (Ok (grid ny nx f))) (pad_all 1 (Ok (grid ny nx g)))) = Ok (grid ny nx (j_adv ny nx dx f g)) /\
  slf2 s_mid s_mid (stencil (nb_jpx dx) (pad_all 1 (Ok (grid ny nx f))) (pad_all 1 (Ok (grid ny nx g)))) = Ok (grid ny nx (j_fluxA ny nx dx f g)) /\
  slf2 s_mid s_mid (stencil (nb_jxp dx) (pad_all 1 (Ok (grid ny nx f))) (pad_all 1 (Ok (grid ny nx g)))) = Ok (grid ny nx (j_fluxB ny nx dx f g)).
Proof.
  split; [|split]; apply stencil_padded; try (intros; now (apply kern_pp || apply kern_px || apply kern_xp));
  intros z p z' p' E1 E2; unfold nb_jpp, nb_jpx, nb_jxp; now rewrite !E1, !E2 by lia.
Qed.
(** numpy: the functions at cell (i, j) of the padded arrays *)
Lemma np_three f g i j : (i < ny)%nat -> (j < nx)%nat ->
  np_jpp (at2 (padded f)) (at2 (padded g)) dx (j + 1) (i + 1) = j_adv ny nx dx f g i j /\
  np_jpx (at2 (padded f)) (at2 (padded g)) dx (j + 1) (i + 1) = j_fluxA ny nx dx f g i j /\
  np_jxp (at2 (padded f)) (at2 (padded g)) dx (j + 1) (i + 1) = j_fluxB ny nx dx f g i j.
Proof.
  intros Hi Hj. rewrite <- kern_pp, <- kern_px, <- kern_xp by assumption. unfold np_jpp, np_jpx, np_jxp, nb_jpp, nb_jpx, nb_jxp.
  assert (E1 : forall k, (k + 1 + 1)%nat = Z.to_nat (Z.of_nat (k + 1) + 1)) by (intros; lia).
  assert (E0 : forall h a, (-1 <= a <= 1)%Z -> at2 (padded h) (Z.to_nat (Z.of_nat (i + 1) + a)) (j + 1) = h (sh ny i a) (sh nx j 0)).
  { intros h a Ha. rewrite <- rd_padded by (assumption || lia). do 2 f_equal. lia. }
  assert (E0' : forall h a, (-1 <= a <= 1)%Z -> at2 (padded h) (i + 1) (Z.to_nat (Z.of_nat (j + 1) + a)) = h (sh ny i 0) (sh nx j a)).
  { intros h a Ha. rewrite <- rd_padded by (assumption || lia). do 2 f_equal. lia. }
  assert (Em : forall k, (k + 1 - 1)%nat = Z.to_nat (Z.of_nat (k + 1) + -1)) by (intros; lia).
  rewrite !E1, !Em, !E0, !E0', !rd_padded by (assumption || lia). repeat split; reflexivity.
Qed.
(** phiml: the same with the two axes exchanged, hence the opposite sign *)
Lemma pm_three f g i j : (i < ny)%nat -> (j < nx)%nat ->
  pm_jpp (at2 (padded f)) (at2 (padded g)) dx (i + 1) (j + 1) = - j_adv ny nx dx f g i j /\
  pm_jpx (at2 (padded f)) (at2 (padded g)) dx (i + 1) (j + 1) = - j_fluxA ny nx dx f g i j /\
  pm_jxp (at2 (padded f)) (at2 (padded g)) dx (i + 1) (j + 1) = - j_fluxB ny nx dx f g i j.
Proof.
  intros Hi Hj. destruct (np_three f g i j Hi Hj) as (<- & <- & <-). unfold np_jpp, np_jpx, np_jxp, pm_jpp, pm_jpx, pm_jxp.
  cbn [nadd nsub nmul ndiv npow nofZ NumR]. unfold Rdiv. repeat split; ring.
Qed.
End Code.

(** truncation errors on quadratics *)
Lemma jac_quad dx a0 a1 a2 a3 a4 a5 b0 b1 b2 b3 b4 b5 (y x : R) : dx <> 0 ->
  let za a b := quad a0 a1 a2 a3 a4 a5 (y + IZR a * dx) (x + IZR b * dx) in
  let zb a b := quad b0 b1 b2 b3 b4 b5 (y + IZR a * dx) (x + IZR b * dx) in
  let J := quad_dx a0 a1 a2 a3 a4 a5 y x * quad_dy b0 b1 b2 b3 b4 b5 y x - quad_dy a0 a1 a2 a3 a4 a5 y x * quad_dx b0 b1 b2 b3 b4 b5 y x in
  nb_jpp dx za zb = J /\ nb_jpx dx za zb = J - dx ^ 2 * (a3 - a5) * b4 /\ nb_jxp dx za zb = J + dx ^ 2 * a4 * (b3 - b5).
Proof.
  intros Hd za zb J. unfold nb_jpp, nb_jpx, nb_jxp, J, za, zb, quad, quad_dy, quad_dx, four_dx2.
  cbn [nadd nsub nmul ndiv npow nofZ NumR]. repeat split; field; exact Hd.
Qed.
