(** Exact-arithmetic facts about the periodic stencils: linearity, zero sum,
    summation by parts, ellipticity, sign of the hyper-diffusion. *)
From Coq Require Import List Arith ZArith Lia Reals Lra Psatz.
From Verif Require Import Num NdArray NdFacts Spec GradFacts SumFacts.
Import ListNotations.
Local Open Scope R_scope.

Implicit Types f g : nat -> nat -> R.

Lemma lap5_R ny nx dx f i j :
  lap5 ny nx dx f i j =
  (f (sh ny i (-1)) j + f (sh ny i 1) j + f i (sh nx j (-1)) + f i (sh nx j 1) - 4 * f i j) / (dx * dx).
Proof.
  unfold lap5. cbn [nadd nsub nmul ndiv npow nofZ NumR]. 
  unfold Rdiv. replace (dx ^ 2) with (dx * dx) by ring. ring.
Qed.
Lemma cdy_R ny dx f i j : cdy ny dx f i j = (f (sh ny i 1) j - f (sh ny i (-1)) j) / (2 * dx).
Proof. reflexivity. Qed.
Lemma cdx_R nx dx f i j : cdx nx dx f i j = (f i (sh nx j 1) - f i (sh nx j (-1))) / (2 * dx).
Proof. reflexivity. Qed.

(** linearity *)
Lemma lap5_lin ny nx dx a b f g i j :
  lap5 ny nx dx (fadd (fscale a f) (fscale b g)) i j = a * lap5 ny nx dx f i j + b * lap5 ny nx dx g i j.
Proof. rewrite !lap5_R. unfold fadd, fscale, Rdiv. ring. Qed.
Lemma cdy_lin ny dx a b f g i j :
  cdy ny dx (fadd (fscale a f) (fscale b g)) i j = a * cdy ny dx f i j + b * cdy ny dx g i j.
Proof. rewrite !cdy_R. unfold fadd, fscale, Rdiv. ring. Qed.
Lemma cdx_lin nx dx a b f g i j :
  cdx nx dx (fadd (fscale a f) (fscale b g)) i j = a * cdx nx dx f i j + b * cdx nx dx g i j.
Proof. rewrite !cdx_R. unfold fadd, fscale, Rdiv. ring. Qed.

(** constants *)
Lemma lap5_const ny nx dx c i j : lap5 ny nx dx (fconst c) i j = 0.
Proof. rewrite lap5_R. unfold fconst, Rdiv. ring. Qed.
Lemma cdy_const ny dx c i j : cdy ny dx (fconst c) i j = 0.
Proof. rewrite cdy_R. unfold fconst, Rdiv. ring. Qed.
Lemma cdx_const nx dx c i j : cdx nx dx (fconst c) i j = 0.
Proof. rewrite cdx_R. unfold fconst, Rdiv. ring. Qed.

(** zero sums *)
Lemma gsum_lap5 ny nx dx f : (0 < ny)%nat -> (0 < nx)%nat -> gsum ny nx (lap5 ny nx dx f) = 0.
Proof.
  intros Hy Hx.
  rewrite (gsum_ext ny nx _ (fun i j =>
    (f (sh ny i (-1)) j + f (sh ny i 1) j + f i (sh nx j (-1)) + f i (sh nx j 1) - 4 * f i j) * / (dx * dx))).
  2:{ intros; apply lap5_R. }
  rewrite gsum_scal_r, gsum_sub, !gsum_add, gsum_scal.
  rewrite !gsum_shift_y, !gsum_shift_x by assumption. ring.
Qed.
Lemma gsum_cdy ny nx dx f : (0 < ny)%nat -> gsum ny nx (cdy ny dx f) = 0.
Proof.
  intros Hy.
  rewrite (gsum_ext ny nx _ (fun i j => (f (sh ny i 1) j - f (sh ny i (-1)) j) * / (2 * dx))) by reflexivity.
  rewrite gsum_scal_r, gsum_sub, !gsum_shift_y by assumption. ring.
Qed.
Lemma gsum_cdx ny nx dx f : (0 < nx)%nat -> gsum ny nx (cdx nx dx f) = 0.
Proof.
  intros Hx.
  rewrite (gsum_ext ny nx _ (fun i j => (f i (sh nx j 1) - f i (sh nx j (-1))) * / (2 * dx))) by reflexivity.
  rewrite gsum_scal_r, gsum_sub, !gsum_shift_x by assumption. ring.
Qed.

(** summation by parts in one dimension *)
Lemma sbp1 n (u v : nat -> R) : (0 < n)%nat ->
  rsum n (fun i => u i * (v (sh n i (-1)) + v (sh n i 1) - 2 * v i)) =
  - rsum n (fun i => (u (sh n i 1) - u i) * (v (sh n i 1) - v i)).
Proof.
  intros Hn.
  assert (E1 : rsum n (fun i => u i * v (sh n i (-1))) = rsum n (fun i => u (sh n i 1) * v i)).
  { rewrite <- (rsum_shift n 1 (fun i => u i * v (sh n i (-1)))) by assumption.
    apply rsum_ext; intros i Hi. rewrite sh_sh by assumption.
    replace (1 + -1)%Z with 0%Z by lia. now rewrite sh_0. }
  assert (E2 : rsum n (fun i => u (sh n i 1) * v (sh n i 1)) = rsum n (fun i => u i * v i)).
  { exact (rsum_shift n 1 (fun i => u i * v i) Hn). }
  rewrite (rsum_ext n _ (fun i => u i * v (sh n i (-1)) + u i * v (sh n i 1) - 2 * (u i * v i)))
    by (intros; ring).
  rewrite rsum_sub, rsum_add, rsum_scal, E1.
  rewrite (rsum_ext n (fun i => (u (sh n i 1) - u i) * (v (sh n i 1) - v i))
     (fun i => u (sh n i 1) * v (sh n i 1) + u i * v i - (u (sh n i 1) * v i + u i * v (sh n i 1))))
    by (intros; ring).
  rewrite rsum_sub, !rsum_add, E2. ring.
Qed.

Lemma cd1 n (u v : nat -> R) : (0 < n)%nat ->
  rsum n (fun i => u i * (v (sh n i 1) - v (sh n i (-1)))) =
  - rsum n (fun i => (u (sh n i 1) - u (sh n i (-1))) * v i).
Proof.
  intros Hn.
  assert (E1 : rsum n (fun i => u i * v (sh n i (-1))) = rsum n (fun i => u (sh n i 1) * v i)).
  { rewrite <- (rsum_shift n 1 (fun i => u i * v (sh n i (-1)))) by assumption.
    apply rsum_ext; intros i Hi. rewrite sh_sh by assumption.
    replace (1 + -1)%Z with 0%Z by lia. now rewrite sh_0. }
  assert (E2 : rsum n (fun i => u i * v (sh n i 1)) = rsum n (fun i => u (sh n i (-1)) * v i)).
  { rewrite <- (rsum_shift n (-1) (fun i => u i * v (sh n i 1))) by assumption.
    apply rsum_ext; intros i Hi. rewrite sh_sh by assumption.
    replace (-1 + 1)%Z with 0%Z by lia. now rewrite sh_0. }
  rewrite (rsum_ext n _ (fun i => u i * v (sh n i 1) - u i * v (sh n i (-1)))) by (intros; ring).
  rewrite (rsum_ext n (fun i => (u (sh n i 1) - u (sh n i (-1))) * v i)
     (fun i => u (sh n i 1) * v i - u (sh n i (-1)) * v i)) by (intros; ring).
  rewrite !rsum_sub, E1, E2. ring.
Qed.

Lemma inner_cdx ny nx dx f g : (0 < nx)%nat ->
  inner ny nx f (cdx nx dx g) = - inner ny nx (cdx nx dx f) g.
Proof.
  intros Hx. unfold inner, gsum. rewrite <- rsum_opp. apply rsum_ext; intros i Hi.
  rewrite (rsum_ext nx _ (fun j => (f i j * (g i (sh nx j 1) - g i (sh nx j (-1)))) * / (2 * dx)))
    by (intros; rewrite cdx_R; unfold Rdiv; ring).
  rewrite rsum_scal_r, (cd1 nx (f i) (g i) Hx).
  rewrite (rsum_ext nx (fun j => cdx nx dx f i j * g i j)
     (fun j => ((f i (sh nx j 1) - f i (sh nx j (-1))) * g i j) * / (2 * dx)))
    by (intros; rewrite cdx_R; unfold Rdiv; ring).
  rewrite rsum_scal_r. ring.
Qed.

Lemma inner_swap ny nx f g : inner ny nx f g = inner nx ny (fun j i => f i j) (fun j i => g i j).
Proof. unfold inner. apply gsum_swap. Qed.

Lemma inner_cdy ny nx dx f g : (0 < ny)%nat ->
  inner ny nx f (cdy ny dx g) = - inner ny nx (cdy ny dx f) g.
Proof.
  intros Hy. rewrite !(inner_swap ny nx).
  exact (inner_cdx nx ny dx (fun j i => f i j) (fun j i => g i j) Hy).
Qed.

(** discrete Dirichlet form *)
Definition dirichlet ny nx f g : R :=
  gsum ny nx (fun i j => fdx nx f i j * fdx nx g i j + fdy ny f i j * fdy ny g i j).

Lemma inner_lap5 ny nx dx f g : (0 < ny)%nat -> (0 < nx)%nat ->
  inner ny nx f (lap5 ny nx dx g) = - (dirichlet ny nx f g / (dx * dx)).
Proof.
  intros Hy Hx. unfold inner, dirichlet.
  rewrite (gsum_ext ny nx _ (fun i j =>
     (f i j * (g i (sh nx j (-1)) + g i (sh nx j 1) - 2 * g i j) +
      f i j * (g (sh ny i (-1)) j + g (sh ny i 1) j - 2 * g i j)) * / (dx * dx)))
   by (intros; rewrite lap5_R; unfold Rdiv; ring).
  rewrite gsum_scal_r, gsum_add.
  assert (Ex : gsum ny nx (fun i j => f i j * (g i (sh nx j (-1)) + g i (sh nx j 1) - 2 * g i j)) =
               - gsum ny nx (fun i j => fdx nx f i j * fdx nx g i j)).
  { unfold gsum. rewrite <- rsum_opp. apply rsum_ext; intros i Hi. exact (sbp1 nx (f i) (g i) Hx). }
  assert (Ey : gsum ny nx (fun i j => f i j * (g (sh ny i (-1)) j + g (sh ny i 1) j - 2 * g i j)) =
               - gsum ny nx (fun i j => fdy ny f i j * fdy ny g i j)).
  { rewrite (gsum_swap ny nx), (gsum_swap ny nx (fun i j => fdy ny f i j * fdy ny g i j)).
    unfold gsum. rewrite <- rsum_opp. apply rsum_ext; intros j Hj.
    exact (sbp1 ny (fun i => f i j) (fun i => g i j) Hy). }
  rewrite Ex, Ey, gsum_add. unfold Rdiv. ring.
Qed.

Lemma dirichlet_sym ny nx f g : dirichlet ny nx f g = dirichlet ny nx g f.
Proof. unfold dirichlet. apply gsum_ext; intros; ring. Qed.

Lemma dirichlet_nonneg ny nx f : 0 <= dirichlet ny nx f f.
Proof. unfold dirichlet. apply gsum_nonneg; intros i j _ _. nra. Qed.

Lemma inner_sym ny nx f g : inner ny nx f g = inner ny nx g f.
Proof. unfold inner. apply gsum_ext; intros; ring. Qed.

Lemma lap5_selfadjoint ny nx dx f g : (0 < ny)%nat -> (0 < nx)%nat ->
  inner ny nx f (lap5 ny nx dx g) = inner ny nx (lap5 ny nx dx f) g.
Proof.
  intros Hy Hx. rewrite (inner_sym ny nx (lap5 ny nx dx f) g).
  rewrite !inner_lap5 by assumption. now rewrite dirichlet_sym.
Qed.

(** the Dirichlet form vanishes exactly on constants *)
Lemma dirichlet_0 ny nx f : (0 < ny)%nat -> (0 < nx)%nat ->
  (dirichlet ny nx f f = 0 <-> is_const ny nx f).
Proof.
  intros Hy Hx. unfold dirichlet. rewrite gsum_0_iff by (intros; nra). split.
  - intros H.
    assert (Hdx : forall i j, (i < ny)%nat -> (j < nx)%nat -> fdx nx f i j = 0 /\ fdy ny f i j = 0).
    { intros i j Hi Hj. specialize (H i j Hi Hj). split; nra. }
    assert (Hrow : forall i j, (i < ny)%nat -> (j < nx)%nat -> f i j = f i 0%nat).
    { intros i j Hi; induction j as [|j IH]; intros Hj; [reflexivity|].
      destruct (Hdx i j Hi ltac:(lia)) as [E _]. unfold fdx, sh in E.
      replace (Z.of_nat j + 1)%Z with (Z.of_nat (S j)) in E by lia.
      rewrite pidx_small in E by lia. rewrite <- IH by lia. lra. }
    assert (Hcol : forall i, (i < ny)%nat -> f i 0%nat = f 0%nat 0%nat).
    { intros i; induction i as [|i IH]; intros Hi; [reflexivity|].
      destruct (Hdx i 0%nat ltac:(lia) ltac:(lia)) as [_ E]. unfold fdy, sh in E.
      replace (Z.of_nat i + 1)%Z with (Z.of_nat (S i)) in E by lia.
      rewrite pidx_small in E by lia. rewrite <- IH by lia. lra. }
    intros i j i' j' Hi Hj Hi' Hj'.
    rewrite (Hrow i j), (Hrow i' j'), (Hcol i), (Hcol i') by assumption. reflexivity.
  - intros H i j Hi Hj. unfold fdx, fdy.
    rewrite (H i (sh nx j 1) i j), (H (sh ny i 1) j i j) by (try assumption; apply sh_lt; assumption).
    ring.
Qed.

Lemma lap5_neg ny nx dx f : (0 < ny)%nat -> (0 < nx)%nat -> dx <> 0 ->
  inner ny nx f (lap5 ny nx dx f) <= 0 /\
  (inner ny nx f (lap5 ny nx dx f) = 0 <-> is_const ny nx f).
Proof.
  intros Hy Hx Hdx. rewrite inner_lap5 by assumption.
  pose proof (dirichlet_nonneg ny nx f) as Hd.
  assert (Hp : 0 < / (dx * dx)) by (apply Rinv_0_lt_compat; nra).
  unfold Rdiv. split; [nra|].
  rewrite <- dirichlet_0 by assumption. split; intros H; [|rewrite H; ring].
  apply Rmult_eq_reg_r with (/ (dx * dx)); lra.
Qed.

(** ** iterates *)
Lemma lap_iter_selfadjoint m ny nx dx f g : (0 < ny)%nat -> (0 < nx)%nat ->
  inner ny nx f (lap_iter m ny nx dx g) = inner ny nx (lap_iter m ny nx dx f) g.
Proof.
  intros Hy Hx. revert f; induction m as [|m IH]; intros f; [reflexivity|].
  cbn [lap_iter]. rewrite lap5_selfadjoint by assumption. rewrite IH.
  now rewrite <- lap_iter_S_r.
Qed.

Lemma lap_iter_add m k ny nx dx f :
  lap_iter (m + k) ny nx dx f = lap_iter m ny nx dx (lap_iter k ny nx dx f).
Proof. induction m as [|m IH]; [reflexivity|]. cbn [Nat.add lap_iter]. now rewrite IH. Qed.

Lemma lap_iter_lin m ny nx dx a b f g i j :
  lap_iter m ny nx dx (fadd (fscale a f) (fscale b g)) i j =
  a * lap_iter m ny nx dx f i j + b * lap_iter m ny nx dx g i j.
Proof.
  revert i j; induction m as [|m IH]; intros i j; [reflexivity|]. cbn [lap_iter].
  rewrite !lap5_R, !IH. unfold Rdiv. ring.
Qed.

Lemma gsum_lap_iter m ny nx dx f : (0 < ny)%nat -> (0 < nx)%nat -> (1 <= m)%nat ->
  gsum ny nx (lap_iter m ny nx dx f) = 0.
Proof. intros Hy Hx Hm. destruct m; [lia|]. cbn [lap_iter]. now apply gsum_lap5. Qed.

Lemma is_const_lap ny nx dx f : (0 < ny)%nat -> (0 < nx)%nat -> is_const ny nx f ->
  forall i j, (i < ny)%nat -> (j < nx)%nat -> lap5 ny nx dx f i j = 0.
Proof.
  intros Hy Hx H i j Hi Hj. rewrite lap5_R.
  rewrite (H (sh ny i (-1)) j i j), (H (sh ny i 1) j i j), (H i (sh nx j (-1)) i j), (H i (sh nx j 1) i j)
    by (try assumption; apply sh_lt; assumption). unfold Rdiv; ring.
Qed.

Lemma is_const_lap_inv ny nx dx f : (0 < ny)%nat -> (0 < nx)%nat -> dx <> 0 ->
  (forall i j, (i < ny)%nat -> (j < nx)%nat -> lap5 ny nx dx f i j = 0) -> is_const ny nx f.
Proof.
  intros Hy Hx Hdx H. apply (proj2 (lap5_neg ny nx dx f Hy Hx Hdx)).
  unfold inner. rewrite (gsum_ext ny nx _ (fun _ _ => 0)); [apply gsum_zero|].
  intros i j Hi Hj. rewrite H by assumption. ring.
Qed.

Lemma const_zero_sum ny nx f : (0 < ny)%nat -> (0 < nx)%nat -> is_const ny nx f ->
  gsum ny nx f = 0 -> forall i j, (i < ny)%nat -> (j < nx)%nat -> f i j = 0.
Proof.
  intros Hy Hx Hc Hs i j Hi Hj.
  rewrite (gsum_ext ny nx f (fun _ _ => f i j)) in Hs by (intros; now apply Hc).
  rewrite gsum_const in Hs.
  assert (0 < INR ny) by (apply lt_0_INR; lia). assert (0 < INR nx) by (apply lt_0_INR; lia).
  assert (0 < INR ny * INR nx) by nra.
  apply Rmult_eq_reg_l with (INR ny * INR nx); lra.
Qed.

(** lap^m f constant (m >= 0) forces f constant *)
Lemma lap_iter_const_inv m ny nx dx f : (0 < ny)%nat -> (0 < nx)%nat -> dx <> 0 ->
  is_const ny nx (lap_iter m ny nx dx f) -> is_const ny nx f.
Proof.
  intros Hy Hx Hdx. induction m as [|m IH]; intros H; [exact H|].
  apply IH. apply (is_const_lap_inv ny nx dx); auto.
  intros i j Hi Hj. apply (const_zero_sum ny nx (lap5 ny nx dx (lap_iter m ny nx dx f))); auto.
  now apply gsum_lap5.
Qed.

Lemma lap_iter_const m ny nx dx f : (0 < ny)%nat -> (0 < nx)%nat -> (1 <= m)%nat ->
  is_const ny nx f -> forall i j, (i < ny)%nat -> (j < nx)%nat -> lap_iter m ny nx dx f i j = 0.
Proof.
  intros Hy Hx Hm Hc. induction m as [|m IH]; [lia|]. intros i j Hi Hj.
  cbn [lap_iter]. destruct m as [|m]; [now apply is_const_lap|].
  apply is_const_lap; auto. intros a b a' b' Ha Hb Ha' Hb'.
  rewrite !IH by (auto; lia). reflexivity.
Qed.

Lemma inner_sq_0 ny nx f : inner ny nx f f = 0 <-> (forall i j, (i < ny)%nat -> (j < nx)%nat -> f i j = 0).
Proof.
  unfold inner. rewrite gsum_0_iff by (intros; nra). split; intros H i j Hi Hj.
  - specialize (H i j Hi Hj). nra.
  - rewrite H by assumption. ring.
Qed.
Lemma inner_sq_nonneg ny nx f : 0 <= inner ny nx f f.
Proof. unfold inner. apply gsum_nonneg; intros; nra. Qed.

Lemma pow_m1_even m : (-1) ^ (m + m) = 1.
Proof. rewrite pow_add, <- Rpow_mult_distr. replace (-1 * -1) with 1 by ring. apply pow1. Qed.

(** ** the quadratic form of (-1)^(N+1) lap^N *)
Lemma hyper_form m ny nx dx f : (0 < ny)%nat -> (0 < nx)%nat -> dx <> 0 ->
  (-1) ^ (m + 1) * inner ny nx f (lap_iter m ny nx dx f) <= 0 /\
  ((1 <= m)%nat -> ((-1) ^ (m + 1) * inner ny nx f (lap_iter m ny nx dx f) = 0 <-> is_const ny nx f)).
Proof.
  intros Hy Hx Hdx. destruct (Nat.Even_or_Odd m) as [[k ->]|[k ->]].
  - replace (2 * k + 1)%nat with (k + k + 1)%nat by lia. replace (2 * k)%nat with (k + k)%nat by lia.
    rewrite pow_add, pow_m1_even, pow_1.
    rewrite lap_iter_add, lap_iter_selfadjoint by assumption.
    pose proof (inner_sq_nonneg ny nx (lap_iter k ny nx dx f)) as Hp.
    split; [lra|]. intros Hk. split.
    + intros H. apply (lap_iter_const_inv k ny nx dx); auto.
      assert (E : inner ny nx (lap_iter k ny nx dx f) (lap_iter k ny nx dx f) = 0) by lra.
      rewrite inner_sq_0 in E. intros i j i' j' Hi Hj Hi' Hj'. now rewrite !E.
    + intros H. replace (inner ny nx (lap_iter k ny nx dx f) (lap_iter k ny nx dx f)) with 0; [ring|].
      symmetry. apply inner_sq_0. intros i j Hi Hj. apply lap_iter_const; auto; lia.
  - replace (2 * k + 1 + 1)%nat with (k + k + (1 + 1))%nat by lia.
    rewrite pow_add, pow_m1_even, pow_m1_even, !Rmult_1_l.
    replace (2 * k + 1)%nat with (k + (1 + k))%nat by lia.
    rewrite lap_iter_add, lap_iter_selfadjoint by assumption.
    rewrite lap_iter_add. cbn [lap_iter].
    destruct (lap5_neg ny nx dx (lap_iter k ny nx dx f) Hy Hx Hdx) as [H1 H2].
    split; [exact H1|]. intros _. rewrite H2. split.
    + apply lap_iter_const_inv; auto.
    + intros H. destruct k as [|k]; [exact H|]. intros i j i' j' Hi Hj Hi' Hj'.
      rewrite !(lap_iter_const (S k)) by (auto; lia). reflexivity.
Qed.
