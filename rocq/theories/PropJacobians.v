(** The three Jacobians whose mean is the bracket. *)
From Coq Require Import List Arith ZArith Lia Bool Reals Lra QArith.
From Verif Require Import Num NdArray NdFacts ModelArakawa ModelJacobians Spec SpecHW GradFacts SumFacts ArakawaFacts SpecJacobians JacFacts.
Import ListNotations.
Local Open Scope R_scope.

(** ** C126 *)
(** numba's jpp, jpx, jxp over padded fields, numpy's at every cell of the
    padded arrays, phiml's with the opposite sign *)
Theorem C126_numba : forall ny nx dx (A B : field), (0 < ny)%nat -> (0 < nx)%nat ->
  let on k := slf2 s_mid s_mid (stencil k (pad_all 1 (Ok (grid ny nx A))) (pad_all 1 (Ok (grid ny nx B)))) in
  on (nb_jpp dx) = Ok (grid ny nx (j_adv ny nx dx A B)) /\
  on (nb_jpx dx) = Ok (grid ny nx (j_fluxA ny nx dx A B)) /\
  on (nb_jxp dx) = Ok (grid ny nx (j_fluxB ny nx dx A B)).
Proof. intros ny nx dx A B Hy Hx. exact (nb_three ny nx dx Hy Hx A B). Qed.
Theorem C126_numpy_phiml : forall ny nx dx (A B : field) a b i j, (0 < ny)%nat -> (0 < nx)%nat -> (i < ny)%nat -> (j < nx)%nat ->
  pad_all 1 (Ok (grid ny nx A)) = Ok a -> pad_all 1 (Ok (grid ny nx B)) = Ok b ->
  np_jpp (at2 a) (at2 b) dx (j + 1) (i + 1) = j_adv ny nx dx A B i j /\
  np_jpx (at2 a) (at2 b) dx (j + 1) (i + 1) = j_fluxA ny nx dx A B i j /\
  np_jxp (at2 a) (at2 b) dx (j + 1) (i + 1) = j_fluxB ny nx dx A B i j /\
  pm_jpp (at2 a) (at2 b) dx (i + 1) (j + 1) = - j_adv ny nx dx A B i j /\
  pm_jpx (at2 a) (at2 b) dx (i + 1) (j + 1) = - j_fluxA ny nx dx A B i j /\
  pm_jxp (at2 a) (at2 b) dx (i + 1) (j + 1) = - j_fluxB ny nx dx A B i j.
Proof.
  intros ny nx dx A B a b i j Hy Hx Hi Hj Ea Eb. rewrite pad_padded in Ea, Eb by assumption.
  assert (a = padded ny nx A) by congruence. assert (b = padded ny nx B) by congruence. subst a b.
  destruct (np_three ny nx dx Hy Hx A B i j Hi Hj) as (? & ? & ?). destruct (pm_three ny nx dx Hy Hx A B i j Hi Hj) as (? & ? & ?). tauto.
Qed.
(** the bracket is the sum with the three weights 1/3 *)
Theorem C126_mean : forall ny nx dx (A B : field) junk, (0 < ny)%nat -> (0 < nx)%nat -> dx <> 0 ->
  let M := Ok (grid ny nx (j_mix ny nx dx (1/3) (1/3) (1/3) A B)) in
  np_periodic_arakawa_vec (Ok (grid ny nx A)) (Ok (grid ny nx B)) dx = M /\
  np_periodic_arakawa junk (Ok (grid ny nx A)) (Ok (grid ny nx B)) dx = M /\
  nb_periodic_arakawa (Ok (grid ny nx A)) (Ok (grid ny nx B)) dx = M.
Proof.
  intros ny nx dx A B junk Hy Hx Hd M. rewrite np_periodic_arakawa_vec_grid, np_periodic_arakawa_grid, nb_periodic_arakawa_grid by assumption.
  repeat split; apply f_equal; apply grid_ext; intros i j Hi Hj; rewrite ?ara3_ara by assumption; now apply ara_mix.
Qed.
(** a weighted sum keeps the total; its product with either field is a multiple
    of that of the centred form *)
Theorem C126_products : forall ny nx dx a b c (A B : field), (0 < ny)%nat -> (0 < nx)%nat ->
  gsum ny nx (j_mix ny nx dx a b c A B) = 0 /\
  inner ny nx A (j_mix ny nx dx a b c A B) = (a - b) * inner ny nx A (j_adv ny nx dx A B) /\
  inner ny nx B (j_mix ny nx dx a b c A B) = (a - c) * inner ny nx B (j_adv ny nx dx A B).
Proof. intros ny nx dx a b c A B Hy Hx. split; [now apply mix_sum|]. split; [now apply mix_l|now apply mix_r]. Qed.
(** so it conserves the first (second) field's square for all fields only with
    equal first two (outer) weights, and both only as the plain mean *)
Theorem C126_weights : forall ny nx dx a b c, (3 <= ny)%nat -> (3 <= nx)%nat -> dx <> 0 ->
  ((forall A B : field, inner ny nx A (j_mix ny nx dx a b c A B) = 0) <-> a = b) /\
  ((forall A B : field, inner ny nx B (j_mix ny nx dx a b c A B) = 0) <-> a = c).
Proof. intros ny nx dx a b c Ly Lx Hd. apply only_equal; (assumption || lia). Qed.
Theorem C126_only_mean : forall ny nx dx a b c, (3 <= ny)%nat -> (3 <= nx)%nat -> dx <> 0 -> a + b + c = 1 ->
  ((forall A B : field, inner ny nx A (j_mix ny nx dx a b c A B) = 0 /\ inner ny nx B (j_mix ny nx dx a b c A B) = 0) <->
   (a = 1/3 /\ b = 1/3 /\ c = 1/3)).
Proof.
  intros ny nx dx a b c Ly Lx Hd Hs. destruct (C126_weights ny nx dx a b c Ly Lx Hd) as [W1 W2]. split.
  - intros H. assert (a = b) by (apply W1; intros; apply H). assert (a = c) by (apply W2; intros; apply H). repeat split; lra.
  - intros (-> & -> & ->) A B. split; [now apply W1|now apply W2].
Qed.
(** single Jacobians: jpp conserves neither, jpx only the second, jxp only the first *)
Theorem C126_single_refuted : forall ny nx dx, (3 <= ny)%nat -> (3 <= nx)%nat -> dx <> 0 -> exists A B : field,
  inner ny nx A (j_adv ny nx dx A B) <> 0 /\ inner ny nx A (j_fluxA ny nx dx A B) <> 0 /\
  inner ny nx A (j_adv ny nx dx B A) <> 0 /\ inner ny nx A (j_fluxB ny nx dx B A) <> 0.
Proof.
  intros ny nx dx Ly Lx Hd. exists wit_g, wit_f. pose proof (q_ne dx Hd) as Q.
  rewrite inn_fA_l, inn_fB_r, adv_wit_l, adv_wit by (assumption || lia). repeat split; lra.
Qed.
(** on quadratics the centred form is exact and the flux forms are off by
    constants of second order in the spacing *)
Theorem C126_quadratics : forall dx a0 a1 a2 a3 a4 a5 b0 b1 b2 b3 b4 b5 y x, dx <> 0 ->
  let za a b := quad a0 a1 a2 a3 a4 a5 (y + IZR a * dx) (x + IZR b * dx) in
  let zb a b := quad b0 b1 b2 b3 b4 b5 (y + IZR a * dx) (x + IZR b * dx) in
  let J := quad_dx a0 a1 a2 a3 a4 a5 y x * quad_dy b0 b1 b2 b3 b4 b5 y x - quad_dy a0 a1 a2 a3 a4 a5 y x * quad_dx b0 b1 b2 b3 b4 b5 y x in
  nb_jpp dx za zb = J /\ nb_jpx dx za zb = J - dx ^ 2 * (a3 - a5) * b4 /\ nb_jxp dx za zb = J + dx ^ 2 * a4 * (b3 - b5).
Proof. exact jac_quad. Qed.
(** three cells by three: the products are not zero *)
Example C126_example : inner 3 3 wit_g (j_adv 3 3 1 wit_f wit_g) = 1 / 4 /\ inner 3 3 wit_g (j_mix 3 3 1 (1/2) (1/2) 0 wit_f wit_g) = 1 / 8.
Proof. split; [|rewrite mix_r by lia]; rewrite adv_wit by lia; field. Qed.
Print Assumptions C126_numba.
Print Assumptions C126_numpy_phiml.
Print Assumptions C126_mean.
Print Assumptions C126_products.
Print Assumptions C126_weights.
Print Assumptions C126_only_mean.
Print Assumptions C126_single_refuted.
Print Assumptions C126_quadratics.
