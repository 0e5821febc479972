(** Property-shaped lemmas for C07-C11. *)
From Coq Require Import List Arith ZArith Lia Bool Reals QArith Lra.
From Verif Require Import Num NdArray NdFacts ModelArakawa Spec GradFacts SumFacts LapFacts GradProps ArakawaFacts.
Import ListNotations.
Local Open Scope nat_scope.

Lemma c07_bits (A : Type) (N : Num A) (z p : arr A) (dx : A) :
  wf z -> wf p -> length (shape z) = 2 -> shape p = shape z ->
  nb_periodic_arakawa_stencil (Ok z) (Ok p) dx = np_periodic_arakawa_vec (Ok z) (Ok p) dx /\
  nb_periodic_arakawa_vec (Ok z) (Ok p) dx = np_periodic_arakawa_vec (Ok z) (Ok p) dx.
Proof.
  intros Hz Hp Hl Hs. split; [|reflexivity].
  destruct (shape z) as [|nx [|ny [|? ?]]] eqn:Ez; cbn in Hl; try lia.
  rewrite (wf_grid z nx ny Hz Ez), (wf_grid p nx ny Hp Hs).
  destruct (Nat.eq_dec ny 0) as [Hy|Hy]; [|destruct (Nat.eq_dec nx 0) as [Hx|Hx]].
  3:{ rewrite nb_periodic_arakawa_stencil_grid, np_periodic_arakawa_vec_grid by lia. reflexivity. }
  all: unfold nb_periodic_arakawa_stencil, np_periodic_arakawa_vec;
    rewrite !pad_all_empty by lia; reflexivity.
Qed.

Lemma c07_exact (junk : nat -> nat -> R) (z p : arr R) (dx : R) :
  wf z -> wf p -> length (shape z) = 2 -> shape p = shape z -> dx <> 0%R ->
  np_periodic_arakawa junk (Ok z) (Ok p) dx = np_periodic_arakawa_vec (Ok z) (Ok p) dx /\
  nb_periodic_arakawa (Ok z) (Ok p) dx = np_periodic_arakawa_vec (Ok z) (Ok p) dx.
Proof.
  intros Hz Hp Hl Hs Hdx.
  destruct (shape z) as [|nx [|ny [|? ?]]] eqn:Ez; cbn in Hl; try lia.
  rewrite (wf_grid z nx ny Hz Ez), (wf_grid p nx ny Hp Hs).
  destruct (Nat.eq_dec ny 0) as [Hy|Hy]; [|destruct (Nat.eq_dec nx 0) as [Hx|Hx]].
  3:{ rewrite np_periodic_arakawa_grid, nb_periodic_arakawa_grid, np_periodic_arakawa_vec_grid by lia.
      split; f_equal; apply grid_ext; intros; now apply ara3_ara. }
  all: unfold np_periodic_arakawa, nb_periodic_arakawa, np_periodic_arakawa_vec;
    rewrite !pad_all_empty by lia; split; reflexivity.
Qed.

(** bit-level agreement of the two three-term versions *)
Lemma c07_three_term (A : Type) (N : Num A) (junk : nat -> nat -> A) ny nx (dx : A) f g :
  0 < ny -> 0 < nx ->
  np_periodic_arakawa junk (Ok (grid ny nx f)) (Ok (grid ny nx g)) dx =
  nb_periodic_arakawa (Ok (grid ny nx f)) (Ok (grid ny nx g)) dx.
Proof. intros Hy Hx. now rewrite np_periodic_arakawa_grid, nb_periodic_arakawa_grid. Qed.

Definition bracket ny nx dx f g (J : nat -> nat -> R) : Prop :=
  np_periodic_arakawa_vec (Ok (grid ny nx f)) (Ok (grid ny nx g)) dx = Ok (grid ny nx J).

Lemma bracket_val ny nx dx f g J : 0 < ny -> 0 < nx -> bracket ny nx dx f g J ->
  forall i j, i < ny -> j < nx -> J i j = ara ny nx dx f g i j.
Proof.
  intros Hy Hx H i j Hi Hj. unfold bracket in H.
  rewrite np_periodic_arakawa_vec_grid in H by assumption.
  symmetry. now apply (grid_ok_inj _ _ _ _ H).
Qed.

Local Open Scope R_scope.
Lemma c08 : forall ny nx (dx : R), (0 < ny)%nat -> (0 < nx)%nat ->
  exists J : (nat -> nat -> R) -> (nat -> nat -> R) -> (nat -> nat -> R),
    (forall f g, np_periodic_arakawa_vec (Ok (grid ny nx f)) (Ok (grid ny nx g)) dx = Ok (grid ny nx (J f g))) /\
    (forall f g i j, J f g i j = - J g f i j) /\
    (forall a b f g h i j, J (fadd (fscale a f) (fscale b g)) h i j = a * J f h i j + b * J g h i j) /\
    (forall a b f g h i j, J h (fadd (fscale a f) (fscale b g)) i j = a * J h f i j + b * J h g i j) /\
    (forall f i j, J f f i j = 0) /\
    (forall f c i j, J f (fconst c) i j = 0).
Proof.
  intros ny nx dx Hy Hx. exists (ara ny nx dx). repeat split; intros.
  - now apply np_periodic_arakawa_vec_grid.
  - apply ara_antisym.
  - apply ara_lin_l.
  - apply ara_lin_r.
  - apply ara_self.
  - apply ara_const.
Qed.

Lemma c09 : forall ny nx (dx : R) f g J, (0 < ny)%nat -> (0 < nx)%nat ->
  np_periodic_arakawa_vec (Ok (grid ny nx f)) (Ok (grid ny nx g)) dx = Ok (grid ny nx J) ->
  gsum ny nx J = 0 /\ inner ny nx f J = 0 /\ inner ny nx g J = 0.
Proof.
  intros ny nx dx f g J Hy Hx H. pose proof (bracket_val ny nx dx f g J Hy Hx H) as E.
  repeat split.
  - rewrite (gsum_ext ny nx J (ara ny nx dx f g)) by auto. now apply gsum_ara.
  - rewrite (inner_ext ny nx f f J (ara ny nx dx f g)) by auto. now apply inner_ara_l.
  - rewrite (inner_ext ny nx g g J (ara ny nx dx f g)) by auto. now apply inner_ara_r.
Qed.

(** C10: padded samples of polynomials *)
Lemma c10 : forall ny nx dx a0 a1 a2 a3 a4 a5 b0 b1 b2 b3 b4 b5, dx <> 0 ->
  let za i j := quad a0 a1 a2 a3 a4 a5 (INR i * dx) (INR j * dx) in
  let zb i j := quad b0 b1 b2 b3 b4 b5 (INR i * dx) (INR j * dx) in
  np_arakawa_vec (Ok (grid (1 + ny + 1) (1 + nx + 1) za)) (Ok (grid (1 + ny + 1) (1 + nx + 1) zb)) dx =
  Ok (grid ny nx (fun i j =>
    let y := INR (i + 1) * dx in let x := INR (j + 1) * dx in
    quad_dx a0 a1 a2 a3 a4 a5 y x * quad_dy b0 b1 b2 b3 b4 b5 y x
    - quad_dy a0 a1 a2 a3 a4 a5 y x * quad_dx b0 b1 b2 b3 b4 b5 y x
    + dx ^ 2 / 3 * (a4 * (b3 - b5) - (a3 - a5) * b4))).
Proof.
  intros ny nx dx a0 a1 a2 a3 a4 a5 b0 b1 b2 b3 b4 b5 Hdx za zb.
  rewrite np_arakawa_vec_grid. f_equal. apply grid_ext. intros i j Hi Hj. cbv zeta.
  rewrite <- kernel_quad2 by exact Hdx.
  change (ndiv ?a (twelve_dx2 dx)) with (a / (12 * dx ^ 2)). f_equal.
  assert (E : forall k d, (-1 <= d <= 1)%Z -> INR (Z.to_nat (Z.of_nat (k + 1) + d)) = INR (k + 1) + IZR d).
  { intros k d Hd. rewrite !INR_IZR_INZ, <- plus_IZR. f_equal. lia. }
  unfold nb_kernel, za, zb. rewrite !E by lia. rewrite !Rmult_plus_distr_r. reflexivity.
Qed.

Lemma kernel_transpose (z p : Z -> Z -> R) :
  nb_kernel (fun a b => z b a) (fun a b => p b a) = - nb_kernel z p.
Proof. unfold nb_kernel. cbn [nadd nsub nmul NumR]. ring. Qed.

Lemma c11 : forall ny nx (dx : R) f g, (0 < ny)%nat -> (0 < nx)%nat ->
  exists J, np_periodic_arakawa_vec (Ok (grid ny nx f)) (Ok (grid ny nx g)) dx = Ok (grid ny nx J) /\
            pm_periodic_arakawa_vec (Ok (grid ny nx f)) (Ok (grid ny nx g)) dx = Ok (grid ny nx (fopp J)).
Proof.
  intros ny nx dx f g Hy Hx. exists (ara ny nx dx f g).
  split; [now apply np_periodic_arakawa_vec_grid|].
  destruct (pm_periodic_arakawa_vec_grid ny nx dx f g Hy Hx) as (h & E & Hh).
  rewrite E. f_equal. apply grid_ext. intros i j Hi Hj. rewrite Hh by assumption.
  rewrite (kernel_transpose (fun a b => P ny nx f a b i j) (fun a b => P ny nx g a b i j)).
  unfold fopp, ara. cbn [ndiv NumR]. unfold Rdiv. ring.
Qed.
