(** All bracket implementations, and the conservation laws of the stencil. *)
From Coq Require Import List Arith ZArith Lia Bool Reals Lra Psatz.
From Verif Require Import Num NdArray NdFacts ModelArakawa Spec GradFacts SumFacts.
Import ListNotations.

Section Generic.
Context {A : Type} {N : Num A}.
Implicit Types f g : nat -> nat -> A.

(** read at a periodic offset *)
Definition P (ny nx : nat) f (dy dx : Z) (i j : nat) : A := f (sh ny i dy) (sh nx j dx).

(** the bracket at one cell, in the evaluation order of the source *)
Definition ara (ny nx : nat) (dx : A) f g (i j : nat) : A :=
  ndiv (nb_kernel (fun a b => P ny nx f a b i j) (fun a b => P ny nx g a b i j)) (twelve_dx2 dx).

Lemma np_arakawa_vec_grid ny nx dx f g :
  np_arakawa_vec (Ok (grid (1 + ny + 1) (1 + nx + 1) f)) (Ok (grid (1 + ny + 1) (1 + nx + 1) g)) dx =
  Ok (grid ny nx (fun i j =>
     ndiv (nb_kernel (fun a b => f (Z.to_nat (Z.of_nat (i + 1) + a)) (Z.to_nat (Z.of_nat (j + 1) + b)))
                     (fun a b => g (Z.to_nat (Z.of_nat (i + 1) + a)) (Z.to_nat (Z.of_nat (j + 1) + b))))
          (twelve_dx2 dx))).
Proof.
  unfold np_arakawa_vec, add_, sub_, mul_, div_.
  rewrite !slf2_grid by (cbn; lia).
  rewrite !s_lo_len, !s_hi_len, !s_mid_len. unfold grid.
  repeat rewrite lift2_stack. rewrite lift2_stack_scr.
  f_equal. apply stack_ext. intros r i j _ Hi Hj.
  rewrite !s_lo_idx, !s_hi_idx, !s_mid_idx. unfold nb_kernel.
  assert (E1 : forall k, Z.to_nat (Z.of_nat (k + 1) + 1) = k + 2) by (intros; lia).
  assert (E0 : forall k, Z.to_nat (Z.of_nat (k + 1) + 0) = k + 1) by (intros; lia).
  assert (Em : forall k, Z.to_nat (Z.of_nat (k + 1) + -1) = k) by (intros; lia).
  rewrite !E1, !E0, !Em. reflexivity.
Qed.

Lemma wrap_rd n i d : i < n -> (-1 <= d <= 1)%Z ->
  wrap n 1 (Z.to_nat (Z.of_nat (i + 1) + d)) = sh n i d.
Proof. intros Hi Hd. unfold wrap, sh. f_equal. lia. Qed.

Lemma np_periodic_arakawa_vec_grid ny nx dx f g : 0 < ny -> 0 < nx ->
  np_periodic_arakawa_vec (Ok (grid ny nx f)) (Ok (grid ny nx g)) dx =
  Ok (grid ny nx (ara ny nx dx f g)).
Proof.
  intros Hy Hx. unfold np_periodic_arakawa_vec. rewrite !pad_all_grid by assumption.
  rewrite np_arakawa_vec_grid. f_equal. apply grid_ext. intros i j Hi Hj.
  unfold ara, nb_kernel, P. rewrite !wrap_rd by (try assumption; lia). reflexivity.
Qed.

Lemma interior_true ny nx i j : interior (1 + ny + 1) (1 + nx + 1) (i + 1) (j + 1) = true <-> (i < ny /\ j < nx).
Proof.
  unfold interior. rewrite !andb_true_iff, !Nat.leb_le, !Nat.ltb_lt. lia.
Qed.

Lemma stencil_grid k ny nx f g :
  stencil k (Ok (grid (1 + ny + 1) (1 + nx + 1) f)) (Ok (grid (1 + ny + 1) (1 + nx + 1) g)) =
  Ok (grid (1 + ny + 1) (1 + nx + 1) (fun i j =>
    if interior (1 + ny + 1) (1 + nx + 1) i j
    then k (fun a b => at2 (grid (1 + ny + 1) (1 + nx + 1) f) (Z.to_nat (Z.of_nat i + a)) (Z.to_nat (Z.of_nat j + b)))
           (fun a b => at2 (grid (1 + ny + 1) (1 + nx + 1) g) (Z.to_nat (Z.of_nat i + a)) (Z.to_nat (Z.of_nat j + b)))
    else nzero)).
Proof.
  unfold stencil. cbn [bind grid stack build shape]. rewrite !Nat.ltb_irrefl. reflexivity.
Qed.

Lemma rd_grid ny nx f i j a b : i < ny -> j < nx -> (-1 <= a <= 1)%Z -> (-1 <= b <= 1)%Z ->
  at2 (grid (1 + ny + 1) (1 + nx + 1) f) (Z.to_nat (Z.of_nat (i + 1) + a)) (Z.to_nat (Z.of_nat (j + 1) + b)) =
  f (Z.to_nat (Z.of_nat (i + 1) + a)) (Z.to_nat (Z.of_nat (j + 1) + b)).
Proof. intros. apply at2_grid; lia. Qed.

Lemma nb_periodic_arakawa_stencil_grid ny nx dx f g : 0 < ny -> 0 < nx ->
  nb_periodic_arakawa_stencil (Ok (grid ny nx f)) (Ok (grid ny nx g)) dx =
  Ok (grid ny nx (ara ny nx dx f g)).
Proof.
  intros Hy Hx. unfold nb_periodic_arakawa_stencil, nb_arakawa_stencil_full.
  rewrite !pad_all_grid by assumption. rewrite stencil_grid.
  rewrite slf2_grid by (cbn; lia). rewrite !s_mid_len.
  unfold div_. rewrite lift2_grid_scr. f_equal. apply grid_ext.
  intros i j Hi Hj. rewrite !s_mid_idx.
  rewrite (proj2 (interior_true ny nx i j)) by auto.
  unfold ara, nb_kernel, P.
  rewrite !rd_grid by (try assumption; lia).
  rewrite !wrap_rd by (try assumption; lia). reflexivity.
Qed.

Lemma nb_periodic_arakawa_vec_eq (z p : nd A) dx :
  nb_periodic_arakawa_vec z p dx = np_periodic_arakawa_vec z p dx.
Proof. reflexivity. Qed.

(** three-term versions: cell value *)
Definition ara3 (ny nx : nat) (dx : A) f g (i j : nat) : A :=
  let z a b := P ny nx f a b i j in let p a b := P ny nx g a b i j in
  ndiv (nadd (nadd (nb_jpp dx z p) (nb_jpx dx z p)) (nb_jxp dx z p)) (nofZ 3).

Lemma nb_periodic_arakawa_grid ny nx dx f g : 0 < ny -> 0 < nx ->
  nb_periodic_arakawa (Ok (grid ny nx f)) (Ok (grid ny nx g)) dx =
  Ok (grid ny nx (ara3 ny nx dx f g)).
Proof.
  intros Hy Hx. unfold nb_periodic_arakawa, nb_arakawa.
  rewrite !pad_all_grid by assumption. rewrite !stencil_grid.
  unfold div_, add_. rewrite !lift2_grid, lift2_grid_scr.
  rewrite slf2_grid by (cbn; lia). rewrite !s_mid_len.
  f_equal. apply grid_ext. intros i j Hi Hj. rewrite !s_mid_idx.
  rewrite (proj2 (interior_true ny nx i j)) by auto.
  unfold ara3, nb_jpp, nb_jpx, nb_jxp, P.
  rewrite !rd_grid by (try assumption; lia).
  rewrite !wrap_rd by (try assumption; lia). reflexivity.
Qed.

Lemma np_periodic_arakawa_grid junk ny nx dx f g : 0 < ny -> 0 < nx ->
  np_periodic_arakawa junk (Ok (grid ny nx f)) (Ok (grid ny nx g)) dx =
  Ok (grid ny nx (ara3 ny nx dx f g)).
Proof.
  intros Hy Hx. unfold np_periodic_arakawa.
  rewrite !pad_all_grid by assumption. unfold np_arakawa. cbn [bind grid stack build shape].
  rewrite !Nat.ltb_irrefl. cbn [orb]. rewrite andb_false_r.
  rewrite slf2_grid by (cbn; lia).
  change (S (ny + 1)) with (1 + ny + 1). change (S (nx + 1)) with (1 + nx + 1).
  rewrite !s_mid_len. f_equal. apply grid_ext. intros i j Hi Hj. rewrite !s_mid_idx.
  rewrite (proj2 (interior_true ny nx i j)) by auto.
  fold (@grid A).
  change (build [1 + nx + 1; 1 + ny + 1] (fun ix => f (wrap ny 1 (nth 1 ix 0)) (wrap nx 1 (nth 0 ix 0))))
    with (grid (1 + ny + 1) (1 + nx + 1) (fun i j => f (wrap ny 1 i) (wrap nx 1 j))).
  change (build [1 + nx + 1; 1 + ny + 1] (fun ix => g (wrap ny 1 (nth 1 ix 0)) (wrap nx 1 (nth 0 ix 0))))
    with (grid (1 + ny + 1) (1 + nx + 1) (fun i j => g (wrap ny 1 i) (wrap nx 1 j))).
  unfold ara3, np_jpp, np_jpx, np_jxp, nb_jpp, nb_jpx, nb_jxp.
  assert (R : forall h a b, (-1 <= a <= 1)%Z -> (-1 <= b <= 1)%Z ->
     P ny nx h a b i j = at2 (grid (1 + ny + 1) (1 + nx + 1) (fun i j => h (wrap ny 1 i) (wrap nx 1 j)))
        (Z.to_nat (Z.of_nat (i + 1) + a)) (Z.to_nat (Z.of_nat (j + 1) + b))).
  { intros h a b Ha Hb. rewrite rd_grid by assumption. unfold P. now rewrite !wrap_rd. }
  rewrite !R by lia.
  assert (E1 : forall k, Z.to_nat (Z.of_nat (k + 1) + 1) = k + 1 + 1) by (intros; lia).
  assert (E0 : forall k, Z.to_nat (Z.of_nat (k + 1) + 0) = k + 1) by (intros; lia).
  assert (Em : forall k, Z.to_nat (Z.of_nat (k + 1) + -1) = k + 1 - 1) by (intros; lia).
  rewrite !E1, !E0, !Em. reflexivity.
Qed.

Lemma pm_periodic_arakawa_vec_grid ny nx dx f g : 0 < ny -> 0 < nx ->
  exists h, pm_periodic_arakawa_vec (Ok (grid ny nx f)) (Ok (grid ny nx g)) dx = Ok (grid ny nx h) /\
  forall i j, i < ny -> j < nx ->
   h i j = ndiv (nb_kernel (fun a b => P ny nx f b a i j) (fun a b => P ny nx g b a i j)) (twelve_dx2 dx).
Proof.
  intros Hy Hx. eexists. split.
  - unfold pm_periodic_arakawa_vec. unfold grid. rewrite !pad_last2_stack by assumption.
    unfold pm_arakawa_vec, add_, sub_, mul_, div_.
    rewrite !sl2_stack by (cbn; lia).
    rewrite !s_lo_len, !s_hi_len, !s_mid_len.
    repeat rewrite lift2_stack. rewrite lift2_stack_scr. reflexivity.
  - intros i j Hi Hj. cbn beta.
    rewrite !s_lo_idx, !s_hi_idx, !s_mid_idx.
    rewrite !wrap1_1, !wrap1_2, !wrap1_0 by assumption.
    unfold nb_kernel, P. rewrite !sh_0 by assumption. reflexivity.
Qed.

End Generic.

Local Open Scope R_scope.
Implicit Types f g h : nat -> nat -> R.

Lemma ara_R ny nx dx f g i j :
  ara ny nx dx f g i j =
  (let z a b := P ny nx f a b i j in let p a b := P ny nx g a b i j in
   z 0%Z 1%Z * (p 1%Z 0%Z - p (-1)%Z 0%Z + p 1%Z 1%Z - p (-1)%Z 1%Z)
   - z 0%Z (-1)%Z * (p 1%Z 0%Z - p (-1)%Z 0%Z + p 1%Z (-1)%Z - p (-1)%Z (-1)%Z)
   - z 1%Z 0%Z * (p 0%Z 1%Z - p 0%Z (-1)%Z + p 1%Z 1%Z - p 1%Z (-1)%Z)
   + z (-1)%Z 0%Z * (p 0%Z 1%Z - p 0%Z (-1)%Z + p (-1)%Z 1%Z - p (-1)%Z (-1)%Z)
   + z (-1)%Z 1%Z * (p 0%Z 1%Z - p (-1)%Z 0%Z)
   + z 1%Z 1%Z * (p 1%Z 0%Z - p 0%Z 1%Z)
   - z 1%Z (-1)%Z * (p 1%Z 0%Z - p 0%Z (-1)%Z)
   - z (-1)%Z (-1)%Z * (p 0%Z (-1)%Z - p (-1)%Z 0%Z)) * / (12 * dx ^ 2).
Proof. reflexivity. Qed.

Lemma ara3_ara ny nx dx f g i j : dx <> 0 -> ara3 ny nx dx f g i j = ara ny nx dx f g i j.
Proof.
  intros Hdx. rewrite ara_R. unfold ara3, nb_jpp, nb_jpx, nb_jxp, four_dx2.
  cbn [nadd nsub nmul ndiv npow nofZ NumR pow]. cbv zeta. field. exact Hdx.
Qed.

(** bilinear, antisymmetric, kills constants *)
Lemma ara_antisym ny nx dx f g i j : ara ny nx dx f g i j = - ara ny nx dx g f i j.
Proof. rewrite !ara_R. cbv zeta. ring. Qed.
Lemma ara_lin_l ny nx dx a b f g h i j :
  ara ny nx dx (fadd (fscale a f) (fscale b g)) h i j = a * ara ny nx dx f h i j + b * ara ny nx dx g h i j.
Proof. rewrite !ara_R. cbv zeta. unfold P, fadd, fscale. ring. Qed.
Lemma ara_lin_r ny nx dx a b f g h i j :
  ara ny nx dx h (fadd (fscale a f) (fscale b g)) i j = a * ara ny nx dx h f i j + b * ara ny nx dx h g i j.
Proof. rewrite !ara_R. cbv zeta. unfold P, fadd, fscale. ring. Qed.
Lemma ara_self ny nx dx f i j : ara ny nx dx f f i j = 0.
Proof. rewrite ara_R. cbv zeta. ring. Qed.
Lemma ara_const ny nx dx f c i j : ara ny nx dx f (fconst c) i j = 0.
Proof. rewrite ara_R. cbv zeta. unfold P, fconst. ring. Qed.

Lemma ara_ext ny nx dx f g f' g' i j : (0 < ny)%nat -> (0 < nx)%nat ->
  (forall i j, (i < ny)%nat -> (j < nx)%nat -> f i j = f' i j) ->
  (forall i j, (i < ny)%nat -> (j < nx)%nat -> g i j = g' i j) ->
  ara ny nx dx f g i j = ara ny nx dx f' g' i j.
Proof.
  intros Hy Hx Hf Hg. rewrite !ara_R. cbv zeta. unfold P.
  rewrite !Hf, !Hg by (apply sh_lt; assumption). reflexivity.
Qed.

(** ** conservation *)
Lemma P_shift ny nx f a b c d i j : (0 < ny)%nat -> (0 < nx)%nat ->
  P ny nx f a b (sh ny i c) (sh nx j d) = P ny nx f (c + a) (d + b) i j.
Proof. intros Hy Hx. unfold P. now rewrite !sh_sh. Qed.

Lemma P_0 ny nx f i j : (i < ny)%nat -> (j < nx)%nat -> P ny nx f 0 0 i j = f i j.
Proof. intros Hi Hj. unfold P. now rewrite !sh_0. Qed.

(** moving a sum by an offset *)
Lemma gsum_P ny nx (G : nat -> nat -> R) a b : (0 < ny)%nat -> (0 < nx)%nat ->
  gsum ny nx G = gsum ny nx (P ny nx G a b).
Proof. intros Hy Hx. symmetry. unfold P. now apply (gsum_shift ny nx a b G). Qed.

Ltac zn := repeat match goal with
  |- context [P _ _ _ (?a + ?b)%Z (?c + ?d)%Z _ _] =>
    let u := eval compute in (a + b)%Z in let v := eval compute in (c + d)%Z in
    change (a + b)%Z with u; change (c + d)%Z with v end.

(** a pair of opposite neighbours cancels *)
Lemma pair_cancel ny nx f (C D : nat -> nat -> R) a b : (0 < ny)%nat -> (0 < nx)%nat ->
  (forall i j, (i < ny)%nat -> (j < nx)%nat -> P ny nx D a b i j = - C i j) ->
  gsum ny nx (fun i j => f i j * (P ny nx f a b i j * C i j + P ny nx f (-a) (-b) i j * D i j)) = 0.
Proof.
  intros Hy Hx H.
  rewrite (gsum_ext ny nx _ (fun i j => f i j * P ny nx f a b i j * C i j + f i j * P ny nx f (-a) (-b) i j * D i j))
    by (intros; ring).
  rewrite gsum_add.
  rewrite (gsum_P ny nx (fun i j => f i j * P ny nx f (-a) (-b) i j * D i j) a b) by assumption.
  rewrite <- gsum_add.
  rewrite (gsum_ext ny nx _ (fun _ _ => 0)); [apply gsum_zero|].
  intros i j Hi Hj. unfold P at 2. rewrite P_shift by assumption.
  replace (a + - a)%Z with 0%Z by lia. replace (b + - b)%Z with 0%Z by lia.
  rewrite P_0 by assumption. fold (P ny nx D a b i j). rewrite H by assumption.
  unfold P. ring.
Qed.

Lemma inner_ara_l ny nx dx f g : (0 < ny)%nat -> (0 < nx)%nat ->
  inner ny nx f (ara ny nx dx f g) = 0.
Proof.
  intros Hy Hx. unfold inner.
  rewrite (gsum_ext ny nx _ (fun i j =>
    (f i j * (P ny nx f 0 1 i j * (P ny nx g 1 0 i j - P ny nx g (-1) 0 i j + P ny nx g 1 1 i j - P ny nx g (-1) 1 i j)
            + P ny nx f (-0) (-1) i j * (- (P ny nx g 1 0 i j - P ny nx g (-1) 0 i j + P ny nx g 1 (-1) i j - P ny nx g (-1) (-1) i j)))
   + f i j * (P ny nx f 1 0 i j * (- (P ny nx g 0 1 i j - P ny nx g 0 (-1) i j + P ny nx g 1 1 i j - P ny nx g 1 (-1) i j))
            + P ny nx f (-1) (-0) i j * (P ny nx g 0 1 i j - P ny nx g 0 (-1) i j + P ny nx g (-1) 1 i j - P ny nx g (-1) (-1) i j))
   + f i j * (P ny nx f 1 1 i j * (P ny nx g 1 0 i j - P ny nx g 0 1 i j)
            + P ny nx f (-1) (-1) i j * (- (P ny nx g 0 (-1) i j - P ny nx g (-1) 0 i j)))
   + f i j * (P ny nx f 1 (-1) i j * (- (P ny nx g 1 0 i j - P ny nx g 0 (-1) i j))
            + P ny nx f (-1) (- -1) i j * (P ny nx g 0 1 i j - P ny nx g (-1) 0 i j))) * / (12 * dx ^ 2))).
  2:{ intros i j Hi Hj. rewrite ara_R. cbv zeta. cbn [Z.opp]. ring. }
  rewrite gsum_scal_r, !gsum_add.
  rewrite !pair_cancel; try assumption; try ring.
  all: intros i j Hi Hj; unfold P at 1; rewrite !P_shift by assumption; zn; ring.
Qed.

Lemma inner_ara_r ny nx dx f g : (0 < ny)%nat -> (0 < nx)%nat ->
  inner ny nx g (ara ny nx dx f g) = 0.
Proof.
  intros Hy Hx. pose proof (inner_ara_l ny nx dx g f Hy Hx) as H. unfold inner in *.
  rewrite (gsum_ext ny nx _ (fun i j => - (g i j * ara ny nx dx g f i j))).
  - rewrite gsum_opp, H. ring.
  - intros i j _ _. rewrite ara_antisym. ring.
Qed.

Lemma gsum_ara ny nx dx f g : (0 < ny)%nat -> (0 < nx)%nat ->
  gsum ny nx (ara ny nx dx f g) = 0.
Proof.
  intros Hy Hx.
  (* polarise <h, J(h,g)> = 0 at h = f + 1 *)
  pose proof (inner_ara_l ny nx dx (fadd (fscale 1 f) (fscale 1 (fconst 1))) g Hy Hx) as H.
  pose proof (inner_ara_l ny nx dx f g Hy Hx) as H1.
  unfold inner in *.
  rewrite (gsum_ext ny nx _ (fun i j => f i j * ara ny nx dx f g i j + ara ny nx dx f g i j)) in H.
  - rewrite gsum_add in H. lra.
  - intros i j _ _. rewrite ara_lin_l.
    rewrite (ara_antisym ny nx dx (fconst 1) g), ara_const. unfold fadd, fscale, fconst. ring.
Qed.

(** ** orientation and scale: exact on polynomials (any padded input) *)
Definition quad (c0 c1 c2 c3 c4 c5 : R) (y x : R) : R :=
  c0 + c1 * y + c2 * x + c3 * y * y + c4 * y * x + c5 * x * x.
Definition quad_dy (c0 c1 c2 c3 c4 c5 : R) (y x : R) : R := c1 + 2 * c3 * y + c4 * x.
Definition quad_dx (c0 c1 c2 c3 c4 c5 : R) (y x : R) : R := c2 + c4 * y + 2 * c5 * x.

Lemma kernel_quad dx a0 a1 a2 b0 b1 b2 b3 b4 b5 (y x : R) : dx <> 0 ->
  nb_kernel (fun a b => quad a0 a1 a2 0 0 0 (y + IZR a * dx) (x + IZR b * dx))
            (fun a b => quad b0 b1 b2 b3 b4 b5 (y + IZR a * dx) (x + IZR b * dx)) / (12 * dx ^ 2) =
  a2 * quad_dy b0 b1 b2 b3 b4 b5 y x - a1 * quad_dx b0 b1 b2 b3 b4 b5 y x.
Proof.
  intros Hdx. unfold nb_kernel, quad, quad_dy, quad_dx.
  cbn [nadd nsub nmul NumR]. field. exact Hdx.
Qed.


(** product of two quadratics: the exact truncation error *)
Lemma kernel_quad2 dx a0 a1 a2 a3 a4 a5 b0 b1 b2 b3 b4 b5 (y x : R) : dx <> 0 ->
  nb_kernel (fun a b => quad a0 a1 a2 a3 a4 a5 (y + IZR a * dx) (x + IZR b * dx))
            (fun a b => quad b0 b1 b2 b3 b4 b5 (y + IZR a * dx) (x + IZR b * dx)) / (12 * dx ^ 2) =
  quad_dx a0 a1 a2 a3 a4 a5 y x * quad_dy b0 b1 b2 b3 b4 b5 y x
  - quad_dy a0 a1 a2 a3 a4 a5 y x * quad_dx b0 b1 b2 b3 b4 b5 y x
  + dx ^ 2 / 3 * (a4 * (b3 - b5) - (a3 - a5) * b4).
Proof.
  intros Hdx. unfold nb_kernel, quad, quad_dy, quad_dx.
  cbn [nadd nsub nmul NumR]. field. exact Hdx.
Qed.
