From Coq Require Import List Arith ZArith Reals Lra Lia Psatz SpecFloat Bool Permutation.
From Verif Require Import Num NdArray NdFacts ModelGradients ModelProperties ModelRun64 ModelProps64 Spec SpecHW SpecRound SpecProps64
  GradFacts SumFacts PoissonFacts RoundFacts RoundStencil RoundHW F32Facts Run64Facts RoundReal.
Import List ListNotations.
Local Open Scope R_scope.
Local Existing Instance NumF64.
Local Notation "x ⊕ y" := (SFadd 53 1024 x y) (at level 50, left associativity).
Local Notation "x ⊖ y" := (SFsub 53 1024 x y) (at level 50, left associativity).
Local Notation "x ⊗ y" := (SFmul 53 1024 x y) (at level 40, left associativity).
Local Notation "x ⊘ y" := (SFdiv 53 1024 x y) (at level 40, left associativity).

Lemma big_val : big = 2 ^ 1023.
Proof. Transparent big. unfold big. Opaque big. reflexivity. Qed.

(** ** sums in any order *)
Definition gam (d : nat) : R := (1 + uro) ^ d - 1.
Lemma gam_pos d : 0 <= gam d.
Proof. unfold gam. pose proof uro_pos. pose proof (pow_R1_Rle (1 + uro) d ltac:(lra)). lra. Qed.
Lemma gam_mono a b : (a <= b)%nat -> gam a <= gam b.
Proof. intros H. unfold gam. pose proof uro_pos. pose proof (Rle_pow (1 + uro) a b ltac:(lra) H). lra. Qed.
Lemma gam_lin d : INR d <= 1000000000000 -> gam d <= 1.001 * INR d * uro.
Proof.
  pose proof uro_pos as U. assert (Hu : 1000000000000 * uro <= / 5000) by (rewrite uro_num; lra).
  unfold gam. induction d as [|d IH]; [cbn; lra|]. rewrite S_INR. intros H. specialize (IH ltac:(lra)).
  cbn [pow]. pose proof (pos_INR d) as P. set (w := (1 + uro) ^ d) in *. set (x := INR d) in *.
  assert (w <= 1 + 1.001 * x * uro) by lra.
  assert (X : x * uro <= / 5000) by (apply Rle_trans with (2 := Hu); apply Rmult_le_compat_r; lra).
  assert ((1 + uro) * w <= (1 + uro) * (1 + 1.001 * x * uro)) by (apply Rmult_le_compat_l; lra).
  assert (uro * (x * uro) <= uro * / 5000) by (apply Rmult_le_compat_l; lra). lra.
Qed.

Definition lval (v : list f64) (i : nat) : R := fval (nth i v (f64_ofZ 0)).
Lemma lsum_abs l : Rabs (lsum l) <= lsum (map Rabs l).
Proof. unfold lsum. induction l as [|x l IH]; cbn; [rewrite Rabs_R0; lra|]. apply Rle_trans with (1 := Rabs_triang _ _). lra. Qed.
Lemma total_err t v : (forall x, In x v -> finite64 x) -> (1 + gam (depth t)) * lsum (map (fun i => Rabs (lval v i)) (reads t)) <= 2 ^ 1023 ->
  near (total t v) (lsum (map (lval v) (reads t))) (gam (depth t) * lsum (map (fun i => Rabs (lval v i)) (reads t))).
Proof.
  intros Hv. pose proof uro_pos as U. induction t as [i|l IHl r IHr]; intros HB.
  - cbn [depth reads map total lsum fold_right] in *. split.
    + assert (Fn : finite64 (nth i v (f64_ofZ 0))); [|exact Fn].
      destruct (nth_in_or_default i v (f64_ofZ 0)) as [I|D]; [now apply Hv|]. rewrite D. split; [reflexivity|exact I].
    + unfold gam, lval. cbn [pow]. replace (fval _ - (_ + 0)) with 0 by ring. rewrite Rabs_R0. lra.
  - cbn [depth reads total] in *. rewrite !map_app, !lsum_app in *.
    set (D := Nat.max (depth l) (depth r)) in *.
    set (Sl := lsum (map (fun i => Rabs (lval v i)) (reads l))) in *. set (Sr := lsum (map (fun i => Rabs (lval v i)) (reads r))) in *.
    assert (Pl : 0 <= Sl). { unfold Sl. rewrite <- (map_map (lval v) Rabs). apply Rle_trans with (2 := lsum_abs _). apply Rabs_pos. }
    assert (Pr : 0 <= Sr). { unfold Sr. rewrite <- (map_map (lval v) Rabs). apply Rle_trans with (2 := lsum_abs _). apply Rabs_pos. }
    assert (Gl : gam (depth l) <= gam D) by (apply gam_mono; lia). assert (Gr : gam (depth r) <= gam D) by (apply gam_mono; lia).
    pose proof (gam_pos (depth l)). pose proof (gam_pos (depth r)). pose proof (gam_pos D) as PD.
    assert (GS : 1 + gam (S D) = (1 + uro) * (1 + gam D)) by (unfold gam; cbn [pow]; ring).
    rewrite GS in HB.
    assert (HB2 : (1 + gam D) * (Sl + Sr) <= 2 ^ 1023).
    { apply Rle_trans with (2 := HB). apply Rmult_le_compat_r; [lra|]. nra. }
    assert (A1 : (1 + gam (depth l)) * Sl <= 2 ^ 1023). { apply Rle_trans with (2 := HB2). apply Rmult_le_compat; lra. }
    assert (A2 : (1 + gam (depth r)) * Sr <= 2 ^ 1023). { apply Rle_trans with (2 := HB2). apply Rmult_le_compat; lra. }
    specialize (IHl A1). specialize (IHr A2).
    assert (M : Rabs (lsum (map (lval v) (reads l)) + lsum (map (lval v) (reads r))) <= Sl + Sr).
    { apply Rle_trans with (1 := Rabs_triang _ _). unfold Sl, Sr. rewrite <- !(map_map (lval v) Rabs). apply Rplus_le_compat; apply lsum_abs. }
    assert (E1 : gam (depth l) * Sl <= gam D * Sl) by (apply Rmult_le_compat_r; lra).
    assert (E2 : gam (depth r) * Sr <= gam D * Sr) by (apply Rmult_le_compat_r; lra).
    pose proof (near_mono _ _ _ _ IHl E1) as IL. pose proof (near_mono _ _ _ _ IHr E2) as IR.
    eapply near_mono; [apply (near_add _ _ _ _ _ _ (Sl + Sr) IL IR M)|].
    + rewrite big_val. lra.
    + unfold gam at 5. cbn [pow]. unfold gam in *. set (w := (1 + uro) ^ D) in *. lra.
Qed.

Lemma lsum_perm l m : Permutation l m -> lsum l = lsum m.
Proof. unfold lsum. induction 1; cbn; lra. Qed.
Lemma lsum_filter n (g : nat -> R) l : (forall i, (n <= i)%nat -> g i = 0) -> lsum (map g l) = lsum (map g (filter (fun i => i <? n)%nat l)).
Proof.
  intros Z. unfold lsum. induction l as [|x l IH]; [reflexivity|]. cbn [map fold_right filter].
  destruct (x <? n)%nat eqn:E; cbn [map fold_right]; rewrite IH; [reflexivity|]. apply Nat.ltb_ge in E. rewrite (Z x E). ring.
Qed.
Lemma covers_sum t n (g : nat -> R) : covers t n -> (forall i, (n <= i)%nat -> g i = 0) -> lsum (map g (reads t)) = rsum n g.
Proof.
  intros C Z. rewrite (lsum_filter n g _ Z), rsum_lsum. apply lsum_perm. apply Permutation_map. exact C.
Qed.
Lemma len_grid ny nx (f : nat -> nat -> f64) : length (data (grid ny nx f)) = (ny * nx)%nat.
Proof. exact (length_data_grid ny nx f). Qed.
Lemma data_sum ny nx (f : nat -> nat -> f64) (q : R -> R) : q 0 = 0 ->
  rsum (ny * nx) (fun k => q (lval (data (grid ny nx f)) k)) = gsum ny nx (fun i j => q (fval (f i j))).
Proof.
  intros Q0. rewrite <- lsum_data_grid. rewrite <- rsum_nth.
  replace (data (grid ny nx (fun i j => q (fval (f i j))))) with (map (fun x => q (fval x)) (data (grid ny nx f))).
  2:{ unfold grid, stack, build. cbn [data]. now rewrite map_map. }
  rewrite map_length, len_grid. apply rsum_ext. intros k Hk. unfold lval.
  rewrite (nth_indep _ 0 (q (fval (f64_ofZ 0)))) by (rewrite map_length, len_grid; exact Hk).
  now rewrite (map_nth (fun x => q (fval x))).
Qed.

Lemma gsum_le ny nx (f : nat -> nat -> R) X : (forall i j, (i < ny)%nat -> (j < nx)%nat -> Rabs (f i j) <= X) -> Rabs (gsum ny nx f) <= INR (ny * nx) * X.
Proof.
  intros H. unfold gsum. rewrite mult_INR, Rmult_assoc. apply RoundCons.rsum_abs_le. intros i Hi. apply RoundCons.rsum_abs_le. intros j Hj. now apply H.
Qed.
Lemma gsum_dif ny nx (f g : nat -> nat -> R) : gsum ny nx f - gsum ny nx g = gsum ny nx (fun i j => f i j - g i j).
Proof. unfold gsum. rewrite rsum_dif. apply rsum_ext. intros i _. now rewrite rsum_dif. Qed.
Lemma gmean_dif ny nx (f g : nat -> nat -> R) X : (0 < ny)%nat -> (0 < nx)%nat ->
  (forall i j, (i < ny)%nat -> (j < nx)%nat -> Rabs (f i j - g i j) <= X) -> Rabs (gmean ny nx f - gmean ny nx g) <= X.
Proof.
  intros Hy Hx H. apply lt_INR in Hy, Hx. change (INR 0) with 0 in *. pose proof (Rmult_lt_0_compat _ _ Hy Hx) as P.
  unfold gmean. replace (gsum ny nx f / (INR ny * INR nx) - gsum ny nx g / (INR ny * INR nx)) with (/ (INR ny * INR nx) * (gsum ny nx f - gsum ny nx g)) by (field; lra).
  rewrite gsum_dif, Rabs_mult, (Rabs_right (/ _)) by (apply Rle_ge, Rlt_le, Rinv_0_lt_compat, P).
  apply Rmult_le_reg_l with (INR ny * INR nx); [exact P|]. rewrite <- Rmult_assoc, Rinv_r, Rmult_1_l by lra.
  rewrite <- mult_INR. now apply gsum_le.
Qed.
Lemma gmean_bd ny nx (f : nat -> nat -> R) X : (0 < ny)%nat -> (0 < nx)%nat ->
  (forall i j, (i < ny)%nat -> (j < nx)%nat -> Rabs (f i j) <= X) -> Rabs (gmean ny nx f) <= X.
Proof.
  intros Hy Hx H. pose proof (gmean_dif ny nx f (fun _ _ => 0) X Hy Hx) as D.
  replace (gmean ny nx (fun _ _ => 0)) with 0 in D.
  2:{ unfold gmean, gsum. rewrite (rsum_ext _ _ (fun _ => 0)) by (intros; apply rsum_zero). rewrite rsum_zero. unfold Rdiv. ring. }
  rewrite Rminus_0_r in D. apply D. intros i j Hi Hj. rewrite Rminus_0_r. now apply H.
Qed.

Definition mval (t : order) (ny nx : nat) (f : nat -> nat -> f64) : f64 := total t (data (grid ny nx f)) ⊘ f64_ofZ (Z.of_nat (ny * nx)).
Lemma mean64_grid t ny nx f : mean64 t (Ok (grid ny nx f)) = sc (mval t ny nx f).
Proof. reflexivity. Qed.

Section Mean.
Context (t : order) (ny nx : nat).
Hypothesis Hy : (0 < ny)%nat. Hypothesis Hx : (0 < nx)%nat. Hypothesis Ht : sum_of t ny nx.
Let D := INR (depth t).

Lemma mean_near (f : nat -> nat -> f64) (g : nat -> nat -> R) X a :
  (forall i j, (i < ny)%nat -> (j < nx)%nat -> near (f i j) (g i j) (a * uro * X) /\ Rabs (g i j) <= X) ->
  0 <= X -> 0 <= a -> a * uro <= / 1000 -> eta <= uro * X / 1000000 -> 1000000 * X <= big / 2 ^ 60 ->
  near (mval t ny nx f) (gmean ny nx g) ((a + 1.01 * D + 1.1) * uro * X).
Proof.
  intros H HX Ha Hau HE HB. pose proof uro_pos as U. pose proof uro_small as Us. destruct Ht as (C & HN & HD).
  set (N := INR (ny * nx)) in *.
  assert (N1 : 1 <= N). { unfold N. assert (1 <= ny * nx)%nat by nia. apply le_INR in H0. exact H0. }
  set (v := data (grid ny nx f)).
  assert (Fv : forall x, In x v -> finite64 x).
  { intros x I. destruct (data_grid_in ny nx f x I) as (i & j & Hi & Hj & ->) || idtac. apply (H i j Hi Hj). }
  assert (Aau : 0 <= a * uro) by (apply Rmult_le_pos; lra).
  assert (Faux : forall i j, (i < ny)%nat -> (j < nx)%nat -> Rabs (fval (f i j)) <= X + a * uro * X).
  { intros i j Hi Hj. destruct (H i j Hi Hj) as [[_ E] G]. apply tri in E. lra. }
  assert (E1 : lsum (map (lval v) (reads t)) = gsum ny nx (fun i j => fval (f i j))).
  { rewrite (covers_sum t (ny * nx)); [apply (data_sum ny nx f (fun x => x)); reflexivity|exact C|].
    intros i Hi. unfold lval. rewrite nth_overflow by (unfold v; rewrite len_grid; exact Hi). reflexivity. }
  assert (E2 : lsum (map (fun i => Rabs (lval v i)) (reads t)) = gsum ny nx (fun i j => Rabs (fval (f i j)))).
  { rewrite (covers_sum t (ny * nx) (fun i => Rabs (lval v i))); [apply (data_sum ny nx f Rabs); apply Rabs_R0|exact C|].
    intros i Hi. unfold lval. rewrite nth_overflow by (unfold v; rewrite len_grid; exact Hi). cbn. apply Rabs_R0. }
  assert (A : gsum ny nx (fun i j => Rabs (fval (f i j))) <= N * (X + a * uro * X)).
  { apply Rle_trans with (1 := Rle_abs _). apply gsum_le. intros i j Hi Hj. rewrite Rabs_Rabsolu. now apply Faux. }
  assert (A0 : 0 <= gsum ny nx (fun i j => Rabs (fval (f i j)))).
  { rewrite <- E2, <- (map_map (lval v) Rabs). apply Rle_trans with (2 := lsum_abs _). apply Rabs_pos. }
  pose proof (gam_lin _ HD) as G. fold D in G, HD. pose proof (gam_pos (depth t)) as G0. pose proof (pos_INR (depth t)) as D0. fold D in D0.
  assert (DU : D * uro <= / 5000). { apply Rle_trans with (1000000000000 * uro); [apply Rmult_le_compat_r; lra|]. rewrite uro_num. lra. }
  assert (P60 : 0 < 2 ^ 60) by (apply pow_lt; lra).
  assert (NX : N * X <= big / 1000000).
  { apply Rle_trans with (2 ^ 60 * X); [apply Rmult_le_compat_r; lra|].
    assert (2 ^ 60 * (1000000 * X) <= 2 ^ 60 * (big / 2 ^ 60)) by (apply Rmult_le_compat_l; lra).
    replace (2 ^ 60 * (big / 2 ^ 60)) with big in H0 by (field; lra). lra. }
  assert (NX0 : 0 <= N * X) by (apply Rmult_le_pos; lra).
  assert (AN : a * uro * (N * X) <= / 1000 * (N * X)) by (apply Rmult_le_compat_r; lra).
  assert (AN0 : 0 <= a * uro * (N * X)) by (apply Rmult_le_pos; lra).
  assert (T0 : near (total t v) (lsum (map (lval v) (reads t))) (gam (depth t) * lsum (map (fun i => Rabs (lval v i)) (reads t)))).
  { apply total_err; [exact Fv|]. rewrite E2.
    apply Rle_trans with (2 * (N * (X + a * uro * X))); [apply Rmult_le_compat; lra|]. rewrite <- big_val. lra. }
  rewrite E1, E2 in T0.
  assert (T1 : near (total t v) (gsum ny nx g) ((a + 1.003 * D) * uro * (N * X))).
  { destruct T0 as [F0 E0]. split; [exact F0|].
    replace (fval (total t v) - gsum ny nx g) with ((fval (total t v) - gsum ny nx (fun i j => fval (f i j))) + (gsum ny nx (fun i j => fval (f i j)) - gsum ny nx g)) by ring.
    apply Rle_trans with (1 := Rabs_triang _ _). rewrite gsum_dif.
    assert (Q1 : Rabs (gsum ny nx (fun i j => fval (f i j) - g i j)) <= N * (a * uro * X)) by (apply gsum_le; intros i j Hi Hj; apply (H i j Hi Hj)).
    assert (Q2 : gam (depth t) * gsum ny nx (fun i j => Rabs (fval (f i j))) <= (1.001 * D * uro) * (1.001 * (N * X))).
    { apply Rmult_le_compat; lra. }
    assert (0 <= D * uro * (N * X)) by (apply Rmult_le_pos; [apply Rmult_le_pos|]; lra). lra. }
  assert (GB : Rabs (gsum ny nx g) <= N * X) by (apply gsum_le; intros i j Hi Hj; apply (H i j Hi Hj)).
  destruct (ofZ_exact (Z.of_nat (ny * nx))) as [FZ EZ].
  { assert (INR (ny * nx) <= 2 ^ 50) by exact HN. rewrite INR_IZR_INZ in H0. assert (IZR (Z.of_nat (ny * nx)) <= IZR (2 ^ 53)).
    { apply Rle_trans with (1 := H0). rewrite <- (pow_IZR 2 53) || idtac. lra. }
    apply le_IZR in H1. lia. }
  rewrite <- INR_IZR_INZ in EZ. fold N in EZ. assert (EZ' : fval (f64_ofZ (Z.of_nat (ny * nx))) = N) by exact EZ.
  assert (NZ : near (f64_ofZ (Z.of_nat (ny * nx))) N 0). { split; [exact FZ|]. rewrite EZ'. replace (N - N) with 0 by ring. rewrite Rabs_R0. lra. }
  assert (DX : (a + 1.003 * D) * uro <= / 500) by lra.
  assert (DX0 : 0 <= (a + 1.003 * D) * uro) by (apply Rmult_le_pos; lra).
  assert (DXX : (a + 1.003 * D) * uro * X <= / 500 * X) by (apply Rmult_le_compat_r; lra).
  assert (DXX0 : 0 <= (a + 1.003 * D) * uro * X) by (apply Rmult_le_pos; lra).
  pose proof (near_div _ _ _ _ _ _ 0 (N * X) T1 NZ ltac:(lra) ltac:(lra) ltac:(lra) GB) as Q. cbv zeta in Q.
  replace (((a + 1.003 * D) * uro * (N * X) + N * X * 0) * (1 + 2 * 0) / N) with ((a + 1.003 * D) * uro * X) in Q by (field; lra).
  replace (N * X / N) with X in Q by (field; lra).
  unfold gmean. rewrite <- mult_INR. fold N. unfold mval. fold v.
  assert (XB : 1000000 * X <= big). { apply Rle_trans with (1000000 * (N * X)); [|lra]. assert (0 <= (N - 1) * X) by (apply Rmult_le_pos; lra). lra. }
  eapply near_mono; [apply Q|].
  - lra.
  - assert (uro * ((a + 1.003 * D) * uro * X) <= uro * (/ 500 * X)) by (apply Rmult_le_compat_l; lra).
    assert (0 <= uro * X) by (apply Rmult_le_pos; lra).
    assert (0 <= D * uro * X) by (apply Rmult_le_pos; [apply Rmult_le_pos|]; lra). lra.
Qed.
End Mean.
