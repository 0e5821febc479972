From Coq Require Import List Arith ZArith Reals Lra Lia Psatz SpecFloat Bool.
From Verif Require Import Num NdArray NdFacts ModelGradients ModelProperties ModelRun64 ModelProps64 Spec SpecHW SpecRound SpecProps64
  GradFacts LapFacts SumFacts RoundFacts RoundStencil RoundHW RoundReal Props64Facts.
Import List ListNotations.
Local Open Scope R_scope.
Local Existing Instance NumF64.
Local Notation "x ⊕ y" := (SFadd 53 1024 x y) (at level 50, left associativity).
Local Notation "x ⊖ y" := (SFsub 53 1024 x y) (at level 50, left associativity).
Local Notation "x ⊗ y" := (SFmul 53 1024 x y) (at level 40, left associativity).
Local Notation "x ⊘ y" := (SFdiv 53 1024 x y) (at level 40, left associativity).

Lemma add_k x y r s k R1 S1 : near x r (k * uro * R1) -> near y s (k * uro * S1) -> Rabs r <= R1 -> Rabs s <= S1 ->
  0 <= k -> k * uro <= / 1000 -> 10 * (R1 + S1) <= big -> near (x ⊕ y) (r + s) ((k + 1.01) * uro * (R1 + S1)).
Proof.
  intros Nx Ny Hr Hs Hk Hku HB. pose proof uro_pos as U. pose proof (Rabs_pos r). pose proof (Rabs_pos s).
  assert (K : k * uro * (R1 + S1) <= / 1000 * (R1 + S1)) by (apply Rmult_le_compat_r; lra).
  assert (U1 : uro * (k * uro * (R1 + S1)) <= uro * (/ 1000 * (R1 + S1))) by (apply Rmult_le_compat_l; lra).
  assert (U2 : 0 <= uro * (R1 + S1)) by (apply Rmult_le_pos; lra).
  eapply near_mono; [apply (near_add x y r s _ _ (R1 + S1) Nx Ny)|]; [apply Rle_trans with (1 := Rabs_triang _ _)| |]; lra.
Qed.
Lemma sub_k x y r s k R1 S1 : near x r (k * uro * R1) -> near y s (k * uro * S1) -> Rabs r <= R1 -> Rabs s <= S1 ->
  0 <= k -> k * uro <= / 1000 -> 10 * (R1 + S1) <= big -> near (x ⊖ y) (r - s) ((k + 1.01) * uro * (R1 + S1)).
Proof.
  intros Nx Ny Hr Hs Hk Hku HB. pose proof uro_pos as U. pose proof (Rabs_pos r). pose proof (Rabs_pos s).
  assert (K : k * uro * (R1 + S1) <= / 1000 * (R1 + S1)) by (apply Rmult_le_compat_r; lra).
  assert (U1 : uro * (k * uro * (R1 + S1)) <= uro * (/ 1000 * (R1 + S1))) by (apply Rmult_le_compat_l; lra).
  assert (U2 : 0 <= uro * (R1 + S1)) by (apply Rmult_le_pos; lra).
  eapply near_mono; [apply (near_sub x y r s _ _ (R1 + S1) Nx Ny)|]; [|lra|lra].
  unfold Rminus. apply Rle_trans with (1 := Rabs_triang _ _). rewrite Rabs_Ropp. lra.
Qed.
Lemma mul_k x y r s a b R1 S1 : near x r (a * uro * R1) -> near y s (b * uro * S1) -> Rabs r <= R1 -> Rabs s <= S1 ->
  0 <= a -> a * uro <= / 1000 -> 0 <= b -> b * uro <= / 1000 -> eta <= uro * (R1 * S1) / 1000000 -> 10 * (R1 * S1) <= big ->
  near (x ⊗ y) (r * s) ((1.001 * (a + b) + 1.01) * uro * (R1 * S1)).
Proof.
  intros Nx Ny Hr Hs Ha Hau Hb Hbu He HB. pose proof uro_pos as U. pose proof (Rabs_pos r). pose proof (Rabs_pos s).
  assert (0 <= R1 * S1) by (apply Rmult_le_pos; lra). set (P := R1 * S1) in *.
  assert (0 <= a * uro) by (apply Rmult_le_pos; lra). assert (0 <= b * uro) by (apply Rmult_le_pos; lra).
  assert (A1 : a * uro * P <= / 1000 * P) by (apply Rmult_le_compat_r; lra). assert (A2 : 0 <= a * uro * P) by (apply Rmult_le_pos; lra).
  assert (B1 : b * uro * P <= / 1000 * P) by (apply Rmult_le_compat_r; lra). assert (B2 : 0 <= b * uro * P) by (apply Rmult_le_pos; lra).
  assert (C1 : a * uro * (b * uro * P) <= / 1000 * (b * uro * P)) by (apply Rmult_le_compat_r; lra).
  assert (EQ : R1 * (b * uro * S1) + S1 * (a * uro * R1) + a * uro * R1 * (b * uro * S1) = b * uro * P + a * uro * P + a * uro * (b * uro * P)) by (unfold P; ring).
  pose proof (near_mul x y r s _ _ R1 S1 Nx Ny Hr Hs) as Q. rewrite EQ in Q. fold P in Q.
  eapply near_mono; [apply Q; lra|].
  assert (uro * (P + (b * uro * P + a * uro * P + a * uro * (b * uro * P))) <= uro * (1.004 * P)) by (apply Rmult_le_compat_l; lra).
  assert (0 <= uro * P) by (apply Rmult_le_pos; lra). lra.
Qed.
Lemma half_k x r k R1 : near x r (k * uro * R1) -> Rabs r <= R1 -> 0 <= k -> k * uro <= / 1000 -> eta <= uro * R1 / 1000000 -> 10 * R1 <= big ->
  near (x ⊘ f64_ofZ 2) (r / 2) ((k + 1.01) * uro * (R1 / 2)).
Proof.
  intros Nx Hr Hk Hku He HB. pose proof uro_pos as U. pose proof (Rabs_pos r).
  assert (K : k * uro * R1 <= / 1000 * R1) by (apply Rmult_le_compat_r; lra).
  assert (U1 : uro * (k * uro * R1) <= uro * (/ 1000 * R1)) by (apply Rmult_le_compat_l; lra).
  pose proof (ofZ_near 2 ltac:(lia)) as N2.
  pose proof (near_div x _ r 2 (k * uro * R1) 0 0 R1 Nx N2 ltac:(lra) ltac:(lra) ltac:(lra) Hr) as Q. cbv zeta in Q.
  replace ((k * uro * R1 + R1 * 0) * (1 + 2 * 0) / 2) with (k * uro * R1 / 2) in Q by field.
  assert (0 <= uro * R1) by (apply Rmult_le_pos; lra). eapply near_mono; [apply Q; lra|]. lra.
Qed.

Section Diag.
Context (ny nx : nat) (dx : f64) (B P : R) (n phi : nat -> nat -> f64).
Hypothesis Hy : (0 < ny)%nat. Hypothesis Hx : (0 < nx)%nat.
Hypothesis Fd : finite64 dx. Hypothesis Sd : scale64 (fval dx).
Hypothesis SB : scale64 B. Hypothesis SP : scale64 P.
Hypothesis Bn : bounded64 ny nx B n. Hypothesis Bp : bounded64 ny nx P phi.
Local Notation h := (fval dx).
Let mh : mag 1 h := scale_mag _ Sd.
Let mB : mag 1 B := scale_mag _ SB.
Let mP : mag 1 P := scale_mag _ SP.
Let Nd : near dx h 0 := near_self dx Fd.
Lemma hp : 0 < h. Proof. exact (mag_pos _ _ mh). Qed.
Lemma big60 m x : (m <= 4)%nat -> mag m x -> 1000000000 * x <= big / 2 ^ 60.
Proof.
  intros Hm M. pose proof (mag_pos _ _ M) as Px. destruct (mag_le m 4 x Hm M) as [_ L].
  apply Rmult_le_reg_r with (2 ^ 60); [apply pow_lt; lra|]. replace (big / 2 ^ 60 * 2 ^ 60) with big by (field; apply pow_nonzero; lra).
  rewrite big_val. apply Rle_trans with (2 ^ 30 * x * 2 ^ 60).
  { apply Rmult_le_compat_r; [apply pow_le; lra|]. apply Rmult_le_compat_r; lra. }
  apply Rle_trans with (2 ^ 30 * W ^ 4 * 2 ^ 60).
  { apply Rmult_le_compat_r; [apply pow_le; lra|]. apply Rmult_le_compat_l; [apply pow_le; lra|exact L]. }
  Transparent W. unfold W. Opaque W. rewrite <- pow_mult, <- !pow_add. apply Rle_pow; [lra|lia].
Qed.

Lemma cell (f : nat -> nat -> f64) F i j : bounded64 ny nx F f -> (i < ny)%nat -> (j < nx)%nat -> near (f i j) (fval (f i j)) (0 * uro * F) /\ Rabs (fval (f i j)) <= F.
Proof. intros H Hi Hj. destruct (H i j Hi Hj) as [A1 A2]. split; [rewrite !Rmult_0_l; now apply near_self|exact A2]. Qed.
Lemma cdy_near i j : (i < ny)%nat -> (j < nx)%nat -> near (cdy ny dx phi i j) (cdy (N := NumR) ny h (values phi) i j) (4 * uro * (P / h)).
Proof.
  intros Hi Hj. unfold cdy. cbn [nsub ndiv nmul nofZ NumF64 NumR]. replace (4 * uro * (P / h)) with (4 * uro * P / h) by (unfold Rdiv; ring).
  apply (grad_point dx h P Nd mh mP); [| |apply Bp|apply Bp]; try (apply sh_lt; assumption); try assumption;
    apply near_self, Bp; try (apply sh_lt; assumption); assumption.
Qed.
Lemma cdx_near i j : (i < ny)%nat -> (j < nx)%nat -> near (cdx nx dx phi i j) (cdx (N := NumR) nx h (values phi) i j) (4 * uro * (P / h)).
Proof.
  intros Hi Hj. unfold cdx. cbn [nsub ndiv nmul nofZ NumF64 NumR]. replace (4 * uro * (P / h)) with (4 * uro * P / h) by (unfold Rdiv; ring).
  apply (grad_point dx h P Nd mh mP); [| |apply Bp|apply Bp]; try (apply sh_lt; assumption); try assumption;
    apply near_self, Bp; try (apply sh_lt; assumption); assumption.
Qed.
Lemma cd_bd i j : (i < ny)%nat -> (j < nx)%nat -> Rabs (cdy (N := NumR) ny h (values phi) i j) <= P / h /\ Rabs (cdx (N := NumR) nx h (values phi) i j) <= P / h.
Proof.
  intros Hi Hj. pose proof (RoundTop.cd_diff ny nx dx Hy Hx Sd (values phi) (fun _ _ => 0) P i j) as D. pose proof hp.
  assert (Z1 : cdy (N := NumR) ny h (fun _ _ => 0) i j = 0) by (unfold cdy; cbn [nsub nmul ndiv nofZ NumR]; unfold Rdiv; ring).
  assert (Z2 : cdx (N := NumR) nx h (fun _ _ => 0) i j = 0) by (unfold cdx; cbn [nsub nmul ndiv nofZ NumR]; unfold Rdiv; ring).
  rewrite Z1, Z2, !Rminus_0_r in D. apply D; auto. intros a b Ha Hb. rewrite Rminus_0_r. now apply Bp.
Qed.

Context (t : order). Hypothesis Ht : sum_of t ny nx.
Local Notation D := (INR (depth t)).
Lemma D_ok : 0 <= D <= 1000000000000 /\ 1000000000000 * uro <= / 5000 /\ D * uro <= / 5000.
Proof.
  destruct Ht as (_ & _ & H). pose proof (pos_INR (depth t)). pose proof uro_pos. assert (1000000000000 * uro <= / 5000) by (rewrite uro_num; lra).
  repeat split; try lra. apply Rle_trans with (2 := H2). apply Rmult_le_compat_r; lra.
Qed.

Lemma gamma_n_near : exists g, gamma_n_by (mean64 t) (Ok (grid ny nx n)) (Ok (grid ny nx phi)) dx = sc g /\
  near g (flux ny nx h (values n) (values phi)) ((1.01 * D + 7) * uro * (B * (P / h))).
Proof.
  exists (SFopp (mval t ny nx (fun i j => n i j ⊗ cdy ny dx phi i j))). split.
  - unfold gamma_n_by. change (grid ny nx phi) with (stack [] ny nx (fun _ => phi)) at 1. rewrite np_grad_m2 by assumption. cbn [force bind].
    change (stack [] ny nx (fun _ => cdy ny dx phi)) with (grid ny nx (cdy ny dx phi)). unfold mul_. rewrite lift2_grid, mean64_grid. reflexivity.
  - pose proof (mag_mul 1 2 B (P / h) mB (mag_mul 1 1 P (/ h) mP (mag_inv 1 h mh))) as MX. cbn [Nat.add] in MX.
    pose proof (mag_pos _ _ MX) as PX. pose proof (mag_tiny 3 _ ltac:(lia) MX) as TX. pose proof (big60 3 _ ltac:(lia) MX) as BX.
    pose proof (mag_huge 3 _ ltac:(lia) MX) as HX. pose proof uro_pos as U. pose proof uro_small as Us. destruct D_ok as (D1 & D2 & D3).
    assert (M : near (mval t ny nx (fun i j => n i j ⊗ cdy ny dx phi i j)) (gmean ny nx (fun i j => values n i j * cdy (N := NumR) ny h (values phi) i j))
      ((5.1 + 1.01 * D + 1.1) * uro * (B * (P / h)))).
    { apply mean_near; try assumption; try lra. intros i j Hi Hj. destruct (cell n B i j Bn Hi Hj) as [N1 N2]. destruct (cd_bd i j Hi Hj) as [C1 _]. split.
      - pose proof (mul_k _ _ _ _ 0 4 B (P / h) N1 (cdy_near i j Hi Hj) N2 C1) as Q. eapply near_mono; [apply Q; lra|].
        assert (0 <= uro * (B * (P / h))) by (apply Rmult_le_pos; lra). lra.
      - rewrite Rabs_mult. apply Rmult_le_compat; try apply Rabs_pos; assumption. }
    destruct M as [FM EM]. destruct (opp_exact _ FM) as [FO EO]. split; [exact FO|].
    assert (EO' : fval (SFopp (mval t ny nx (fun i j => n i j ⊗ cdy ny dx phi i j))) = - fval (mval t ny nx (fun i j => n i j ⊗ cdy ny dx phi i j))) by exact EO.
    rewrite EO'. unfold flux. replace (- fval _ - - _) with (- (fval (mval t ny nx (fun i j => n i j ⊗ cdy ny dx phi i j)) - gmean ny nx (fun i j => values n i j * cdy (N := NumR) ny h (values phi) i j))) by ring.
    rewrite Rabs_Ropp. apply Rle_trans with (1 := EM). assert (0 <= uro * (B * (P / h))) by (apply Rmult_le_pos; lra). lra.
Qed.

Lemma sq_val (x : f64) : f64_pow x 2 = x ⊗ x.
Proof. reflexivity. Qed.
Lemma sum_sq F G : mag 1 F -> mag 1 G -> mag 3 ((F + G) * (F + G)).
Proof.
  intros MF MG. pose proof (mag_pos _ _ MF). pose proof (mag_pos _ _ MG). destruct MF as [L1 U1], MG as [L2 U2]. rewrite pow_1 in *.
  pose proof W_num as WN. split.
  - apply Rle_trans with (/ W ^ 2); [apply Rinv_le_contravar; [apply Wp|apply W_le; lia]|]. cbn [pow]. rewrite Rmult_1_r, Rinv_mult.
    pose proof (Rinv_0_lt_compat W ltac:(lra)). apply Rmult_le_compat; lra.
  - apply Rle_trans with (4 * (W * W)); [nra|]. cbn [pow]. rewrite Rmult_1_r. assert (0 < W * W) by nra. nra.
Qed.
Lemma dsq_near (f g : nat -> nat -> f64) F G i j : mag 1 F -> mag 1 G -> bounded64 ny nx F f -> bounded64 ny nx G g -> (i < ny)%nat -> (j < nx)%nat ->
  near (f64_pow (f i j ⊖ g i j) 2) ((values f i j - values g i j) ^ 2) (3.04 * uro * ((F + G) * (F + G))) /\
  Rabs ((values f i j - values g i j) ^ 2) <= (F + G) * (F + G).
Proof.
  intros MF MG Bf Bg Hi Hj. destruct (cell f F i j Bf Hi Hj) as [N1 N2]. destruct (cell g G i j Bg Hi Hj) as [N3 N4].
  pose proof (sum_sq F G MF MG) as MX. pose proof (mag_pos _ _ MX) as PX. pose proof (mag_tiny 3 _ ltac:(lia) MX) as TX. pose proof (mag_huge 3 _ ltac:(lia) MX) as HX.
  pose proof (mag_pos _ _ MF). pose proof (mag_pos _ _ MG). pose proof (mag_huge 1 _ ltac:(lia) MF). pose proof (mag_huge 1 _ ltac:(lia) MG).
  pose proof uro_pos as U. pose proof uro_small as Us.
  pose proof (sub_k _ _ _ _ 0 F G N1 N3 N2 N4 ltac:(lra) ltac:(lra) ltac:(lra)) as Q. rewrite Rplus_0_l in Q.
  assert (A : Rabs (fval (f i j) - fval (g i j)) <= F + G).
  { unfold Rminus. apply Rle_trans with (1 := Rabs_triang _ _). rewrite Rabs_Ropp. lra. }
  unfold values. replace ((fval (f i j) - fval (g i j)) ^ 2) with ((fval (f i j) - fval (g i j)) * (fval (f i j) - fval (g i j))) by ring. split.
  - rewrite sq_val. pose proof (mul_k _ _ _ _ 1.01 1.01 (F + G) (F + G) Q Q A A) as Q2. eapply near_mono; [apply Q2; lra|].
    assert (0 <= uro * ((F + G) * (F + G))) by (apply Rmult_le_pos; lra). lra.
  - rewrite Rabs_mult. apply Rmult_le_compat; try apply Rabs_pos; assumption.
Qed.
Lemma dsq_mean (f g : nat -> nat -> f64) F G : mag 1 F -> mag 1 G -> bounded64 ny nx F f -> bounded64 ny nx G g ->
  near (mval t ny nx (fun i j => f64_pow (f i j ⊖ g i j) 2)) (gmean ny nx (fun i j => (values f i j - values g i j) ^ 2)) ((1.01 * D + 4.2) * uro * ((F + G) * (F + G))).
Proof.
  intros MF MG Bf Bg. pose proof (sum_sq F G MF MG) as MX. pose proof (mag_pos _ _ MX) as PX. pose proof (mag_tiny 3 _ ltac:(lia) MX) as TX. pose proof (big60 3 _ ltac:(lia) MX) as BX.
  pose proof uro_pos as U. pose proof uro_small as Us. eapply near_mono; [apply (mean_near t ny nx Hy Hx Ht _ (fun i j => (values f i j - values g i j) ^ 2) ((F + G) * (F + G)) 3.04); [intros i j Hi Hj; now apply dsq_near|lra..]|].
  assert (0 <= uro * ((F + G) * (F + G))) by (apply Rmult_le_pos; lra). lra.
Qed.
Lemma dsq_bd (f g : nat -> nat -> f64) F G : mag 1 F -> mag 1 G -> bounded64 ny nx F f -> bounded64 ny nx G g ->
  Rabs (gmean ny nx (fun i j => (values f i j - values g i j) ^ 2)) <= (F + G) * (F + G).
Proof. intros MF MG Bf Bg. apply gmean_bd; try assumption. intros i j Hi Hj. now apply dsq_near. Qed.

Lemma gamma_c_near c1 : finite64 c1 -> Rabs (fval c1) <= 2 ^ 200 -> exists g, gamma_c_by (mean64 t) (Ok (grid ny nx n)) (Ok (grid ny nx phi)) c1 dx = sc g /\
  near g (sink ny nx (fval c1) (values n) (values phi)) ((1.01 * D + 6) * uro * (Rabs (fval c1) * ((B + P) * (B + P))) + eta).
Proof.
  intros Fc Hc. exists (c1 ⊗ mval t ny nx (fun i j => f64_pow (n i j ⊖ phi i j) 2)). split.
  - unfold gamma_c_by, sub_, powk. rewrite lift2_grid, map1_grid, mean64_grid. reflexivity.
  - pose proof (dsq_mean n phi B P mB mP Bn Bp) as M. pose proof (dsq_bd n phi B P mB mP Bn Bp) as Bd.
    pose proof (sum_sq B P mB mP) as MX. pose proof (mag_pos _ _ MX) as PX. pose proof uro_pos as U. pose proof uro_small as Us. destruct D_ok as (D1 & D2 & D3).
    pose proof (Rabs_pos (fval c1)) as Pc. set (X := (B + P) * (B + P)) in *.
    assert (CX : 0 <= Rabs (fval c1) * X) by (apply Rmult_le_pos; lra).
    assert (HB : 1000000 * (Rabs (fval c1) * X) <= big).
    { assert (Rabs (fval c1) * X <= W ^ 1 * W ^ 3).
      { apply Rmult_le_compat; try lra; [|apply MX]. rewrite pow_1. Transparent W. unfold W. Opaque W. exact Hc. }
      rewrite <- pow_add in H. apply huge in H. lra. }
    eapply near_mono; [apply (term_near c1 _ _ X (1.01 * D + 4.2) (Rabs (fval c1) * X) Fc M Bd); lra|].
    assert (0 <= uro * (Rabs (fval c1) * X)) by (apply Rmult_le_pos; lra). lra.
Qed.

Lemma enstrophy_near o O : scale64 O -> bounded64 ny nx O o -> exists g, enstrophy_by (mean64 t) (Ok (grid ny nx n)) (Ok (grid ny nx o)) dx = sc g /\
  near g (enstrophy2 ny nx (values n) (values o)) ((1.01 * D + 6) * uro * ((B + O) * (B + O) / 2)).
Proof.
  intros SO Bo. pose proof (scale_mag _ SO) as mO. exists (mval t ny nx (fun i j => f64_pow (n i j ⊖ o i j) 2) ⊘ f64_ofZ 2). split.
  - unfold enstrophy_by, sub_, powk. rewrite lift2_grid, map1_grid, mean64_grid. reflexivity.
  - pose proof (dsq_mean n o B O mB mO Bn Bo) as M. pose proof (dsq_bd n o B O mB mO Bn Bo) as Bd.
    pose proof (sum_sq B O mB mO) as MX. pose proof (mag_pos _ _ MX) as PX. pose proof uro_pos as U. pose proof uro_small as Us. destruct D_ok as (D1 & D2 & D3).
    pose proof (mag_tiny 3 _ ltac:(lia) MX) as TX. pose proof (mag_huge 3 _ ltac:(lia) MX) as HX.
    eapply near_mono; [apply (half_k _ _ _ _ M Bd); lra|].
    assert (0 <= uro * ((B + O) * (B + O))) by (apply Rmult_le_pos; lra). lra.
Qed.

Lemma energy_near : exists g, energy_by (mean64 t) (Ok (grid ny nx n)) (Ok (grid ny nx phi)) dx = sc g /\
  near g (energy2 ny nx h (values n) (values phi)) ((1.01 * D + 14) * uro * ((B * B + 2 * (P / h * (P / h))) / 2)).
Proof.
  exists (mval t ny nx (fun i j => f64_pow (n i j) 2 ⊕ (f64_pow (cdx nx dx phi i j) 2 ⊕ f64_pow (cdy ny dx phi i j) 2)) ⊘ f64_ofZ 2). split.
  - unfold energy_by. change (grid ny nx phi) with (stack [] ny nx (fun _ => phi)). rewrite np_grad_m2, np_grad_m1 by assumption. cbn [force bind].
    change (stack [] ny nx (fun _ => cdy ny dx phi)) with (grid ny nx (cdy ny dx phi)). change (stack [] ny nx (fun _ => cdx nx dx phi)) with (grid ny nx (cdx nx dx phi)).
    unfold powk, add_. rewrite !map1_grid, !lift2_grid, mean64_grid. reflexivity.
  - pose proof (mag_mul 1 1 P (/ h) mP (mag_inv 1 h mh)) as Mg. change (P * / h) with (P / h) in Mg. cbn [Nat.add] in Mg.
    pose proof (mag_mul 2 2 _ _ Mg Mg) as M2. cbn [Nat.add] in M2. pose proof (mag_mul 1 1 _ _ mB mB) as M1. cbn [Nat.add] in M1.
    set (q := P / h) in *. pose proof (mag_pos _ _ M1) as P1. pose proof (mag_pos _ _ M2) as P2. pose proof (mag_pos _ _ Mg) as Pg.
    pose proof (mag_tiny 4 _ ltac:(lia) M2) as T2. pose proof (mag_tiny 2 _ ltac:(lia) M1) as T1.
    pose proof (mag_huge 4 _ ltac:(lia) M2) as G2. pose proof (mag_huge 2 _ ltac:(lia) M1) as G1.
    pose proof (big60 4 _ ltac:(lia) M2) as K2. pose proof (big60 2 _ ltac:(lia) M1) as K1.
    pose proof uro_pos as U. pose proof uro_small as Us. destruct D_ok as (D1 & D2 & D3).
    assert (U1 : 0 <= uro * (B * B)) by (apply Rmult_le_pos; lra). assert (U2 : 0 <= uro * (q * q)) by (apply Rmult_le_pos; lra).
    set (X := B * B + (q * q + q * q)).
    assert (C : forall i j, (i < ny)%nat -> (j < nx)%nat ->
      near (f64_pow (n i j) 2 ⊕ (f64_pow (cdx nx dx phi i j) 2 ⊕ f64_pow (cdy ny dx phi i j) 2))
        (values n i j ^ 2 + (cdx (N := NumR) nx h (values phi) i j ^ 2 + cdy (N := NumR) ny h (values phi) i j ^ 2)) (11.2 * uro * X) /\
      Rabs (values n i j ^ 2 + (cdx (N := NumR) nx h (values phi) i j ^ 2 + cdy (N := NumR) ny h (values phi) i j ^ 2)) <= X).
    { intros i j Hi Hj. destruct (cell n B i j Bn Hi Hj) as [N1 N2]. destruct (cd_bd i j Hi Hj) as [C1 C2]. pose proof (cdy_near i j Hi Hj) as Y. pose proof (cdx_near i j Hi Hj) as Z.
      fold q in C1, C2, Y, Z. change (values n i j) with (fval (n i j)).
      set (a := fval (n i j)) in *. set (b := cdx (N := NumR) nx h (values phi) i j) in *. set (c := cdy (N := NumR) ny h (values phi) i j) in *.
      replace (a ^ 2) with (a * a) by ring. replace (b ^ 2) with (b * b) by ring. replace (c ^ 2) with (c * c) by ring. rewrite !sq_val.
      assert (Qa : near (n i j ⊗ n i j) (a * a) (10.1 * uro * (B * B))).
      { eapply near_mono; [apply (mul_k _ _ _ _ 0 0 B B N1 N1 N2 N2); lra|lra]. }
      assert (Qb : near (cdx nx dx phi i j ⊗ cdx nx dx phi i j) (b * b) (9.05 * uro * (q * q))).
      { eapply near_mono; [apply (mul_k _ _ _ _ 4 4 q q Z Z C2 C2); lra|lra]. }
      assert (Qc : near (cdy ny dx phi i j ⊗ cdy ny dx phi i j) (c * c) (9.05 * uro * (q * q))).
      { eapply near_mono; [apply (mul_k _ _ _ _ 4 4 q q Y Y C1 C1); lra|lra]. }
      assert (Aa : Rabs (a * a) <= B * B) by (rewrite Rabs_mult; apply Rmult_le_compat; try apply Rabs_pos; assumption).
      assert (Ab : Rabs (b * b) <= q * q) by (rewrite Rabs_mult; apply Rmult_le_compat; try apply Rabs_pos; assumption).
      assert (Ac : Rabs (c * c) <= q * q) by (rewrite Rabs_mult; apply Rmult_le_compat; try apply Rabs_pos; assumption).
      pose proof (add_k _ _ _ _ 9.05 _ _ Qb Qc Ab Ac ltac:(lra) ltac:(lra) ltac:(lra)) as S1.
      assert (A2 : Rabs (b * b + c * c) <= q * q + q * q) by (apply Rle_trans with (1 := Rabs_triang _ _); lra).
      assert (S2 : near (cdx nx dx phi i j ⊗ cdx nx dx phi i j ⊕ cdy ny dx phi i j ⊗ cdy ny dx phi i j) (b * b + c * c) (10.1 * uro * (q * q + q * q))).
      { eapply near_mono; [exact S1|lra]. }
      split.
      - eapply near_mono; [apply (add_k _ _ _ _ 10.1 _ _ Qa S2 Aa A2); lra|]. unfold X. lra.
      - apply Rle_trans with (1 := Rabs_triang _ _). unfold X. lra. }
    assert (M : near (mval t ny nx (fun i j => f64_pow (n i j) 2 ⊕ (f64_pow (cdx nx dx phi i j) 2 ⊕ f64_pow (cdy ny dx phi i j) 2)))
      (gmean ny nx (fun i j => values n i j ^ 2 + (cdx (N := NumR) nx h (values phi) i j ^ 2 + cdy (N := NumR) ny h (values phi) i j ^ 2))) ((11.2 + 1.01 * D + 1.1) * uro * X)).
    { apply mean_near; try assumption; unfold X; lra. }
    assert (Bd : Rabs (gmean ny nx (fun i j => values n i j ^ 2 + (cdx (N := NumR) nx h (values phi) i j ^ 2 + cdy (N := NumR) ny h (values phi) i j ^ 2))) <= X).
    { apply gmean_bd; try assumption. intros i j Hi Hj. now apply C. }
    assert (EX : B * B + 2 * (q * q) = X) by (unfold X; ring). rewrite EX.
    assert (X0 : 0 <= uro * X) by (unfold X; lra).
    eapply near_mono; [apply (half_k _ _ _ _ M Bd); unfold X; lra|]. lra.
Qed.

Lemma mul_b x y X1 Y1 : Rabs x <= X1 -> Rabs y <= Y1 -> Rabs (x * y) <= X1 * Y1.
Proof. intros. rewrite Rabs_mult. apply Rmult_le_compat; try apply Rabs_pos; assumption. Qed.
Lemma sub_b x y X1 Y1 : Rabs x <= X1 -> Rabs y <= Y1 -> Rabs (x - y) <= X1 + Y1.
Proof. intros. unfold Rminus. apply Rle_trans with (1 := Rabs_triang _ _). rewrite Rabs_Ropp. lra. Qed.

Lemma DE_near Dn Dp X1 X2 : scale64 X1 -> scale64 X2 -> bounded64 ny nx X1 Dn -> bounded64 ny nx X2 Dp ->
  exists g, DE_by (mean64 t) (Ok (grid ny nx n)) (Ok (grid ny nx phi)) (Ok (grid ny nx Dn)) (Ok (grid ny nx Dp)) = sc g /\
  near g (gmean ny nx (fun i j => values n i j * values Dn i j - values phi i j * values Dp i j)) ((1.01 * D + 4) * uro * (B * X1 + P * X2)).
Proof.
  intros S1 S2 B1 B2. exists (mval t ny nx (fun i j => n i j ⊗ Dn i j ⊖ phi i j ⊗ Dp i j)). split.
  - unfold DE_by, sub_, mul_. rewrite !lift2_grid, mean64_grid. reflexivity.
  - pose proof (mag_mul 1 1 _ _ mB (scale_mag _ S1)) as M1. pose proof (mag_mul 1 1 _ _ mP (scale_mag _ S2)) as M2. cbn [Nat.add] in M1, M2.
    pose proof (mag_pos _ _ M1) as P1. pose proof (mag_pos _ _ M2) as P2. pose proof (mag_tiny 2 _ ltac:(lia) M2) as T2. pose proof (mag_tiny 2 _ ltac:(lia) M1) as T1.
    pose proof (mag_huge 2 _ ltac:(lia) M2) as G2. pose proof (mag_huge 2 _ ltac:(lia) M1) as G1.
    pose proof (big60 2 _ ltac:(lia) M2) as K2. pose proof (big60 2 _ ltac:(lia) M1) as K1.
    pose proof uro_pos as U. pose proof uro_small as Us. destruct D_ok as (D1 & D2 & D3).
    assert (U1 : 0 <= uro * (B * X1)) by (apply Rmult_le_pos; lra). assert (U2 : 0 <= uro * (P * X2)) by (apply Rmult_le_pos; lra).
    eapply near_mono; [apply (mean_near t ny nx Hy Hx Ht _ (fun i j => values n i j * values Dn i j - values phi i j * values Dp i j) (B * X1 + P * X2) 2.05)|];
      [|lra..].
    intros i j Hi Hj. destruct (cell n B i j Bn Hi Hj) as [N1 N2]. destruct (cell phi P i j Bp Hi Hj) as [N3 N4].
    destruct (cell Dn X1 i j B1 Hi Hj) as [N5 N6]. destruct (cell Dp X2 i j B2 Hi Hj) as [N7 N8]. unfold values. split.
    + pose proof (mul_k _ _ _ _ 0 0 _ _ N1 N5 N2 N6 ltac:(lra) ltac:(lra) ltac:(lra) ltac:(lra) ltac:(lra) ltac:(lra)) as Q1.
      pose proof (mul_k _ _ _ _ 0 0 _ _ N3 N7 N4 N8 ltac:(lra) ltac:(lra) ltac:(lra) ltac:(lra) ltac:(lra) ltac:(lra)) as Q2.
      pose proof (sub_k _ _ _ _ _ _ _ Q1 Q2 (mul_b _ _ _ _ N2 N6) (mul_b _ _ _ _ N4 N8) ltac:(lra) ltac:(lra) ltac:(lra)) as Q3.
      eapply near_mono; [exact Q3|lra].
    + apply sub_b; now apply mul_b.
Qed.
Lemma DU_near o O Dn Dp X1 X2 : scale64 O -> bounded64 ny nx O o -> scale64 X1 -> scale64 X2 -> bounded64 ny nx X1 Dn -> bounded64 ny nx X2 Dp ->
  exists g, DU_by (mean64 t) (Ok (grid ny nx n)) (Ok (grid ny nx o)) (Ok (grid ny nx Dn)) (Ok (grid ny nx Dp)) = sc g /\
  near g (- gmean ny nx (fun i j => (values n i j - values o i j) * (values Dn i j - values Dp i j))) ((1.01 * D + 5) * uro * ((B + O) * (X1 + X2))).
Proof.
  intros SO Bo S1 S2 B1 B2. set (m := mval t ny nx (fun i j => (n i j ⊖ o i j) ⊗ (Dn i j ⊖ Dp i j))). exists (SFopp m). split.
  - unfold DU_by, sub_, mul_. rewrite !lift2_grid, mean64_grid. reflexivity.
  - assert (MX : mag 4 ((B + O) * (X1 + X2))).
    { assert (E : forall F G, scale64 F -> scale64 G -> mag 2 (F + G)).
      { intros F G SF SG. pose proof (scale_mag _ SF) as MF. pose proof (scale_mag _ SG) as MG. pose proof (mag_pos _ _ MF). pose proof (mag_pos _ _ MG).
        destruct (mag_le 1 2 F ltac:(lia) MF) as [L1 _]. destruct MF as [_ L3], MG as [_ L4]. rewrite pow_1 in *. split; [lra|].
        pose proof W_num. cbn [pow]. rewrite Rmult_1_r. nra. }
      apply (mag_mul 2 2); apply E; assumption. }
    pose proof (mag_pos _ _ MX) as PX. pose proof (mag_tiny 4 _ ltac:(lia) MX) as TX. pose proof (mag_huge 4 _ ltac:(lia) MX) as GX. pose proof (big60 4 _ ltac:(lia) MX) as KX.
    pose proof (mag_huge 1 _ ltac:(lia) (scale_mag _ SO)). pose proof (mag_huge 1 _ ltac:(lia) mB). pose proof (mag_huge 1 _ ltac:(lia) (scale_mag _ S1)). pose proof (mag_huge 1 _ ltac:(lia) (scale_mag _ S2)).
    pose proof uro_pos as U. pose proof uro_small as Us. destruct D_ok as (D1 & D2 & D3).
    assert (UX : 0 <= uro * ((B + O) * (X1 + X2))) by (apply Rmult_le_pos; lra).
    assert (M : near m (gmean ny nx (fun i j => (values n i j - values o i j) * (values Dn i j - values Dp i j))) ((3.1 + 1.01 * D + 1.1) * uro * ((B + O) * (X1 + X2)))).
    { apply mean_near; try assumption; try lra. intros i j Hi Hj. destruct (cell n B i j Bn Hi Hj) as [N1 N2]. destruct (cell o O i j Bo Hi Hj) as [N3 N4].
      destruct (cell Dn X1 i j B1 Hi Hj) as [N5 N6]. destruct (cell Dp X2 i j B2 Hi Hj) as [N7 N8]. unfold values. split.
      - pose proof (sub_k _ _ _ _ _ _ _ N1 N3 N2 N4 ltac:(lra) ltac:(lra) ltac:(lra)) as Q1. pose proof (sub_k _ _ _ _ _ _ _ N5 N7 N6 N8 ltac:(lra) ltac:(lra) ltac:(lra)) as Q2.
        rewrite Rplus_0_l in Q1, Q2.
        pose proof (mul_k _ _ _ _ _ _ _ _ Q1 Q2 (sub_b _ _ _ _ N2 N4) (sub_b _ _ _ _ N6 N8) ltac:(lra) ltac:(lra) ltac:(lra) ltac:(lra) ltac:(lra) ltac:(lra)) as Q3.
        eapply near_mono; [exact Q3|lra].
      - apply mul_b; now apply sub_b. }
    destruct M as [FM EM]. destruct (opp_exact _ FM) as [FO EO]. split; [exact FO|].
    assert (EO' : fval (SFopp m) = - fval m) by exact EO. rewrite EO'.
    replace (- fval m - - gmean ny nx (fun i j => (values n i j - values o i j) * (values Dn i j - values Dp i j))) with (- (fval m - gmean ny nx (fun i j => (values n i j - values o i j) * (values Dn i j - values Dp i j)))) by ring.
    rewrite Rabs_Ropp. lra.
Qed.

Lemma isub_11' {A} {Nm : Num A} (f : nat -> nat -> A) c : isub (Ok (grid ny nx f)) (Ok (build [1; 1]%nat (fun _ => c))) = Ok (grid ny nx (fun i j => nsub (f i j) c)).
Proof.
  unfold isub, bc2. cbn [bind shape build grid stack].
  assert (E : bshape [nx; ny] [1; 1]%nat = Some [nx; ny]%nat).
  { cbn [bshape]. destruct (Nat.eqb_spec ny 1); destruct (Nat.eqb_spec nx 1); subst; cbn; rewrite ?Nat.eqb_refl; reflexivity. }
  rewrite E. cbn [bind shape build]. destruct (list_eq_dec Nat.eq_dec [nx; ny] [nx; ny]); [|congruence].
  f_equal. unfold grid, stack. apply build_ext. intros ix Hi.
  pose proof (bidx_self _ _ Hi) as Ei. rewrite Ei.
  change (build [nx; ny] (fun ix => f (nth 1 ix 0%nat) (nth 0 ix 0%nat))) with (grid ny nx f).
  apply inb_stack in Hi as (i & j & r & -> & Hj & Hi & Hr). destruct r; [|inversion Hr].
  cbn [bidx]. rewrite !Nat.eqb_refl. cbn [skipn nth].
  change (get (grid ny nx f) [j; i]) with (at2 (grid ny nx f) i j). rewrite at2_grid by assumption.
  change (build [1; 1]%nat (fun _ : list nat => c)) with (grid 1 1 (fun _ _ => c)).
  change (get (grid 1 1 (fun _ _ => c)) [0; 0]%nat) with (at2 (grid 1 1 (fun _ _ : nat => c)) 0 0). now rewrite at2_grid by lia.
Qed.

Context (t' : order). Hypothesis Ht' : sum_of t' ny nx.
Local Notation D' := (INR (depth t')).
Hypothesis SL : scale64 (P / h ^ 2).
Local Notation L := (8 * (P / h ^ 2)).
Lemma lap_near5 i j : (i < ny)%nat -> (j < nx)%nat -> near (lap5 ny nx dx phi i j) (lap5 (N := NumR) ny nx h (values phi) i j) (5.5 * uro * L) /\
  Rabs (lap5 (N := NumR) ny nx h (values phi) i j) <= L.
Proof.
  intros Hi Hj. split.
  - unfold lap5. cbn [nsub nadd ndiv nmul nofZ npow NumF64 NumR].
    replace (5.5 * uro * L) with (44 * uro * P / h ^ 2) by (unfold Rdiv; lra).
    apply (lap_point dx h P Nd mh mP); try (apply near_self); apply Bp; try apply sh_lt; assumption.
  - replace L with (8 / h ^ 2 * P) by (unfold Rdiv; ring). apply (RoundTop.lap5_bound ny nx dx Hy Hx Sd); auto. intros a b Ha Hb. now apply Bp.
Qed.
Lemma D'_ok : 0 <= D' <= 1000000000000 /\ 1000000000000 * uro <= / 5000 /\ D' * uro <= / 5000.
Proof.
  destruct Ht' as (_ & _ & H). pose proof (pos_INR (depth t')). pose proof uro_pos. assert (1000000000000 * uro <= / 5000) by (rewrite uro_num; lra).
  repeat split; try lra. apply Rle_trans with (2 := H2). apply Rmult_le_compat_r; lra.
Qed.
Lemma enstrophy_phi_near : exists g, enstrophy_phi_by (mean64 t) (mean64_keep t') (Ok (grid ny nx n)) (Ok (grid ny nx phi)) dx = sc g /\
  near g (enstrophy2 ny nx (values n) (lap5 (N := NumR) ny nx h (values phi))) ((1.01 * D + 2.1 * D' + 34) * uro * ((B + L) * (B + L) / 2)).
Proof.
  set (lp := lap5 ny nx dx phi). set (m := mval t' ny nx lp). set (w := fun i j => lp i j ⊖ m).
  exists (mval t ny nx (fun i j => f64_pow (n i j ⊖ w i j) 2) ⊘ f64_ofZ 2). split.
  - unfold enstrophy_phi_by. rewrite np_periodic_laplace_N_grid by assumption. change (Z.to_nat 1) with 1%nat. cbn [lap_iter].
    change (lap5 ny nx dx phi) with lp. change (mean64_keep t' (Ok (grid ny nx lp))) with (Ok (build [1; 1]%nat (fun _ => m))).
    rewrite isub_11'. unfold sub_, powk. rewrite lift2_grid, map1_grid, mean64_grid. reflexivity.
  - assert (mL : mag 2 L).
    { pose proof (mag_pos _ _ (scale_mag _ SL)). pose proof (scale_mag _ SL) as [L1 L2]. pose proof W_num. rewrite pow_1 in *. split.
      - apply Rle_trans with (/ W); [|lra]. rewrite <- (pow_1 W) at 2. apply Rinv_le_contravar; [apply Wp|apply W_le; lia].
      - replace (W ^ 2) with (W * W) by ring. nra. }
    assert (MX : mag 3 ((B + L) * (B + L))).
    { pose proof (scale_mag _ SL) as M0. pose proof (mag_pos _ _ M0). pose proof (mag_pos _ _ mB). destruct M0 as [L1 L2]. destruct mB as [L3 L4]. pose proof W_num. rewrite pow_1 in *. split.
      - apply Rle_trans with (/ W ^ 2); [apply Rinv_le_contravar; [apply Wp|apply W_le; lia]|]. replace (W ^ 2) with (W * W) by ring. rewrite Rinv_mult.
        pose proof (Rinv_0_lt_compat W ltac:(lra)). apply Rmult_le_compat; lra.
      - apply Rle_trans with ((9 * W) * (9 * W)); [apply Rmult_le_compat; lra|]. replace (W ^ 3) with (W * (W * W)) by ring. assert (0 < W * W) by nra. nra. }
    pose proof (mag_pos _ _ MX) as PX. pose proof (mag_tiny 3 _ ltac:(lia) MX) as TX. pose proof (mag_huge 3 _ ltac:(lia) MX) as GX. pose proof (big60 3 _ ltac:(lia) MX) as KX.
    pose proof (mag_pos _ _ mL) as PL. pose proof (mag_tiny 2 _ ltac:(lia) mL) as TL. pose proof (mag_huge 2 _ ltac:(lia) mL) as GL. pose proof (big60 2 _ ltac:(lia) mL) as KL.
    pose proof (mag_pos _ _ mB) as PB. pose proof (mag_huge 1 _ ltac:(lia) mB) as GB.
    pose proof uro_pos as U. pose proof uro_small as Us. destruct D_ok as (D1 & D2 & D3). destruct D'_ok as (D4 & _ & D6).
    set (X := (B + L) * (B + L)) in *. assert (UX : 0 <= uro * X) by (apply Rmult_le_pos; lra).
    set (l := L) in *. assert (UL : 0 <= uro * l) by (apply Rmult_le_pos; lra).
    assert (UD : 0 <= D' * uro) by (apply Rmult_le_pos; lra).
    assert (Mm : near m 0 ((5.5 + 1.01 * D' + 1.1) * uro * l)).
    { replace 0 with (gmean ny nx (lap5 (N := NumR) ny nx h (values phi))).
      - apply (mean_near t' ny nx Hy Hx Ht' lp); try lra. intros i j Hi Hj. now apply lap_near5.
      - unfold gmean. rewrite gsum_lap5 by assumption. unfold Rdiv. ring. }
    set (k := 13.3 + 1.01 * D').
    assert (Mw : forall i j, (i < ny)%nat -> (j < nx)%nat -> near (w i j) (lap5 (N := NumR) ny nx h (values phi) i j) (k * uro * l)).
    { intros i j Hi Hj. destruct (lap_near5 i j Hi Hj) as [A1 A2]. fold l in A1, A2.
      pose proof (near_sub (lp i j) m _ _ _ _ l A1 Mm) as Q. rewrite Rminus_0_r in Q. specialize (Q A2).
      assert (E : (5.5 + 1.01 * D' + 1.1) * uro * l <= / 1000 * l) by (apply Rmult_le_compat_r; lra).
      assert (E2 : 5.5 * uro * l <= / 1000 * l) by (apply Rmult_le_compat_r; lra).
      eapply near_mono; [apply Q; lra|].
      assert (uro * (l + 5.5 * uro * l + (5.5 + 1.01 * D' + 1.1) * uro * l) <= uro * (1.002 * l)) by (apply Rmult_le_compat_l; lra). unfold k. lra. }
    assert (K0 : 0 <= k) by (unfold k; lra). assert (KU : k * uro <= / 1500) by (unfold k; lra).
    set (kk := 1.001 * (2 * (k + 1.01)) + 1.01).
    assert (C : forall i j, (i < ny)%nat -> (j < nx)%nat ->
      near (f64_pow (n i j ⊖ w i j) 2) ((values n i j - lap5 (N := NumR) ny nx h (values phi) i j) ^ 2) (kk * uro * X) /\
      Rabs ((values n i j - lap5 (N := NumR) ny nx h (values phi) i j) ^ 2) <= X).
    { intros i j Hi Hj. destruct (cell n B i j Bn Hi Hj) as [N1 N2]. destruct (lap_near5 i j Hi Hj) as [_ A2]. fold l in A2. pose proof (Mw i j Hi Hj) as A1.
      change (values n i j) with (fval (n i j)). set (a := fval (n i j)) in *. set (b := lap5 (N := NumR) ny nx h (values phi) i j) in *.
      assert (0 <= k * uro * B) by (apply Rmult_le_pos; [apply Rmult_le_pos|]; lra).
      assert (N1' : near (n i j) a (k * uro * B)) by (eapply near_mono; [exact N1|lra]).
      pose proof (sub_k _ _ _ _ k _ _ N1' A1 N2 A2 K0 ltac:(lra) ltac:(lra)) as Q. pose proof (sub_b _ _ _ _ N2 A2) as Qb.
      replace ((a - b) ^ 2) with ((a - b) * (a - b)) by ring. split; [|now apply mul_b].
      rewrite sq_val. assert (Q2 : near ((n i j ⊖ w i j) ⊗ (n i j ⊖ w i j)) ((a - b) * (a - b)) ((1.001 * (k + 1.01 + (k + 1.01)) + 1.01) * uro * X)).
      { apply (mul_k _ _ _ _ _ _ _ _ Q Q Qb Qb); try lra; fold X; lra. }
      eapply near_mono; [exact Q2|]. unfold kk. lra. }
    assert (KK : 0 <= kk /\ kk * uro <= / 1000) by (unfold kk, k in *; lra).
    assert (M : near (mval t ny nx (fun i j => f64_pow (n i j ⊖ w i j) 2)) (gmean ny nx (fun i j => (values n i j - lap5 (N := NumR) ny nx h (values phi) i j) ^ 2)) ((kk + 1.01 * D + 1.1) * uro * X)).
    { apply mean_near; try assumption; lra. }
    assert (Bd : Rabs (gmean ny nx (fun i j => (values n i j - lap5 (N := NumR) ny nx h (values phi) i j) ^ 2)) <= X).
    { apply gmean_bd; try assumption. intros i j Hi Hj. now apply C. }
    eapply near_mono; [apply (half_k _ _ _ _ M Bd); try lra|].
    + unfold kk, k in *. lra.
    + assert (0 <= D' * uro * X) by (apply Rmult_le_pos; lra). unfold kk, k. lra.
Qed.
End Diag.
