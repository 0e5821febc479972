From Coq Require Import List Arith ZArith Reals Lra Lia Psatz SpecFloat Bool String Permutation.
From Verif Require Import Num NdArray NdFacts ModelGradients ModelProperties ModelHW ModelRun64 ModelProps64 Spec SpecHW SpecRound SpecRoundStep SpecProps64
  SumFacts RoundFacts RoundStencil RoundHW RoundReal RoundProps RoundTop Props64Facts Props64Diag SpecFourier.
Import List ListNotations.
Local Open Scope R_scope.
Local Existing Instance NumF64.

Lemma half_dif x y E : Rabs (x - y) <= E -> Rabs (x / 2 - y / 2) <= E / 2.
Proof.
  intros H. replace (x / 2 - y / 2) with ((x - y) * / 2) by field. rewrite Rabs_mult, (Rabs_right (/ 2)) by lra. lra.
Qed.

Section Lip.
Context (ny nx : nat) (dx : f64).
Hypothesis Hy : (0 < ny)%nat. Hypothesis Hx : (0 < nx)%nat. Hypothesis Sd : scale64 (fval dx).
Local Notation h := (fval dx).
Let hpos : 0 < h := mag_pos _ _ (scale_mag _ Sd).

Lemma cd_lip e p q i j : fwithin ny nx e p q -> (i < ny)%nat -> (j < nx)%nat ->
  Rabs (cdy (N := NumR) ny h p i j - cdy (N := NumR) ny h q i j) <= e / h /\ Rabs (cdx (N := NumR) nx h p i j - cdx (N := NumR) nx h q i j) <= e / h.
Proof. intros H Hi Hj. apply (cd_diff ny nx dx Hy Hx Sd p q e i j); auto. Qed.
Lemma cd_bdd P p i j : fbdd ny nx P p -> (i < ny)%nat -> (j < nx)%nat ->
  Rabs (cdy (N := NumR) ny h p i j) <= P / h /\ Rabs (cdx (N := NumR) nx h p i j) <= P / h.
Proof.
  intros H Hi Hj. pose proof (cd_lip P p (fun _ _ => 0) i j) as D.
  assert (Z1 : cdy (N := NumR) ny h (fun _ _ => 0) i j = 0) by (unfold cdy; cbn [nsub nmul ndiv nofZ NumR]; unfold Rdiv; ring).
  assert (Z2 : cdx (N := NumR) nx h (fun _ _ => 0) i j = 0) by (unfold cdx; cbn [nsub nmul ndiv nofZ NumR]; unfold Rdiv; ring).
  rewrite Z1, Z2, !Rminus_0_r in D. apply D; auto. intros a b Ha Hb. rewrite Rminus_0_r. now apply H.
Qed.
Lemma prod_dif a b a' b' ea eb A B : Rabs (a - a') <= ea -> Rabs (b - b') <= eb -> Rabs a' <= A -> Rabs b <= B ->
  Rabs (a * b - a' * b') <= A * eb + B * ea.
Proof.
  intros H1 H2 H3 H4. replace (a * b - a' * b') with (a' * (b - b') + b * (a - a')) by ring. apply Rle_trans with (1 := Rabs_triang _ _).
  rewrite !Rabs_mult. apply Rplus_le_compat; apply Rmult_le_compat; try apply Rabs_pos; assumption.
Qed.
Lemma sq_dif a b e A : Rabs (a - b) <= e -> Rabs a <= A -> Rabs (a ^ 2 - b ^ 2) <= e * (2 * A + e).
Proof.
  intros H1 H2. replace (a ^ 2 - b ^ 2) with ((a - b) * (2 * a - (a - b))) by ring. rewrite Rabs_mult.
  apply Rmult_le_compat; try apply Rabs_pos; [assumption|]. unfold Rminus at 1. apply Rle_trans with (1 := Rabs_triang _ _).
  rewrite Rabs_Ropp, Rabs_mult, (Rabs_right 2) by lra. lra.
Qed.

Lemma flux_lip B P e d n n' p p' : fwithin ny nx e n n' -> fwithin ny nx d p p' -> fbdd ny nx B n' -> fbdd ny nx P p ->
  Rabs (flux ny nx h n p - flux ny nx h n' p') <= B * (d / h) + P / h * e.
Proof.
  intros Hn Hp Bn Bp. unfold flux. replace (- gmean ny nx (fun i j => n i j * cdy (N := NumR) ny h p i j) - - gmean ny nx (fun i j => n' i j * cdy (N := NumR) ny h p' i j))
    with (- (gmean ny nx (fun i j => n i j * cdy (N := NumR) ny h p i j) - gmean ny nx (fun i j => n' i j * cdy (N := NumR) ny h p' i j))) by ring.
  rewrite Rabs_Ropp. apply gmean_dif; try assumption. intros i j Hi Hj. apply prod_dif; [now apply Hn|now apply cd_lip|now apply Bn|now apply cd_bdd].
Qed.
Lemma sink_lip c B P e d n n' p p' : fwithin ny nx e n n' -> fwithin ny nx d p p' -> fbdd ny nx B n -> fbdd ny nx P p ->
  Rabs (sink ny nx c n p - sink ny nx c n' p') <= Rabs c * ((e + d) * (2 * (B + P) + (e + d))).
Proof.
  intros Hn Hp Bn Bp. unfold sink. rewrite <- Rmult_minus_distr_l, Rabs_mult. apply Rmult_le_compat_l; [apply Rabs_pos|].
  apply gmean_dif; try assumption. intros i j Hi Hj. apply sq_dif.
  - replace (n i j - p i j - (n' i j - p' i j)) with ((n i j - n' i j) - (p i j - p' i j)) by ring. apply sub_b; [now apply Hn|now apply Hp].
  - apply sub_b; [now apply Bn|now apply Bp].
Qed.
Lemma enst_lip B P e d n n' p p' : fwithin ny nx e n n' -> fwithin ny nx d p p' -> fbdd ny nx B n -> fbdd ny nx P p ->
  Rabs (enstrophy2 ny nx n p - enstrophy2 ny nx n' p') <= (e + d) * (2 * (B + P) + (e + d)) / 2.
Proof.
  intros Hn Hp Bn Bp. pose proof (sink_lip 1 B P e d n n' p p' Hn Hp Bn Bp) as Q. unfold sink in Q. rewrite !Rmult_1_l, Rabs_R1, Rmult_1_l in Q.
  unfold enstrophy2. now apply half_dif.
Qed.
Lemma energy_lip B P e d n n' p p' : fwithin ny nx e n n' -> fwithin ny nx d p p' -> fbdd ny nx B n -> fbdd ny nx P p ->
  Rabs (energy2 ny nx h n p - energy2 ny nx h n' p') <= (e * (2 * B + e) + 2 * (d / h * (2 * (P / h) + d / h))) / 2.
Proof.
  intros Hn Hp Bn Bp. unfold energy2.
  assert (Q : Rabs (gmean ny nx (fun i j => n i j ^ 2 + (cdx (N := NumR) nx h p i j ^ 2 + cdy (N := NumR) ny h p i j ^ 2)) -
    gmean ny nx (fun i j => n' i j ^ 2 + (cdx (N := NumR) nx h p' i j ^ 2 + cdy (N := NumR) ny h p' i j ^ 2))) <= e * (2 * B + e) + 2 * (d / h * (2 * (P / h) + d / h))).
  { apply gmean_dif; try assumption. intros i j Hi Hj. destruct (cd_lip d p p' i j Hp Hi Hj) as [L1 L2]. destruct (cd_bdd P p i j Bp Hi Hj) as [L3 L4].
    pose proof (sq_dif _ _ _ _ (Hn i j Hi Hj) (Bn i j Hi Hj)) as Q1. pose proof (sq_dif _ _ _ _ L1 L3) as Q2. pose proof (sq_dif _ _ _ _ L2 L4) as Q3.
    set (a := n i j ^ 2) in *. set (b := n' i j ^ 2) in *. set (c := cdx (N := NumR) nx h p i j ^ 2) in *. set (c' := cdx (N := NumR) nx h p' i j ^ 2) in *.
    set (f := cdy (N := NumR) ny h p i j ^ 2) in *. set (f' := cdy (N := NumR) ny h p' i j ^ 2) in *.
    replace (a + (c + f) - (b + (c' + f'))) with ((a - b) + ((c - c') + (f - f'))) by ring. apply Rle_trans with (1 := Rabs_triang _ _).
    pose proof (Rabs_triang (c - c') (f - f')). lra. }
  now apply half_dif.
Qed.
End Lip.

Lemma near_shift x r s e d : near x r e -> Rabs (r - s) <= d -> near x s (e + d).
Proof. intros [F E] H. split; [exact F|]. replace (fval x - s) with ((fval x - r) + (r - s)) by ring. apply Rle_trans with (1 := Rabs_triang _ _). lra. Qed.

Lemma diag_state ny nx dx c1 t B P e d n o phi y : (0 < ny)%nat -> (0 < nx)%nat -> finite64 dx -> scale64 (fval dx) -> scale64 B -> scale64 P ->
  finite64 c1 -> Rabs (fval c1) <= 2 ^ 200 -> sum_of t ny nx ->
  bounded64 ny nx B n -> bounded64 ny nx B o -> bounded64 ny nx P phi -> sbdd ny nx B y ->
  close64 ny nx e n o y -> (forall i j, (i < ny)%nat -> (j < nx)%nat -> near (phi i j) (invlap ny nx (fval dx) (snd y) i j) d) ->
  diag64 ny nx dx c1 t B P e d n o phi y.
Proof.
  intros Hy Hx Fd Sd SB SP Fc Hc Ht Bn Bo Bp [My _] C N.
  assert (Wn : fwithin ny nx e (values n) (fst y)) by (intros i j Hi Hj; apply (C i j Hi Hj)).
  assert (Wo : fwithin ny nx e (values o) (snd y)) by (intros i j Hi Hj; apply (C i j Hi Hj)).
  assert (Wp : fwithin ny nx d (values phi) (invlap ny nx (fval dx) (snd y))) by (intros i j Hi Hj; apply (N i j Hi Hj)).
  assert (Fn : fbdd ny nx B (values n)) by (intros i j Hi Hj; apply (Bn i j Hi Hj)).
  assert (Fo : fbdd ny nx B (values o)) by (intros i j Hi Hj; apply (Bo i j Hi Hj)).
  assert (Fp : fbdd ny nx P (values phi)) by (intros i j Hi Hj; apply (Bp i j Hi Hj)).
  unfold diag64. cbv zeta. split; [|split; [|split]].
  - destruct (gamma_n_near ny nx dx B P n phi Hy Hx Fd Sd SB SP Bn Bp t Ht) as (g & E & Q). exists g. split; [exact E|].
    apply (near_shift _ _ _ _ _ Q). apply (flux_lip ny nx dx Hy Hx Sd); auto.
  - destruct (gamma_c_near ny nx dx B P n phi Hy Hx SB SP Bn Bp t Ht c1 Fc Hc) as (g & E & Q). exists g. split; [exact E|].
    apply (near_shift _ _ _ _ _ Q). apply (sink_lip ny nx Hy Hx); auto.
  - destruct (energy_near ny nx dx B P n phi Hy Hx Fd Sd SB SP Bn Bp t Ht) as (g & E & Q). exists g. split; [exact E|].
    apply (near_shift _ _ _ _ _ Q). apply (energy_lip ny nx dx Hy Hx Sd); auto.
  - destruct (enstrophy_near ny nx dx B n Hy Hx SB Bn t Ht o B SB Bo) as (g & E & Q). exists g. split; [exact E|].
    apply (near_shift _ _ _ _ _ Q). apply (enst_lip ny nx Hy Hx); auto.
Qed.

Lemma phi_dist ny nx dx b dx0 N c1 nu pb kap zon Lam B P S d dt e n o phi y : regime ny nx dx b dx0 N c1 nu pb kap zon Lam B P S d dt ->
  close64 ny nx e n o y -> pot64 ny nx dx P d phi o ->
  forall i j, (i < ny)%nat -> (j < nx)%nat -> near (phi i j) (invlap ny nx (fval dx) (snd y) i j) (Lam * e + d).
Proof.
  intros Rg C [_ Np] i j Hi Hj. rewrite Rplus_comm. apply (near_shift _ _ _ _ _ (Np i j Hi Hj)).
  assert (Pdx : 0 < fval dx) by exact (mag_pos _ _ (scale_mag _ (rg_sdx _ _ _ _ _ _ _ _ _ _ _ _ _ _ _ _ _ Rg))).
  apply (inv_dif_bd ny nx (fval dx) (rg_y _ _ _ _ _ _ _ _ _ _ _ _ _ _ _ _ _ Rg) (rg_x _ _ _ _ _ _ _ _ _ _ _ _ _ _ _ _ _ Rg) Pdx Lam
    (rg_Lam _ _ _ _ _ _ _ _ _ _ _ _ _ _ _ _ _ Rg) e (values o) (snd y)); try assumption.
  intros a c Ha Hc. apply (C a c Ha Hc).
Qed.

Lemma c123_solution : forall ny nx dx N c1 nu pb kap zon Y T M, (0 < ny)%nat -> (0 < nx)%nat -> 0 < fval dx ->
  let p := par64 N c1 nu pb kap zon in
  0 <= T -> hw_solution p ny nx (fval dx) Y T -> (forall s, 0 <= s <= T -> sbdd ny nx M (Y s)) ->
  exists C h0, 0 <= C /\ 0 < h0 /\ forall b dx0 Lam B P S d dt, regime ny nx dx b dx0 N c1 nu pb kap zon Lam B P S d dt ->
  fval dt <= h0 -> forall k e n o phi pl a, INR k * fval dt <= T ->
  close64 ny nx e n o (Y 0) -> pot64 ny nx dx P d phi o -> has_fields ny nx pl n o phi a ->
  let E := exp (2 * lip p (fval dx) Lam B * T) * (e + T * (step_err p ny (fval dx) d B S (fval dt) / fval dt)) + C * fval dt ^ 4 in
  1.001 * (M + E) + 1.1 * (fval dt * S) <= B -> Rabs (fval c1) <= 2 ^ 200 ->
  exists lg pl' n' o' phi' a', steps (fun pl => rk4_step (hw64 b dx0 N c1 nu pb kap zon) pl dt dx) k pl = (lg, Ok pl') /\
    has_fields ny nx pl' n' o' phi' a' /\
    forall t, sum_of t ny nx -> diag64 ny nx dx c1 t B P E (Lam * E + d) n' o' phi' (Y (INR k * fval dt)).
Proof.
  intros ny nx dx N c1 nu pb kap zon Y T M Hy Hx Hd p HT HY HM.
  destruct (c115_solution ny nx dx N c1 nu pb kap zon Y T M Hy Hx Hd HT HY HM) as (C & h0 & HC & Hh & Main).
  exists C, h0. split; [exact HC|]. split; [exact Hh|]. intros b dx0 Lam B P S d dt Rg Hdt k e n o phi pl a Hk Hc Hp Hf E HB Hc1.
  destruct (Main b dx0 Lam B P S d dt Rg Hdt k e n o phi pl a Hk Hc Hp Hf HB) as (lg & pl' & n' & o' & phi' & a' & R1 & R2 & R3 & R4).
  exists lg, pl', n', o', phi', a'. split; [exact R1|]. split; [exact R2|]. intros t Ht.
  assert (Sdt : 0 < fval dt) by exact (mag_pos _ _ (scale_mag _ (rg_sdt _ _ _ _ _ _ _ _ _ _ _ _ _ _ _ _ _ Rg))).
  assert (SS : 0 < S) by exact (mag_pos _ _ (scale_mag _ (rg_S _ _ _ _ _ _ _ _ _ _ _ _ _ _ _ _ _ Rg))).
  pose proof (Rmult_lt_0_compat _ _ Sdt SS) as Q.
  assert (K0 : 0 <= INR k * fval dt) by (apply Rmult_le_pos; [apply pos_INR|lra]).
  assert (My : sbdd ny nx M (Y (INR k * fval dt))) by (apply HM; lra).
  fold p in R4. fold E in R4.
  assert (E0 : 0 <= E). { destruct (R4 0%nat 0%nat Hy Hx) as [[_ A] _]. apply Rle_trans with (2 := A). apply Rabs_pos. }
  assert (M0 : 0 <= M). { destruct My as [A _]. apply Rle_trans with (2 := A 0%nat 0%nat Hy Hx). apply Rabs_pos. }
  destruct (Run64Facts.close_bounded ny nx E M B n' o' _ R4 My) as [Bn Bo]; [lra|].
  apply diag_state; try assumption; try apply Rg.
  - apply R3.
  - destruct My as [M1 M2]. split; intros i j Hi Hj; [apply Rle_trans with (1 := M1 i j Hi Hj)|apply Rle_trans with (1 := M2 i j Hi Hj)]; lra.
  - exact (phi_dist _ _ _ _ _ _ _ _ _ _ _ _ _ _ _ _ _ _ _ _ _ _ Rg R4 R3).
Qed.
