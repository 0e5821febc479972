(** Rounding errors of the Fourier Poisson solvers in binary64, for transforms
    of known accuracy. *)
From Coq Require Import List Arith ZArith Reals Lra Lia SpecFloat Bool Psatz.
From Verif Require Import Num NdArray Spec Cplx SpecFourier SpecHW SpecRound SpecRoundStep SpecRun64 RoundFacts RoundCons ModelPoisson ModelPoisson64 SpecPoisson64 NdFacts SumFacts DftFacts PoissonFacts PiFacts SymRound.
Import ListNotations.
Local Open Scope R_scope.
Local Existing Instance NumF64.

(** ** sums *)
Lemma gsum_le ny nx f g : (forall i j, (i < ny)%nat -> (j < nx)%nat -> f i j <= g i j) -> gsum ny nx f <= gsum ny nx g.
Proof. intros H. apply rsum_le. intros i Hi. apply rsum_le. intros j Hj. now apply H. Qed.
Lemma rsum_abs n f : Rabs (rsum n f) <= rsum n (fun i => Rabs (f i)).
Proof. induction n as [|n IH]; cbn [rsum]; [rewrite Rabs_R0; lra|]. apply Rle_trans with (1 := Rabs_triang _ _). lra. Qed.
Lemma gsum_abs ny nx f : Rabs (gsum ny nx f) <= gsum ny nx (fun i j => Rabs (f i j)).
Proof. unfold gsum. apply Rle_trans with (1 := rsum_abs _ _). apply rsum_le. intros i _. apply rsum_abs. Qed.
Lemma rsum_term n f k : (forall i, (i < n)%nat -> 0 <= f i) -> (k < n)%nat -> f k <= rsum n f.
Proof.
  induction n as [|n IH]; intros H Hk; [lia|]. cbn [rsum]. pose proof (H n ltac:(lia)).
  destruct (Nat.eq_dec k n) as [->|N].
  - pose proof (rsum_nonneg n f ltac:(intros; apply H; lia)). lra.
  - pose proof (IH ltac:(intros; apply H; lia) ltac:(lia)). lra.
Qed.
Lemma gsum_term ny nx f k l : (forall i j, (i < ny)%nat -> (j < nx)%nat -> 0 <= f i j) -> (k < ny)%nat -> (l < nx)%nat -> f k l <= gsum ny nx f.
Proof.
  intros H Hk Hl. apply Rle_trans with (rsum nx (fun j => f k j)).
  - apply (rsum_term nx (fun j => f k j)); [|assumption]. intros j Hj. now apply H.
  - apply (rsum_term ny (fun i => rsum nx (fun j => f i j))); [|assumption]. intros i Hi. apply rsum_nonneg. intros j Hj. now apply H.
Qed.

(** ** bounds of transforms *)
Lemma pw_cis ny nx k l i j : exists t, pw ny nx k l i j = cis t.
Proof. unfold pw, wn. rewrite <- cis_add. eexists. reflexivity. Qed.
Lemma trig_1 t : Rabs (cos t) <= 1 /\ Rabs (sin t) <= 1.
Proof. pose proof (COS_bound t). pose proof (SIN_bound t). split; apply Rabs_le; lra. Qed.
Lemma cmul_cis_re z t : Rabs (re (Cmul z (cis t))) <= Rabs (re z) + Rabs (im z).
Proof.
  destruct (trig_1 t) as [A B]. cbn [Cmul cis re im]. unfold Rminus. apply Rle_trans with (1 := Rabs_triang _ _). rewrite Rabs_Ropp, !Rabs_mult.
  pose proof (Rabs_pos (re z)). pose proof (Rabs_pos (im z)).
  assert (Rabs (re z) * Rabs (cos t) <= Rabs (re z) * 1) by (apply Rmult_le_compat_l; lra).
  assert (Rabs (im z) * Rabs (sin t) <= Rabs (im z) * 1) by (apply Rmult_le_compat_l; lra). lra.
Qed.
Lemma idft2_re_le ny nx F i j : (0 < ny)%nat -> (0 < nx)%nat -> Rabs (re (idft2 ny nx F i j)) <= / (INR ny * INR nx) * size1 ny nx F.
Proof.
  intros Hy Hx. pose proof (INR_pos ny Hy). pose proof (INR_pos nx Hx). assert (P : 0 < INR ny * INR nx) by now apply Rmult_lt_0_compat.
  rewrite idft2_gc. cbn [Cscal re]. rewrite Rabs_mult, Rabs_right by (apply Rle_ge, Rlt_le, Rinv_0_lt_compat, P).
  apply Rmult_le_compat_l; [apply Rlt_le, Rinv_0_lt_compat, P|]. rewrite gcsum_re. apply Rle_trans with (1 := gsum_abs _ _ _).
  apply gsum_le. intros k l _ _. destruct (pw_cis ny nx (Z.of_nat k) (Z.of_nat l) (Z.of_nat i) (Z.of_nat j)) as [t ->]. apply cmul_cis_re.
Qed.
Lemma idft2_sub ny nx F G i j : Csub (idft2 ny nx F i j) (idft2 ny nx G i j) = idft2 ny nx (fun k l => Csub (F k l) (G k l)) i j.
Proof.
  rewrite (idft2_ext ny nx (fun k l => Csub (F k l) (G k l)) (fun k l => Cadd (Cmul C1 (F k l)) (Cmul (Copp C1) (G k l)))) by (intros; ring).
  rewrite idft2_lin. ring.
Qed.
(** any combination of a wave amplitude of a real field with a phase *)
Lemma dft2_phase ny nx f b k l t : (forall i j, (i < ny)%nat -> (j < nx)%nat -> Rabs (f i j) <= b) ->
  Rabs (re (Cmul (dft2 ny nx (fun i j => RtoC (f i j)) k l) (cis t))) <= INR ny * INR nx * b.
Proof.
  intros H. rewrite dft2_gc, <- gcsum_mul_r, gcsum_re. apply gsum_abs_le. intros i j Hi Hj.
  destruct (pw_cis ny nx (- k) (- l) (Z.of_nat i) (Z.of_nat j)) as [s ->].
  replace (Cmul (Cmul (RtoC (f i j)) (cis s)) (cis t)) with (Cscal (f i j) (cis (s + t))) by (rewrite cis_add; cbn; unfold Cscal, Cmul, RtoC; cbn; f_equal; ring).
  cbn [Cscal re cis]. rewrite Rabs_mult. destruct (trig_1 (s + t)) as [A _]. specialize (H i j Hi Hj). pose proof (Rabs_pos (f i j)).
  apply Rle_trans with (Rabs (f i j) * 1); [apply Rmult_le_compat_l; lra|lra].
Qed.
Lemma dft2_re_le ny nx f b k l : (forall i j, (i < ny)%nat -> (j < nx)%nat -> Rabs (f i j) <= b) ->
  Rabs (re (dft2 ny nx (fun i j => RtoC (f i j)) k l)) <= INR ny * INR nx * b.
Proof.
  intros H. pose proof (dft2_phase ny nx f b k l 0 H) as P. rewrite cis_0 in P.
  replace (Cmul (dft2 ny nx (fun i j => RtoC (f i j)) k l) C1) with (dft2 ny nx (fun i j => RtoC (f i j)) k l) in P by ring. exact P.
Qed.
Lemma dft2_im_le ny nx f b k l : (forall i j, (i < ny)%nat -> (j < nx)%nat -> Rabs (f i j) <= b) ->
  Rabs (im (dft2 ny nx (fun i j => RtoC (f i j)) k l)) <= INR ny * INR nx * b.
Proof.
  intros H. pose proof (dft2_phase ny nx f b k l (PI / 2) H) as P. unfold cis in P. rewrite cos_PI2, sin_PI2 in P. cbn [Cmul re im] in P.
  rewrite Rmult_0_r, Rmult_1_r, Rminus_0_l, Rabs_Ropp in P. exact P.
Qed.

(** ** the inverse Laplacian *)
Definition wt (ny nx : nat) (k l : nat) : R := if ((k =? 0)%nat && (l =? 0)%nat)%bool then 0 else / Rabs (lam ny nx k l).
Lemma inv_sum_wt ny nx dx : (0 < ny)%nat -> (0 < nx)%nat -> dx <> 0 -> inv_sum ny nx dx = dx ^ 2 * gsum ny nx (wt ny nx).
Proof.
  intros Hy Hx Hd. unfold inv_sum. rewrite <- gsum_scal. apply gsum_ext. intros k l Hk Hl. unfold wt.
  destruct ((k =? 0)%nat && (l =? 0)%nat) eqn:E; [ring|]. rewrite lam_symbol by assumption.
  apply is00_false in E. pose proof (lam_neg ny nx k l Hk Hl E). assert (0 < dx ^ 2) by (pose proof (Rlt_0_sqr dx Hd); unfold Rsqr in *; cbn [pow]; lra).
  unfold Rdiv. rewrite Rabs_mult, Rabs_inv, (Rabs_right (dx ^ 2)) by lra. rewrite Rinv_mult, Rinv_inv. ring.
Qed.
Lemma wt_pos ny nx k l : (k < ny)%nat -> (l < nx)%nat -> 0 <= wt ny nx k l.
Proof.
  intros Hk Hl. unfold wt. destruct (_ && _) eqn:E; [lra|]. apply is00_false in E. pose proof (lam_neg ny nx k l Hk Hl E).
  apply Rlt_le, Rinv_0_lt_compat, Rabs_pos_lt. lra.
Qed.
Lemma inv_sum_pos ny nx dx : (0 < ny)%nat -> (0 < nx)%nat -> dx <> 0 -> 0 <= inv_sum ny nx dx.
Proof.
  intros Hy Hx Hd. rewrite inv_sum_wt by assumption. apply Rmult_le_pos; [apply pow2_ge_0|]. apply gsum_nonneg. intros; now apply wt_pos.
Qed.
Lemma inv_sum_bound ny nx dx : (0 < ny)%nat -> (0 < nx)%nat -> inv_bound ny nx dx (inv_sum ny nx dx).
Proof.
  intros Hy Hx f b H i j Hi Hj. pose proof (INR_pos ny Hy). pose proof (INR_pos nx Hx). assert (P : 0 < INR ny * INR nx) by now apply Rmult_lt_0_compat.
  unfold invlap. rewrite idft2_gc. cbn [Cscal re]. rewrite Rabs_mult, Rabs_right by (apply Rle_ge, Rlt_le, Rinv_0_lt_compat, P). rewrite gcsum_re.
  apply Rmult_le_reg_l with (INR ny * INR nx); [exact P|]. rewrite <- Rmult_assoc, Rinv_r, Rmult_1_l by lra.
  apply Rle_trans with (1 := gsum_abs _ _ _).
  replace (INR ny * INR nx * (inv_sum ny nx dx * b)) with (inv_sum ny nx dx * (INR ny * INR nx * b)) by ring.
  unfold inv_sum. rewrite <- gsum_scal_r. apply gsum_le. intros k l Hk Hl.
  destruct (pw_cis ny nx (Z.of_nat k) (Z.of_nat l) (Z.of_nat i) (Z.of_nat j)) as [t ->]. destruct (_ && _).
  - replace (Cmul C0 (cis t)) with C0 by ring. cbn [C0 re]. rewrite Rabs_R0. lra.
  - rewrite Cscal_mul. cbn [Cscal re]. rewrite Rabs_mult, Rabs_inv. apply Rmult_le_compat_l.
    + destruct (Req_dec (lap_symbol ny nx dx k l) 0) as [->|N]; [rewrite Rabs_R0, Rinv_0; lra|]. apply Rlt_le, Rinv_0_lt_compat, Rabs_pos_lt, N.
    + now apply dft2_phase.
Qed.

(** ** an inverse transform of a perturbed table *)
Lemma ifft_core ny nx eps ifft G T e ST E i j : (0 < ny)%nat -> (0 < nx)%nat -> ifft_accurate ny nx eps ifft ->
  (forall k l, (k < ny)%nat -> (l < nx)%nat -> cnear (G k l) (T k l) (e k l)) ->
  size1 ny nx T <= ST -> gsum ny nx (fun k l => 2 * e k l) <= E -> / 2 ^ 800 <= ST + E <= 2 ^ 800 -> (i < ny)%nat -> (j < nx)%nat ->
  near (fst (ifft ny nx G i j)) (re (idft2 ny nx T i j)) ((eps * (ST + E) + E) / (INR ny * INR nx)).
Proof.
  intros Hy Hx HA HG HS HE HR Hi Hj. pose proof (INR_pos ny Hy). pose proof (INR_pos nx Hx). assert (P : 0 < INR ny * INR nx) by now apply Rmult_lt_0_compat.
  assert (D : size1 ny nx (fun k l => Csub (cvals G k l) (T k l)) <= E).
  { apply Rle_trans with (2 := HE). apply gsum_le. intros k l Hk Hl. destruct (HG k l Hk Hl) as [[_ A] [_ B]]. cbn. lra. }
  assert (SG : size1 ny nx (cvals G) <= ST + E).
  { apply Rle_trans with (size1 ny nx T + size1 ny nx (fun k l => Csub (cvals G k l) (T k l))); [|lra]. unfold size1. rewrite <- gsum_add.
    apply gsum_le. intros k l _ _. cbn.
    pose proof (tri (fval (fst (G k l))) (re (T k l)) _ (Rle_refl _)). pose proof (tri (fval (snd (G k l))) (im (T k l)) _ (Rle_refl _)). lra. }
  destruct (HA G (ST + E) ltac:(intros k l Hk Hl; destruct (HG k l Hk Hl) as [[A _] [B _]]; split; assumption) SG HR i j Hi Hj) as [[F N] _].
  split; [exact F|].
  replace (fval (fst (ifft ny nx G i j)) - re (idft2 ny nx T i j)) with
    ((fval (fst (ifft ny nx G i j)) - re (idft2 ny nx (cvals G) i j)) + re (Csub (idft2 ny nx (cvals G) i j) (idft2 ny nx T i j))) by (cbn; ring).
  apply Rle_trans with (1 := Rabs_triang _ _). rewrite idft2_sub.
  pose proof (idft2_re_le ny nx (fun k l => Csub (cvals G k l) (T k l)) i j Hy Hx) as Q.
  assert (/ (INR ny * INR nx) * size1 ny nx (fun k l => Csub (cvals G k l) (T k l)) <= / (INR ny * INR nx) * E)
    by (apply Rmult_le_compat_l; [apply Rlt_le, Rinv_0_lt_compat, P|exact D]).
  unfold Rdiv in *. lra.
Qed.

(** ** complex division by a real number *)
Lemma nonzero64 y s c : rel y s c -> 0 <= c <= 1000 -> s <> 0 -> exists t m e, y = S754_finite t m e.
Proof.
  intros H C Hs. destruct (rel_size y s c H C) as [_ L]. pose proof (Rabs_pos_lt s Hs). destruct H as [[_ F] _].
  destruct y as [t| | |t m e]; try contradiction; [|now exists t, m, e]. cbn [fval] in L. rewrite Rabs_R0 in L. lra.
Qed.
Lemma cdiv_real (ar ai y : f64) s c : rel y s c -> 0 <= c <= 1000 -> s <> 0 -> finite64 ar -> finite64 ai ->
  exists x x', cdiv64 (ar, ai) (real64 y) = (nmul x (ndiv (f64_ofZ 1) y), nmul x' (ndiv (f64_ofZ 1) y)) /\
    finite64 x /\ fval x = fval ar /\ finite64 x' /\ fval x' = fval ai.
Proof.
  intros H C Hs Fr Fi. destruct (nonzero64 y s c H C Hs) as (t & m & e & ->).
  destruct (mul_zero_r (xorb false t) ai Fi) as [s1 E1]. destruct (mul_zero_r (xorb false t) ar Fr) as [s2 E2].
  destruct (add_zero_val ar s1 Fr) as [A1 A2]. destruct (sub_zero_val ai s2 Fi) as [B1 B2].
  exists (SFadd 53 1024 ar (S754_zero s1)), (SFsub 53 1024 ai (S754_zero s2)). repeat split; try assumption; try apply A1; try apply B1.
  unfold cdiv64, real64, zero64. change (f64_ofZ 0) with (S754_zero false). rewrite !nmul_F, !ndiv_F, !nadd_F, !nsub_F.
  change (SFdiv 53 1024 (S754_zero false) (S754_finite t m e)) with (S754_zero (xorb false t)). rewrite E1, E2.
  destruct t; reflexivity.
Qed.
Lemma cdiv_inf (ar ai : f64) : finite64 ar -> finite64 ai -> exists s s', cdiv64 (ar, ai) (real64 inf64) = (S754_zero s, S754_zero s').
Proof.
  intros Fr Fi. destruct (mul_zero_r false ai Fi) as [s1 E1]. destruct (mul_zero_r false ar Fr) as [s2 E2].
  destruct (add_zero_val ar s1 Fr) as [A1 _]. destruct (sub_zero_val ai s2 Fi) as [B1 _].
  destruct (mul_zero_r false _ A1) as [s3 E3]. destruct (mul_zero_r false _ B1) as [s4 E4]. exists s3, s4.
  unfold cdiv64, real64, zero64, inf64. change (f64_ofZ 0) with (S754_zero false). rewrite !nmul_F, !ndiv_F, !nadd_F, !nsub_F.
  change (SFdiv 53 1024 (S754_zero false) (S754_infinity false)) with (S754_zero false). rewrite E1, E2.
  rewrite <- E3, <- E4. reflexivity.
Qed.
Lemma neqb_nonzero y s c : rel y s c -> 0 <= c <= 1000 -> s <> 0 -> neqb y zero64 = false.
Proof. intros H C Hs. destruct (nonzero64 y s c H C Hs) as (t & m & e & ->). destruct t; reflexivity. Qed.

(** product with a number of known relative error *)
Lemma prod_acc x s r v M eps c b g : near x r (eps * M) -> rel s v b -> Rabs r <= M -> 0 <= eps <= 0.05 -> 0 <= b <= 20 -> mag 4 (M * Rabs v) ->
  1.001 * eps <= c -> b * 1.06 + 1.06 <= g -> near (nmul x s) (v * r) ((c + g * uro) * (M * Rabs v)).
Proof.
  intros Hx Hs HM He Hb Hm Hc Hg. destruct uro_small as [U1 U2]. pose proof (mag_pos _ _ Hm) as PQ.
  pose proof (mag_tiny 4 _ ltac:(lia) Hm) as HT. pose proof (mag_huge 4 _ ltac:(lia) Hm) as HH. pose proof (Rabs_pos v) as Pv.
  pose proof (near_mul x s r v _ _ M (Rabs v) Hx Hs HM (Rle_refl _)) as N. rewrite nmul_F, (Rmult_comm v r).
  set (Q := M * Rabs v) in *.
  assert (E : M * (b * uro * Rabs v) + Rabs v * (eps * M) + eps * M * (b * uro * Rabs v) = (b * uro + eps + eps * (b * uro)) * Q) by (unfold Q; ring).
  rewrite E in N. clear E.
  assert (B : 0 <= b * uro <= / 10000000000) by (split; [apply Rmult_le_pos; lra|assert (b * uro <= 20 * uro) by (apply Rmult_le_compat_r; lra); lra]).
  assert (EB : 0 <= eps * (b * uro) <= 0.05 * (b * uro)) by (split; [apply Rmult_le_pos; lra|apply Rmult_le_compat_r; lra]).
  assert (K : (b * uro + eps + eps * (b * uro)) * Q <= 1 * Q) by (apply Rmult_le_compat_r; lra).
  eapply near_mono; [apply N; lra|].
  assert (S1 : uro * (Q + (b * uro + eps + eps * (b * uro)) * Q) <= 1.051 * uro * Q).
  { replace (uro * (Q + (b * uro + eps + eps * (b * uro)) * Q)) with ((1 + (b * uro + eps + eps * (b * uro))) * uro * Q) by ring.
    apply Rmult_le_compat_r; [lra|]. apply Rmult_le_compat_r; lra. }
  assert (S2 : (b * uro + eps + eps * (b * uro)) * Q <= (eps + 1.05 * b * uro) * Q) by (apply Rmult_le_compat_r; lra).
  assert (S3 : (1.001 * eps + (b * 1.06 + 1.06) * uro) * Q <= (c + g * uro) * Q).
  { apply Rmult_le_compat_r; [lra|]. apply Rplus_le_compat; [lra|]. apply Rmult_le_compat_r; lra. }
  assert (0 <= uro * Q) by (apply Rmult_le_pos; lra). assert (0 <= b * (uro * Q)) by (apply Rmult_le_pos; lra). assert (0 <= eps * Q) by (apply Rmult_le_pos; lra). lra.
Qed.
Lemma cdiv_acc (z : c64) y Z s M eps : cnear z Z (eps * M) -> rel y s 14.1 -> s <> 0 -> Rabs (re Z) <= M -> Rabs (im Z) <= M -> 0 <= eps <= 0.01 ->
  mag 2 (M / Rabs s) -> / 1000000000000000 <= Rabs s <= 1000000000000000 ->
  cnear (cdiv64 z (real64 y)) (Cscal (/ s) Z) ((1.001 * eps + 17.1 * uro) * (M / Rabs s)).
Proof.
  intros [Nr Ni] Hy Hs Mr Mi He Hm Hl. destruct z as [ar ai]; cbn [fst snd] in Nr, Ni.
  destruct (cdiv_real ar ai y s 14.1 Hy ltac:(lra) Hs (proj1 Nr) (proj1 Ni)) as (x & x' & -> & F & V & F' & V').
  assert (R1 : rel (ndiv (f64_ofZ 1) y) (1 / s) 15.11).
  { rewrite ndiv_F. eapply (rel_div _ _ _ _ 0 14.1); try exact Hy; try (apply (f64_ofZ_rel 1); lia); try assumption; try lra.
    unfold Rdiv. rewrite Rmult_1_l, Rabs_inv. apply mag1_4, mag_inv, mag40. rewrite p40. lra. }
  unfold Rdiv in R1. rewrite Rmult_1_l in R1.
  assert (Hm' : mag 4 (M * Rabs (/ s))) by (rewrite Rabs_inv; apply (mag_le 2); [lia|exact Hm]).
  unfold Rdiv. rewrite <- Rabs_inv. split; cbn [fst snd Cscal re im].
  - apply (prod_acc _ _ _ _ M eps _ 15.11); try lra; try assumption. destruct Nr. split; [exact F|]. now rewrite V.
  - apply (prod_acc _ _ _ _ M eps _ 15.11); try lra; try assumption. destruct Ni. split; [exact F'|]. now rewrite V'.
Qed.

(** ** the solvers *)
Lemma mag4_800 t : mag 4 t -> / 2 ^ 800 <= t <= 2 ^ 800.
Proof.
  Transparent W. unfold mag, W. Opaque W. rewrite <- pow_mult. change (200 * 4)%nat with 800%nat. exact (fun H => H).
Qed.
Lemma N_size ny nx : (0 < ny)%nat -> (0 < nx)%nat -> (Z.of_nat ny <= 1000000)%Z -> (Z.of_nat nx <= 1000000)%Z -> 1 <= INR ny * INR nx <= 1000000000000.
Proof.
  intros Hy Hx Ly Lx. destruct (nat_size ny Hy Ly), (nat_size nx Hx Lx). split.
  - rewrite <- (Rmult_1_l 1). apply Rmult_le_compat; lra.
  - apply Rle_trans with (1000000 * 1000000); [apply Rmult_le_compat; lra|lra].
Qed.
Lemma L0_size ny nx : (0 < ny)%nat -> (0 < nx)%nat -> (1 < ny * nx)%nat -> (Z.of_nat ny <= 1000000)%Z -> (Z.of_nat nx <= 1000000)%Z ->
  / 21 <= gsum ny nx (wt ny nx) <= 1000000000000000000000000.
Proof.
  intros Hy Hx H1 Ly Lx. split.
  - assert (E : exists k l, (k < ny)%nat /\ (l < nx)%nat /\ (k <> 0 \/ l <> 0)%nat).
    { destruct (Nat.eq_dec ny 1) as [->|N].
      - exists 0%nat, 1%nat. lia.
      - exists 1%nat, 0%nat. lia. }
    destruct E as (k & l & Hk & Hl & Hne). apply Rle_trans with (wt ny nx k l).
    + unfold wt. replace ((k =? 0)%nat && (l =? 0)%nat) with false.
      2:{ symmetry. apply andb_false_iff. destruct Hne; [left|right]; now apply Nat.eqb_neq. }
      destruct (lam_size ny nx k l Hk Hl Hne Ly Lx) as [_ [L U]]. apply Rinv_le_contravar; lra.
    + apply gsum_term; try assumption. intros; now apply wt_pos.
  - apply Rle_trans with (gsum ny nx (fun _ _ => 1000000000000)).
    + apply gsum_le. intros k l Hk Hl. unfold wt. destruct (_ && _) eqn:E; [lra|]. apply is00_false in E.
      destruct (lam_size ny nx k l Hk Hl E Ly Lx) as [_ [L U]]. rewrite <- (Rinv_inv 1000000000000). apply Rinv_le_contravar; lra.
    + rewrite SumFacts.gsum_const. pose proof (N_size ny nx Hy Hx Ly Lx). apply Rle_trans with (1000000000000 * 1000000000000); [apply Rmult_le_compat_r; lra|lra].
Qed.

Section Solve.
Variables (ny nx : nat) (eps B : R) (fft : fft_fun) (om : nat -> nat -> f64).
Hypothesis (Hy : (0 < ny)%nat) (Hx : (0 < nx)%nat) (Ly : (Z.of_nat ny <= 1000000)%Z) (Lx : (Z.of_nat nx <= 1000000)%Z).
Hypothesis (He : eps <= 0.01) (HB : scale64 B) (HF : fft_accurate ny nx eps fft) (Hom : bounded64 ny nx B om).
Let M := INR ny * INR nx * B.
Let Oh k l := dft2 ny nx (fun i j => RtoC (values om i j)) (Z.of_nat k) (Z.of_nat l).
Let F k l := fft ny nx (fun i j => real64 (get (grid ny nx om) [j; i])) k l.

Lemma mag_M : mag 2 M.
Proof.
  pose proof (N_size ny nx Hy Hx Ly Lx). apply (mag_mul 1 1); [|now apply scale_mag]. apply mag40. rewrite p40. lra.
Qed.
Lemma fft_om k l : (k < ny)%nat -> (l < nx)%nat -> cnear (F k l) (Oh k l) (eps * M).
Proof.
  intros Hk Hl. unfold F, Oh.
  assert (G : forall i j, (i < ny)%nat -> (j < nx)%nat -> get (grid ny nx om) [j; i] = om i j) by (intros; now apply (at2_grid ny nx om)).
  assert (E : dft2 ny nx (fun i j => RtoC (values om i j)) (Z.of_nat k) (Z.of_nat l)
    = dft2 ny nx (cvals (fun i j => real64 (get (grid ny nx om) [j; i]))) (Z.of_nat k) (Z.of_nat l)).
  { apply dft2_ext. intros i j Hi Hj. unfold cvals, cval, real64. cbn [fst snd]. rewrite G by assumption. reflexivity. }
  rewrite E. apply HF; try assumption.
  - intros i j Hi Hj. rewrite G by assumption. split; [apply (Hom i j Hi Hj)|apply zero_finite].
  - unfold M. rewrite <- SumFacts.gsum_const. apply gsum_le. intros i j Hi Hj. unfold cvals, cval, real64. cbn [fst snd re im]. rewrite G by assumption.
    change (fval zero64) with 0. rewrite Rabs_R0. destruct (Hom i j Hi Hj). lra.
  - apply mag4_800. apply (mag_le 2); [lia|apply mag_M].
Qed.
Lemma eps_pos : 0 <= eps.
Proof.
  destruct (fft_om 0 0 Hy Hx) as [N _]. apply near_err in N. pose proof (mag_pos _ _ mag_M).
  destruct (Rle_dec 0 eps) as [L|L]; [exact L|]. assert (0 < - eps * M) by (apply Rmult_lt_0_compat; lra). lra.
Qed.
Lemma Oh_le k l : Rabs (re (Oh k l)) <= M /\ Rabs (im (Oh k l)) <= M.
Proof.
  split; [apply dft2_re_le|apply dft2_im_le]; intros i j Hi Hj; apply (Hom i j Hi Hj).
Qed.
End Solve.
Lemma idft2_scal ny nx c F i j : idft2 ny nx (fun k l => Cscal c (F k l)) i j = Cscal c (idft2 ny nx F i j).
Proof.
  rewrite !idft2_gc, Cscal_Cscal, (Rmult_comm c), <- Cscal_Cscal. f_equal. rewrite <- gcsum_scal. apply gcsum_ext. intros. apply Cscal_mul.
Qed.
(** target table of the inverse transform, scaled by [q] *)
Definition target (ny nx : nat) (q : R) (f : nat -> nat -> R) (k l : nat) : C :=
  if ((k =? 0)%nat && (l =? 0)%nat)%bool then C0 else Cscal (q * / lam ny nx k l) (dft2 ny nx (fun i j => RtoC (f i j)) (Z.of_nat k) (Z.of_nat l)).
Lemma invlap_target ny nx dx f i j : (0 < ny)%nat -> (0 < nx)%nat -> dx <> 0 -> invlap ny nx dx f i j = re (idft2 ny nx (target ny nx (dx ^ 2) f) i j).
Proof.
  intros Hy Hx Hd. unfold invlap. f_equal. apply idft2_ext. intros k l Hk Hl. unfold target. destruct (_ && _) eqn:E; [reflexivity|].
  rewrite lam_symbol by assumption. apply is00_false in E. pose proof (lam_neg ny nx k l Hk Hl E). f_equal. field. split; [lra|assumption].
Qed.
Lemma target_scal ny nx q f i j : re (idft2 ny nx (target ny nx q f) i j) = q * re (idft2 ny nx (target ny nx 1 f) i j).
Proof.
  change (q * re (idft2 ny nx (target ny nx 1 f) i j)) with (re (Cscal q (idft2 ny nx (target ny nx 1 f) i j))). rewrite <- idft2_scal. f_equal.
  apply idft2_ext. intros k l _ _. unfold target. destruct (_ && _).
  - apply C_eq; cbn; ring.
  - rewrite Cscal_Cscal. f_equal. ring.
Qed.
Lemma target_size ny nx q f b : 0 <= q -> (forall i j, (i < ny)%nat -> (j < nx)%nat -> Rabs (f i j) <= b) ->
  size1 ny nx (target ny nx q f) <= 2 * (INR ny * INR nx * b) * q * gsum ny nx (wt ny nx).
Proof.
  intros Hq H. rewrite <- gsum_scal. apply gsum_le. intros k l Hk Hl. unfold target, wt. destruct (_ && _) eqn:E.
  - cbn [C0 re im]. rewrite Rabs_R0. lra.
  - apply is00_false in E. pose proof (lam_neg ny nx k l Hk Hl E). cbn [Cscal re im]. rewrite !Rabs_mult, Rabs_inv, (Rabs_right q) by lra.
    pose proof (dft2_re_le ny nx f b (Z.of_nat k) (Z.of_nat l) H). pose proof (dft2_im_le ny nx f b (Z.of_nat k) (Z.of_nat l) H).
    set (M := INR ny * INR nx * b) in *. assert (0 < / Rabs (lam ny nx k l)) by (apply Rinv_0_lt_compat, Rabs_pos_lt; lra).
    set (w := / Rabs (lam ny nx k l)) in *.
    rewrite <- Rmult_plus_distr_l. replace (2 * M * q * w) with (q * w * (2 * M)) by ring.
    apply Rmult_le_compat_l; [apply Rmult_le_pos; lra|lra].
Qed.

(** the constants *)
Lemma core_const eps c g N B V : 0 <= eps <= 0.01 -> c = 1.003 * eps + g * uro -> 0 <= g <= 30 -> 0 < N -> 0 < B * V ->
  (eps * (2 * (N * B) * V + 2 * c * (N * B) * V) + 2 * c * (N * B) * V) / N <= (4.03 * eps + 2 * g * uro) * (B * V) + uro * (B * V).
Proof.
  intros He -> Hg HN HV. destruct uro_small as [U1 U2]. set (x := 1.003 * eps + g * uro).
  replace ((eps * (2 * (N * B) * V + 2 * x * (N * B) * V) + 2 * x * (N * B) * V) / N) with ((2 * eps + 2 * (eps * x) + 2 * x) * (B * V)) by (field; lra).
  rewrite <- Rmult_plus_distr_r. apply Rmult_le_compat_r; [lra|]. unfold x.
  assert (0 <= g * uro <= 30 * uro) by (split; [apply Rmult_le_pos; lra|apply Rmult_le_compat_r; lra]).
  assert (eps * (1.003 * eps + g * uro) <= eps * (1.003 * 0.01) + 0.01 * (g * uro)).
  { rewrite Rmult_plus_distr_l. apply Rplus_le_compat; [apply Rmult_le_compat_l; lra|apply Rmult_le_compat_r; lra]. }
  lra.
Qed.

Lemma near_zero s : near (S754_zero s) 0 0.
Proof. split; [apply zero_finite|]. cbn [fval]. rewrite Rminus_0_r, Rabs_R0. lra. Qed.

Lemma np_solves ny nx eps (fft ifft : fft_fun) (dx : f64) B P : (1 < ny * nx)%nat -> (Z.of_nat ny <= 1000000)%Z -> (Z.of_nat nx <= 1000000)%Z -> eps <= 0.01 ->
  fft_accurate ny nx eps fft -> ifft_accurate ny nx eps ifft -> finite64 dx -> scale64 (fval dx) -> scale64 B ->
  let Lam := inv_sum ny nx (fval dx) in let d := (5 * eps + 40 * uro) * (Lam * B) in
  Lam * B + d <= P -> solves64 ny nx dx (np_poisson64 fft ifft) B P d.
Proof.
  intros H1 Ly Lx He HF HI Fd Hd HB Lam d HP om Hom.
  assert (Hy : (0 < ny)%nat) by (destruct ny; lia). assert (Hx : (0 < nx)%nat) by (destruct nx; lia).
  destruct uro_small as [U1 U2]. pose proof (eps_pos ny nx eps B fft om Hy Hx Ly Lx HB HF Hom) as E0.
  pose proof (mag_M ny nx B Hy Hx Ly Lx HB) as MM. pose proof (N_size ny nx Hy Hx Ly Lx) as NS. pose proof (L0_size ny nx Hy Hx H1 Ly Lx) as LS.
  set (L0 := gsum ny nx (wt ny nx)) in *. set (N := INR ny * INR nx) in *. set (M := N * B) in *.
  pose proof (mag_pos _ _ (scale_mag _ HB)) as PB. pose proof (mag_pos _ _ (scale_mag _ Hd)) as Pd.
  set (F := fft ny nx (fun i j => real64 (get (grid ny nx om) [j; i]))).
  assert (HFo : forall k l, (k < ny)%nat -> (l < nx)%nat -> cnear (F k l) (dft2 ny nx (fun i j => RtoC (values om i j)) (Z.of_nat k) (Z.of_nat l)) (eps * M))
    by exact (fft_om ny nx eps B fft om Hy Hx Ly Lx HB HF Hom).
  set (fl := fun i j : nat => if (i =? 0)%nat && (j =? 0)%nat then inf64 else fft_laplace64 (np_fftfreq64 ny) (np_fftfreq64 nx) i j).
  set (G := fun i j : nat => if neqb (fl i j) zero64 then real64 zero64 else cdiv64 (F i j) (real64 (fl i j))).
  exists (fun i j => nmul (fst (ifft ny nx G i j)) (sq64 dx)).
  assert (X : forall i j, (i < ny)%nat -> (j < nx)%nat -> near (nmul (fst (ifft ny nx G i j)) (sq64 dx)) (invlap ny nx (fval dx) (values om) i j) d).
  { intros i j Hi Hj.
    set (c := 1.003 * eps + 17.1 * uro).
    assert (C0' : 0 <= c <= 0.02) by (unfold c; lra).
    assert (HG : forall k l, (k < ny)%nat -> (l < nx)%nat -> cnear (G k l) (target ny nx 1 (values om) k l) (c * M * wt ny nx k l)).
    { intros k l Hk Hl. unfold G, fl, target, wt. destruct ((k =? 0)%nat && (l =? 0)%nat) eqn:E.
      - cbn [neqb NumF64 inf64 zero64]. change (SFeqb inf64 (f64_ofZ 0)) with false. cbv iota.
        destruct (HFo k l Hk Hl) as [[A _] [A' _]]. destruct (F k l) as [ar ai]. destruct (cdiv_inf ar ai A A') as (s & s' & ->).
        rewrite Rmult_0_r. split; apply near_zero.
      - apply is00_false in E. assert (SR : rel (fft_laplace64 (np_fftfreq64 ny) (np_fftfreq64 nx) k l) (lam ny nx k l) 14.1).
        { apply symbol_rel; try assumption; intros t Ht; now apply np_freq_rel. }
        pose proof (lam_neg ny nx k l Hk Hl E) as LN. destruct (lam_size ny nx k l Hk Hl E Ly Lx) as [_ LZ].
        rewrite (neqb_nonzero _ _ _ SR) by lra. rewrite Rmult_1_l, Rmult_assoc.
        destruct (Oh_le ny nx B om Hom k l) as [O1 O2].
        assert (CD : cnear (cdiv64 (F k l) (real64 (fft_laplace64 (np_fftfreq64 ny) (np_fftfreq64 nx) k l)))
          (Cscal (/ lam ny nx k l) (dft2 ny nx (fun i j => RtoC (values om i j)) (Z.of_nat k) (Z.of_nat l))) ((1.001 * eps + 17.1 * uro) * (M / Rabs (lam ny nx k l)))).
        2:{ pose proof (mag_pos _ _ MM). assert (0 <= M * / Rabs (lam ny nx k l)) by (apply Rmult_le_pos; [lra|apply Rlt_le, Rinv_0_lt_compat; lra]).
            assert ((1.001 * eps + 17.1 * uro) * (M / Rabs (lam ny nx k l)) <= c * (M * / Rabs (lam ny nx k l))) by (unfold Rdiv, c; apply Rmult_le_compat_r; lra).
            destruct CD as [CD1 CD2]. split; (eapply near_mono; [eassumption|lra]). }
        apply cdiv_acc; try assumption; try lra; [now apply HFo|].
        unfold Rdiv, M. rewrite Rmult_assoc, (Rmult_comm B), <- Rmult_assoc. apply (mag_mul 1 1); [|now apply scale_mag].
        apply mag40. rewrite p40. assert (/ 21 <= / Rabs (lam ny nx k l) <= 1000000000000).
        { split; [apply Rinv_le_contravar; lra|]. rewrite <- (Rinv_inv 1000000000000). apply Rinv_le_contravar; lra. }
        split.
        + apply Rle_trans with (1 * / 21); [lra|]. apply Rmult_le_compat; lra.
        + apply Rle_trans with (1000000000000 * 1000000000000); [apply Rmult_le_compat; lra|lra]. }
    assert (ZS : size1 ny nx (target ny nx 1 (values om)) <= 2 * (N * B) * L0).
    { pose proof (target_size ny nx 1 (values om) B ltac:(lra) ltac:(intros a b Ha Hb; apply (Hom a b Ha Hb))) as T. rewrite Rmult_1_r in T. exact T. }
    assert (ZE : gsum ny nx (fun k l => 2 * (c * M * wt ny nx k l)) <= 2 * c * (N * B) * L0).
    { rewrite gsum_scal, gsum_scal. fold L0. unfold M. lra. }
    assert (BL : 0 < B * L0) by (apply Rmult_lt_0_compat; lra).
    assert (MBL : mag 2 (B * L0)) by (apply (mag_mul 1 1); [now apply scale_mag|apply mag40; rewrite p40; lra]).
    pose proof (ifft_core ny nx eps ifft G _ _ _ _ i j Hy Hx HI HG ZS ZE) as IC. fold N in IC.
    assert (IR : / 2 ^ 800 <= 2 * (N * B) * L0 + 2 * c * (N * B) * L0 <= 2 ^ 800).
    { apply mag4_800. replace (2 * (N * B) * L0 + 2 * c * (N * B) * L0) with (B * (2 * (1 + c) * N * L0)) by ring.
      apply (mag_le 2); [lia|]. apply (mag_mul 1 1); [now apply scale_mag|]. apply mag40. rewrite p40.
      assert (/ 21 <= N * L0 <= 1000000000000000000000000000000000000).
      { split; [apply Rle_trans with (1 * / 21); [lra|apply Rmult_le_compat; lra]|].
        apply Rle_trans with (1000000000000 * 1000000000000000000000000); [apply Rmult_le_compat; lra|lra]. }
      rewrite Rmult_assoc. assert (2 <= 2 * (1 + c) <= 3) by lra. split.
      - apply Rle_trans with (2 * / 21); [lra|]. apply Rmult_le_compat; lra.
      - apply Rle_trans with (3 * 1000000000000000000000000000000000000); [apply Rmult_le_compat; lra|lra]. }
    specialize (IC IR Hi Hj).
    pose proof (core_const eps c 17.1 N B L0 ltac:(lra) eq_refl ltac:(lra) ltac:(lra) BL) as CC.
    pose proof (near_mono _ _ _ _ IC CC) as V. clear IC CC IR ZS ZE HG.
    rewrite invlap_target, target_scal by (try assumption; lra).
    set (r := re (idft2 ny nx (target ny nx 1 (values om)) i j)) in *.
    assert (Rb : Rabs r <= B * L0).
    { pose proof (inv_sum_bound ny nx 1 Hy Hx (values om) B ltac:(intros a b Ha Hb; apply (Hom a b Ha Hb)) i j Hi Hj) as IB.
      rewrite invlap_target, inv_sum_wt in IB by (try assumption; lra). replace (1 ^ 2) with 1 in IB by ring. fold r L0 in IB. lra. }
    assert (D2 : rel (sq64 dx) (fval dx ^ 2) 1.001).
    { replace (fval dx ^ 2) with (fval dx * fval dx) by ring. unfold sq64. rewrite nmul_F. apply (rel_mul _ _ _ _ 0 0); try (now apply rel_exact); try lra.
      rewrite Rabs_right by (apply Rle_ge, Rmult_le_pos; lra). apply (mag_le 2); [lia|]. apply (mag_mul 1 1); now apply scale_mag. }
    assert (AD : Rabs (fval dx ^ 2) = fval dx ^ 2) by (apply Rabs_right, Rle_ge, pow2_ge_0).
    assert (V' : near (fst (ifft ny nx G i j)) r ((4.03 * eps + 35.2 * uro) * (B * L0))) by (apply (near_mono _ _ _ _ V); lra).
    assert (MQ : mag 4 (B * L0 * fval dx ^ 2)).
    { apply (mag_mul 2 2); [exact MBL|]. replace (fval dx ^ 2) with (fval dx * fval dx) by ring. apply (mag_mul 1 1); now apply scale_mag. }
    pose proof (mag_pos _ _ MQ) as PQ.
    pose proof (prod_acc (fst (ifft ny nx G i j)) (sq64 dx) r (fval dx ^ 2) (B * L0) (4.03 * eps + 35.2 * uro) (4.035 * eps + 35.3 * uro) 1.001 2.2 V' D2 Rb) as PA.
    rewrite AD in PA. eapply near_mono; [apply PA; try assumption; lra|]. unfold d, Lam. rewrite inv_sum_wt by (try assumption; lra). fold L0.
    replace (fval dx ^ 2 * L0 * B) with (B * L0 * fval dx ^ 2) by ring. apply Rmult_le_compat_r; lra. }
  split; [|split; [|exact X]].
  - unfold np_poisson64. cbn [bind]. rewrite shape_grid, pos_orb by assumption. reflexivity.
  - intros i j Hi Hj. destruct (X i j Hi Hj) as [A1 A2]. split; [exact A1|]. apply tri in A2.
    pose proof (inv_sum_bound ny nx (fval dx) Hy Hx (values om) B ltac:(intros a b Ha Hb; apply (Hom a b Ha Hb)) i j Hi Hj) as IB. fold Lam in IB. lra.
Qed.

Lemma add_zero_l s v : finite64 v -> finite64 (SFadd 53 1024 (S754_zero s) v) /\ fval (SFadd 53 1024 (S754_zero s) v) = fval v.
Proof.
  intros F. destruct v as [t| | |t m e]; try (destruct F; contradiction); [|split; [exact F|reflexivity]].
  destruct s, t; cbn; (split; [apply zero_finite|reflexivity]).
Qed.
Lemma cmul_acc (z : c64) (y : f64) Z s Q eps : cnear z Z (eps * Q) -> rel y s 1.001 -> Rabs (re Z) <= Q -> Rabs (im Z) <= Q -> 0 <= eps <= 0.05 ->
  mag 4 (Q * Rabs s) -> cnear (cmul64 z (real64 y)) (Cscal s Z) ((1.001 * eps + 2.2 * uro) * (Q * Rabs s)).
Proof.
  intros [Nr Ni] Hy Mr Mi He Hm. destruct z as [ar ai]; cbn [fst snd] in Nr, Ni. destruct uro_small.
  pose proof (prod_acc ar y _ s Q eps (1.001 * eps) 1.001 2.2 Nr Hy Mr He ltac:(lra) Hm ltac:(lra) ltac:(lra)) as P1.
  pose proof (prod_acc ai y _ s Q eps (1.001 * eps) 1.001 2.2 Ni Hy Mi He ltac:(lra) Hm ltac:(lra) ltac:(lra)) as P2.
  rewrite nmul_F in P1, P2.
  destruct (mul_zero_r false ai (proj1 Ni)) as [s1 E1]. destruct (mul_zero_r false ar (proj1 Nr)) as [s2 E2].
  unfold cmul64, real64, zero64. change (f64_ofZ 0) with (S754_zero false). rewrite !nmul_F, !nadd_F, !nsub_F, E1, E2.
  destruct P1 as [F1 V1], P2 as [F2 V2].
  destruct (sub_zero_val _ s1 F1) as [A1 A2]. destruct (add_zero_l s2 _ F2) as [B1 B2].
  split; cbn [fst snd Cscal re im]; (split; [assumption|]); [rewrite A2|rewrite B2]; assumption.
Qed.
Lemma e14_rel : rel e14 100000000000000 14.1.
Proof. apply (rel_mono _ _ 0); [|lra]. apply f64_ofZ_rel. lia. Qed.

Lemma nb_solves ny nx eps (fft ifft : fft_fun) (dx : f64) B P : (1 < ny * nx)%nat -> (Z.of_nat ny <= 65536)%Z -> (Z.of_nat nx <= 65536)%Z -> eps <= 0.01 ->
  fft_accurate ny nx eps fft -> ifft_accurate ny nx eps ifft -> finite64 dx -> scale64 (fval dx) -> scale64 B ->
  let Lam := inv_sum ny nx (fval dx) in let d := (5 * eps + 40 * uro) * (Lam * B) + 2.1 / 100000000000000 * (fval dx ^ 2 * B) in
  Lam * B + d <= P -> solves64 ny nx dx (nb_poisson64 fft ifft) B P d.
Proof.
  intros H1 Ly' Lx' He HF HI Fd Hd HB Lam d HP om Hom.
  assert (Hy : (0 < ny)%nat) by (destruct ny; lia). assert (Hx : (0 < nx)%nat) by (destruct nx; lia).
  assert (Ly : (Z.of_nat ny <= 1000000)%Z) by lia. assert (Lx : (Z.of_nat nx <= 1000000)%Z) by lia.
  destruct uro_small as [U1 U2]. pose proof (eps_pos ny nx eps B fft om Hy Hx Ly Lx HB HF Hom) as E0.
  pose proof (mag_M ny nx B Hy Hx Ly Lx HB) as MM. pose proof (N_size ny nx Hy Hx Ly Lx) as NS. pose proof (L0_size ny nx Hy Hx H1 Ly Lx) as LS.
  set (L0 := gsum ny nx (wt ny nx)) in *. set (N := INR ny * INR nx) in *. set (M := N * B) in *.
  pose proof (mag_pos _ _ MM) as PM.
  pose proof (mag_pos _ _ (scale_mag _ HB)) as PB. pose proof (mag_pos _ _ (scale_mag _ Hd)) as Pd.
  assert (MD : mag 2 (fval dx ^ 2)) by (replace (fval dx ^ 2) with (fval dx * fval dx) by ring; apply (mag_mul 1 1); now apply scale_mag).
  pose proof (mag_pos _ _ MD) as PD.
  assert (AD : Rabs (fval dx ^ 2) = fval dx ^ 2) by (apply Rabs_right; lra).
  assert (D2 : rel (sq64 dx) (fval dx ^ 2) 1.001).
  { replace (fval dx ^ 2) with (fval dx * fval dx) by ring. unfold sq64. rewrite nmul_F. apply (rel_mul _ _ _ _ 0 0); try (now apply rel_exact); try lra.
    rewrite Rabs_right by (apply Rle_ge, Rmult_le_pos; lra). apply (mag_le 2); [lia|]. apply (mag_mul 1 1); now apply scale_mag. }
  set (q := fval dx ^ 2) in *.
  set (F := fft ny nx (fun i j => real64 (get (grid ny nx om) [j; i]))).
  assert (HFo : forall k l, (k < ny)%nat -> (l < nx)%nat -> cnear (F k l) (dft2 ny nx (fun i j => RtoC (values om i j)) (Z.of_nat k) (Z.of_nat l)) (eps * M))
    by exact (fft_om ny nx eps B fft om Hy Hx Ly Lx HB HF Hom).
  set (fl := fun i j : nat => if (i =? 0)%nat && (j =? 0)%nat then e14 else fft_laplace64 (custom_fftfreq64 ny) (custom_fftfreq64 nx) i j).
  set (G := fun i j : nat => cmul64 (cdiv64 (if neqb (fl i j) zero64 then real64 zero64 else F i j) (real64 (fl i j))) (real64 (sq64 dx))).
  exists (fun i j => fst (ifft ny nx G i j)).
  assert (X : forall i j, (i < ny)%nat -> (j < nx)%nat -> near (fst (ifft ny nx G i j)) (invlap ny nx (fval dx) (values om) i j) d).
  { intros i j Hi Hj.
    set (c := 1.003 * eps + 19.4 * uro).
    assert (C0' : 0 <= c <= 0.02) by (unfold c; lra).
    assert (gen : forall y s k l, (k < ny)%nat -> (l < nx)%nat -> rel y s 14.1 -> / 1000000000000 <= Rabs s <= 100000000000000 ->
      cnear (cmul64 (cdiv64 (F k l) (real64 y)) (real64 (sq64 dx))) (Cscal (q * / s) (dft2 ny nx (fun i j => RtoC (values om i j)) (Z.of_nat k) (Z.of_nat l)))
        (c * (M * q / Rabs s))).
    { intros y s k l Hk Hl SR LZ. destruct (Oh_le ny nx B om Hom k l) as [O1 O2]. fold N in O1, O2. fold M in O1, O2.
      assert (IL : / 100000000000000 <= / Rabs s <= 1000000000000).
      { split; [apply Rinv_le_contravar; lra|]. rewrite <- (Rinv_inv 1000000000000). apply Rinv_le_contravar; lra. }
      assert (MQ : mag 2 (M / Rabs s)).
      { unfold Rdiv, M. rewrite Rmult_assoc, (Rmult_comm B), <- Rmult_assoc. apply (mag_mul 1 1); [|now apply scale_mag].
        apply mag40. rewrite p40. split.
        + apply Rle_trans with (1 * / 100000000000000); [lra|]. apply Rmult_le_compat; lra.
        + apply Rle_trans with (1000000000000 * 1000000000000); [apply Rmult_le_compat; lra|lra]. }
      assert (S0 : s <> 0) by (intros ->; rewrite Rabs_R0 in LZ; lra).
      pose proof (cdiv_acc (F k l) y _ s M eps (HFo k l Hk Hl) SR S0 O1 O2 ltac:(lra) MQ ltac:(lra)) as CD.
      assert (sz : forall v, Rabs v <= M -> Rabs (/ s * v) <= M / Rabs s).
      { intros v Hv. rewrite Rabs_mult, Rabs_inv. unfold Rdiv. rewrite Rmult_comm. apply Rmult_le_compat_r; lra. }
      pose proof (cmul_acc _ (sq64 dx) _ q (M / Rabs s) _ CD D2 (sz _ O1) (sz _ O2)) as CM. rewrite AD in CM.
      rewrite Cscal_Cscal in CM.
      assert (QP : 0 <= M / Rabs s * q) by (apply Rmult_le_pos; [apply Rmult_le_pos; lra|lra]).
      assert (HC : (1.001 * (1.001 * eps + 17.1 * uro) + 2.2 * uro) * (M / Rabs s * q) <= c * (M * q / Rabs s)).
      { replace (M * q / Rabs s) with (M / Rabs s * q) by (unfold Rdiv; ring). apply Rmult_le_compat_r; [exact QP|]. unfold c. lra. }
      destruct CM as [CM1 CM2]; [lra|apply (mag_mul 2 2); assumption|]. split; (eapply near_mono; [eassumption|exact HC]). }
    set (e := fun k l => if ((k =? 0)%nat && (l =? 0)%nat)%bool then 1.02 / 100000000000000 * (M * q) else c * (M * q) * wt ny nx k l).
    assert (HG : forall k l, (k < ny)%nat -> (l < nx)%nat -> cnear (G k l) (target ny nx q (values om) k l) (e k l)).
    { intros k l Hk Hl. unfold G, fl, target, e, wt. destruct ((k =? 0)%nat && (l =? 0)%nat) eqn:E.
      - rewrite (neqb_nonzero _ _ _ e14_rel) by lra.
        destruct (gen e14 100000000000000 k l Hk Hl e14_rel ltac:(rewrite Rabs_right; lra)) as [[A1 A2] [A3 A4]].
        rewrite (Rabs_right 100000000000000) in A2, A4 by lra.
        destruct (Oh_le ny nx B om Hom k l) as [O1 O2]. fold N in O1, O2. fold M in O1, O2.
        assert (K : forall x v, Rabs (x - q * / 100000000000000 * v) <= c * (M * q / 100000000000000) -> Rabs v <= M -> Rabs (x - 0) <= 1.02 / 100000000000000 * (M * q)).
        { intros x v A O. apply tri in A. rewrite Rminus_0_r. rewrite !Rabs_mult, (Rabs_right q), (Rabs_right (/ 100000000000000)) in A by lra.
          assert (q * / 100000000000000 * Rabs v <= q * / 100000000000000 * M) by (apply Rmult_le_compat_l; [apply Rmult_le_pos; lra|lra]).
          assert (MQ0 : 0 < M * q) by (apply Rmult_lt_0_compat; lra).
          assert (c * (M * q / 100000000000000) <= 0.02 * (M * q / 100000000000000)) by (apply Rmult_le_compat_r; lra). lra. }
        split; (split; [assumption|]); cbn [C0 re im]; [exact (K _ _ A2 O1)|exact (K _ _ A4 O2)].
      - apply is00_false in E. assert (SR : rel (fft_laplace64 (custom_fftfreq64 ny) (custom_fftfreq64 nx) k l) (lam ny nx k l) 14.1).
        { apply symbol_rel; try assumption; intros t Ht; now apply nb_freq_rel. }
        pose proof (lam_neg ny nx k l Hk Hl E) as LN. destruct (lam_size ny nx k l Hk Hl E Ly Lx) as [_ LZ].
        rewrite (neqb_nonzero _ _ _ SR) by lra. rewrite Rmult_assoc. apply gen; try assumption. lra. }
    assert (ZS : size1 ny nx (target ny nx q (values om)) <= 2 * (N * B) * (q * L0)).
    { pose proof (target_size ny nx q (values om) B ltac:(lra) ltac:(intros a b Ha Hb; apply (Hom a b Ha Hb))) as T. fold L0 N in T. lra. }
    set (z0 := 2.04 / 100000000000000 * (M * q)).
    assert (ZE : gsum ny nx (fun k l => 2 * e k l) <= 2 * c * (N * B) * (q * L0) + z0).
    { apply Rle_trans with (gsum ny nx (fun k l => 2 * c * M * q * wt ny nx k l + (if ((k =? 0)%nat && (l =? 0)%nat)%bool then z0 else 0))).
      - apply gsum_le. intros k l Hk Hl. unfold e, wt. destruct (_ && _); [unfold z0|]; lra.
      - rewrite gsum_add, gsum_scal. fold L0.
        assert (E1 : gsum ny nx (fun k l => if ((k =? 0)%nat && (l =? 0)%nat)%bool then z0 else 0) = z0).
        { unfold gsum. rewrite (rsum_single ny 0); [|lia|].
          - rewrite (rsum_single nx 0); [reflexivity|lia|]. intros b Hb Nb. cbn [Nat.eqb andb]. apply Nat.eqb_neq in Nb. now rewrite Nb.
          - intros a Ha Na. apply Nat.eqb_neq in Na. rewrite Na. cbn [andb]. apply rsum_zero. }
        rewrite E1. unfold M. lra. }
    assert (BL : 0 < B * (q * L0)) by (apply Rmult_lt_0_compat; [lra|apply Rmult_lt_0_compat; lra]).
    pose proof (ifft_core ny nx eps ifft G _ _ _ _ i j Hy Hx HI HG ZS ZE) as IC. fold N in IC.
    assert (MQ0 : 0 < M * q) by (apply Rmult_lt_0_compat; lra).
    assert (IR : / 2 ^ 800 <= 2 * (N * B) * (q * L0) + (2 * c * (N * B) * (q * L0) + z0) <= 2 ^ 800).
    { apply mag4_800.
      replace (2 * (N * B) * (q * L0) + (2 * c * (N * B) * (q * L0) + z0)) with ((B * (2 * (1 + c) * (N * L0) + 2.04 / 100000000000000 * N)) * q) by (unfold z0, M; field).
      apply (mag_mul 2 2); [|exact MD]. apply (mag_mul 1 1); [now apply scale_mag|]. apply mag40. rewrite p40.
      assert (/ 21 <= N * L0 <= 1000000000000000000000000000000000000).
      { split; [apply Rle_trans with (1 * / 21); [lra|apply Rmult_le_compat; lra]|].
        apply Rle_trans with (1000000000000 * 1000000000000000000000000); [apply Rmult_le_compat; lra|lra]. }
      assert (2 <= 2 * (1 + c) <= 3) by lra.
      assert (2 * / 21 <= 2 * (1 + c) * (N * L0)) by (apply Rmult_le_compat; lra).
      assert (2 * (1 + c) * (N * L0) <= 3 * 1000000000000000000000000000000000000) by (apply Rmult_le_compat; lra). lra. }
    specialize (IC IR Hi Hj). clear IR ZS ZE HG gen.
    pose proof (core_const eps c 19.4 N B (q * L0) ltac:(lra) eq_refl ltac:(lra) ltac:(lra) BL) as CC.
    rewrite invlap_target by (try assumption; lra). fold q. eapply near_mono; [exact IC|].
    set (x := 2 * (N * B) * (q * L0)) in *. set (y := 2 * c * (N * B) * (q * L0)) in *.
    replace ((eps * (x + (y + z0)) + (y + z0)) / N) with ((eps * (x + y) + y) / N + (1 + eps) * z0 / N) by (field; lra).
    unfold d, Lam. rewrite inv_sum_wt by (try assumption; lra). fold L0 q.
    replace (q * L0 * B) with (B * (q * L0)) by ring.
    assert (Z1 : (1 + eps) * z0 / N <= 2.1 / 100000000000000 * (q * B)).
    { replace ((1 + eps) * z0 / N) with ((1 + eps) * (2.04 / 100000000000000) * (q * B)) by (unfold z0, M; field; lra).
      apply Rmult_le_compat_r; [apply Rmult_le_pos; lra|]. lra. }
    assert (Z2 : (4.03 * eps + 2 * 19.4 * uro) * (B * (q * L0)) + uro * (B * (q * L0)) <= (5 * eps + 40 * uro) * (B * (q * L0))).
    { rewrite <- Rmult_plus_distr_r. apply Rmult_le_compat_r; lra. }
    lra. }
  split; [|split; [|exact X]].
  - unfold nb_poisson64. cbn [bind]. rewrite shape_grid, pos_orb by assumption. reflexivity.
  - intros i j Hi Hj. destruct (X i j Hi Hj) as [A1 A2]. split; [exact A1|]. apply tri in A2.
    pose proof (inv_sum_bound ny nx (fval dx) Hy Hx (values om) B ltac:(intros a b Ha Hb; apply (Hom a b Ha Hb)) i j Hi Hj) as IB. fold Lam in IB. lra.
Qed.

Lemma np_keeps ny nx dx (fft ifft : fft_fun) : keeps_shape ny nx dx (np_poisson64 fft ifft).
Proof.
  intros om p. unfold np_poisson64. cbn [bind]. rewrite shape_grid. destruct (_ || _); [discriminate|]. intros E. injection E as <-. eexists. reflexivity.
Qed.
Lemma nb_keeps ny nx dx (fft ifft : fft_fun) : keeps_shape ny nx dx (nb_poisson64 fft ifft).
Proof.
  intros om p. unfold nb_poisson64. cbn [bind]. rewrite shape_grid. destruct (_ || _); [discriminate|]. intros E. injection E as <-. eexists. reflexivity.
Qed.
