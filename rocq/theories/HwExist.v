(** The semi-discrete system has exactly one solution through every state, for
    all times, and the time steppers converge to it. *)
From Coq Require Import List Arith ZArith Lia Bool Reals Lra Psatz FunctionalExtensionality.
From Verif Require Import Num NdArray Spec SumFacts GradFacts SpecFourier SpecHW SpecPlasma SpecRunHW SpecConv RhsFacts SmoothFacts OdeFacts OdeExist RkOrder.
Import ListNotations.
Local Open Scope R_scope.

(** the scalar product of the encoding is the sum of the two grid products *)
Lemma dotl_app {J} (l m : list J) u v : dotl J (l ++ m) u v = dotl J l u v + dotl J m u v.
Proof. induction l as [|j l IH]; cbn; [ring|]. rewrite IH. ring. Qed.
Lemma dotl_map {J K} (f : K -> J) (l : list K) u v : dotl J (map f l) u v = dotl K l (fun k => u (f k)) (fun k => v (f k)).
Proof. induction l as [|j l IH]; cbn; [reflexivity|]. now rewrite IH. Qed.
Lemma dotl_seq a n (u v : nat -> R) : dotl nat (seq a n) u v = rsum n (fun i => u (a + i)%nat * v (a + i)%nat).
Proof.
  revert a. induction n as [|n IH]; intros a; [reflexivity|]. cbn [seq dotl]. rewrite IH, rsum_S_l, Nat.add_0_r. f_equal.
  apply rsum_ext. intros. now rewrite Nat.add_succ_r.
Qed.
Lemma dotl_prod {J K} (l : list J) (m : list K) u v :
  dotl (J * K) (list_prod l m) u v = fold_right (fun j s => dotl K m (fun k => u (j, k)) (fun k => v (j, k)) + s) 0 l.
Proof. induction l as [|j l IH]; cbn; [reflexivity|]. now rewrite dotl_app, dotl_map, IH. Qed.
Lemma fold_seq a n (f : nat -> R) : fold_right (fun i s => f i + s) 0 (seq a n) = rsum n (fun i => f (a + i)%nat).
Proof.
  revert a. induction n as [|n IH]; intros a; [reflexivity|]. cbn [seq fold_right]. rewrite IH, rsum_S_l, Nat.add_0_r. f_equal.
  apply rsum_ext. intros. now rewrite Nat.add_succ_r.
Qed.
Lemma dotl_inner ny nx s t : dotl IX (gridix ny nx) (enc s) (enc t) = inner ny nx (fst s) (fst t) + inner ny nx (snd s) (snd t).
Proof.
  unfold gridix. rewrite dotl_prod. cbn [fold_right]. rewrite !dotl_prod, !fold_seq, Rplus_0_r.
  f_equal; apply rsum_ext; intros i _; rewrite dotl_seq; reflexivity.
Qed.

Section H.
Variables (p : par) (ny nx : nat) (dx : R).
Hypothesis Hy : (0 < ny)%nat.
Hypothesis Hx : (0 < nx)%nat.
Hypothesis Hd : dx <> 0.
Local Notation A := (Av p ny nx dx).
Local Notation B := (Bv p ny nx dx).
Local Notation gx := (gridix ny nx).
Lemma LAv_add u v : A (vadd IX u v) = vadd IX (A u) (A v). Proof. now apply Av_add. Qed.
Lemma LAv_scale c u : A (vscale IX c u) = vscale IX c (A u). Proof. now apply Av_scale. Qed.
Lemma LBv_add_l u v w : B (vadd IX u v) w = vadd IX (B u w) (B v w). Proof. now apply Bv_add_l. Qed.
Lemma LBv_add_r u v w : B w (vadd IX u v) = vadd IX (B w u) (B w v). Proof. now apply Bv_add_r. Qed.
Lemma LBv_scale_l c u w : B (vscale IX c u) w = vscale IX c (B u w). Proof. now apply Bv_scale_l. Qed.
Lemma LBv_scale_r c u w : B w (vscale IX c u) = vscale IX c (B w u). Proof. now apply Bv_scale_r. Qed.
Lemma Bv_skew u : dotl IX gx u (B u u) = 0.
Proof.
  unfold Bv. rewrite <- (enc_dec u) at 1. rewrite dotl_inner. cbn [hw_quad fst snd].
  unfold fscale. 
  assert (S : forall f g c, inner ny nx f (fun i j => c * g i j) = c * inner ny nx f g).
  { intros f g c. unfold inner. rewrite <- gsum_scal. apply gsum_ext. intros. ring. }
  rewrite !S, !inner_jac_r by assumption. ring.
Qed.
Lemma solves_dec X T : solves IX gx A B X T -> hw_solution p ny nx dx (fun t => dec_ (X t)) T.
Proof.
  intros H t i j Ht Hi Hj. split.
  - specialize (H t (true, (i, j)) Ht (proj2 (in_gridix ny nx true i j) (conj Hi Hj))).
    rewrite <- (enc_dec (X t)), <- enc_F in H by assumption. exact H.
  - specialize (H t (false, (i, j)) Ht (proj2 (in_gridix ny nx false i j) (conj Hi Hj))).
    rewrite <- (enc_dec (X t)), <- enc_F in H by assumption. exact H.
Qed.
Lemma msq2_dotl s : dotl IX gx (enc s) (enc s) = INR ny * INR nx * msq2 ny nx s.
Proof.
  rewrite dotl_inner. unfold msq2, msq, gmean, inner. rewrite (gsum_ext ny nx (fun i j => fst s i j ^ 2) (fun i j => fst s i j * fst s i j)) by (intros; ring).
  rewrite (gsum_ext ny nx (fun i j => snd s i j ^ 2) (fun i j => snd s i j * snd s i j)) by (intros; ring).
  field. split; apply not_0_INR; lia.
Qed.
(** values off the grid do not matter *)
Definition patch (y0 y : state) : state :=
  let q (f0 f : field) : field := fun i j => if ((i <? ny)%nat && (j <? nx)%nat)%bool then f i j else f0 i j in
  (q (fst y0) (fst y), q (snd y0) (snd y)).
Lemma patch_in y0 y i j : (i < ny)%nat -> (j < nx)%nat -> fst (patch y0 y) i j = fst y i j /\ snd (patch y0 y) i j = snd y i j.
Proof. intros Hi Hj. cbn [patch fst snd]. apply Nat.ltb_lt in Hi, Hj. now rewrite Hi, Hj. Qed.
Lemma patch_agree y0 y : sagree ny nx (patch y0 y) y.
Proof. split; intros i j Hi Hj; now apply patch_in. Qed.
Lemma patch_solution y0 Y T : hw_solution p ny nx dx Y T -> hw_solution p ny nx dx (fun t => patch y0 (Y t)) T.
Proof.
  intros H t i j Ht Hi Hj. destruct (H t i j Ht Hi Hj) as [H1 H2].
  destruct (hw_rhs_ext p ny nx dx Hy Hx Hd (patch y0 (Y t)) (Y t) (patch_agree y0 (Y t))) as [E1 E2].
  rewrite E1, E2 by assumption. split.
  - apply (dpl_ext (fun s => fst (Y s) i j)); [|exact H1]. intros s. symmetry. now apply patch_in.
  - apply (dpl_ext (fun s => snd (Y s) i j)); [|exact H2]. intros s. symmetry. now apply patch_in.
Qed.
Lemma msq2_ext y z : sagree ny nx y z -> msq2 ny nx y = msq2 ny nx z.
Proof. intros [E1 E2]. unfold msq2, msq, gmean. f_equal; f_equal; apply gsum_ext; intros i j Hi Hj; [rewrite E1|rewrite E2]; auto. Qed.
Lemma hw_exists : exists K, 0 <= K /\ forall y0 T, 0 <= T -> exists Y, hw_solution p ny nx dx Y T /\ Y 0 = y0 /\
  forall t, 0 <= t <= T -> msq2 ny nx (Y t) <= msq2 ny nx y0 * exp (K * t).
Proof.
  destruct (A_bound p ny nx dx Hy Hx Hd) as (CA & HA & Ab), (B_bound p ny nx dx Hy Hx Hd) as (CB & HB & Bb).
  exists (2 * (INR (length gx) * CA)). split; [pose proof (pos_INR (length gx)); nra|]. intros y0 T HT.
  destruct (exists_solution IX gx A B LAv_add LAv_scale LBv_add_l LBv_add_r
    LBv_scale_l LBv_scale_r CA CB HA HB Ab Bb Bv_skew (enc y0) T HT) as (X & HX & X0 & En).
  exists (fun t => patch y0 (dec_ (X t))). split; [now apply patch_solution, solves_dec|]. split.
  - apply state_eq; intros i j; cbn [patch fst snd]; destruct ((i <? ny)%nat && (j <? nx)%nat)%bool eqn:E; try reflexivity;
      apply andb_true_iff in E as [Hi Hj]; apply Nat.ltb_lt in Hi, Hj; cbn [dec_ fst snd]; rewrite X0 by (now apply in_gridix); reflexivity.
  - intros t Ht. rewrite (msq2_ext _ _ (patch_agree y0 (dec_ (X t)))). specialize (En t Ht). rewrite <- (enc_dec (X t)) in En. rewrite !msq2_dotl in En.
    assert (0 < INR ny * INR nx) by (apply Rmult_lt_0_compat; apply lt_0_INR; assumption).
    apply Rmult_le_reg_l with (INR ny * INR nx); [assumption|]. lra.
Qed.
Lemma within_dotl e s t : 0 <= e -> within ny nx e s t -> dotl IX gx (vsub IX (enc s) (enc t)) (vsub IX (enc s) (enc t)) <= INR (length gx) * (e * e).
Proof.
  intros He H. eapply Rle_trans; [apply Rle_abs|]. apply dotl_bd; intros [b [i j]] Hk; apply in_gridix in Hk as [Hi Hj]; destruct (H i j Hi Hj); destruct b; assumption.
Qed.
Lemma hw_dependence Y T : 0 <= T -> hw_solution p ny nx dx Y T ->
  forall M, exists C, 0 <= C /\ forall Z, hw_solution p ny nx dx Z T -> (forall t, 0 <= t <= T -> within ny nx M (Z t) szero) ->
    forall e, 0 <= e -> within ny nx e (Y 0) (Z 0) -> forall t, 0 <= t <= T -> within ny nx (C * e) (Y t) (Z t).
Proof.
  intros HT HY M. destruct (A_bound p ny nx dx Hy Hx Hd) as (CA & HA & Ab), (B_bound p ny nx dx Hy Hx Hd) as (CB & HB & Bb).
  pose proof (enc_solves p ny nx dx Y T HY) as SY.
  destruct (solves_bounded IX gx A B (fun t => enc (Y t)) T HT SY) as (M1 & P1 & B1).
  set (M' := Rmax M1 M). assert (HM' : 0 <= M') by (eapply Rle_trans; [exact P1|apply Rmax_l]).
  set (K := 2 * (INR (length gx) * (CA + 2 * CB * M'))). pose proof (pos_INR (length gx)) as HN.
  assert (HK : 0 <= K) by (unfold K; assert (0 <= CB * M') by (now apply Rmult_le_pos); assert (0 <= CA + 2 * CB * M') by lra; nra).
  exists (sqrt (INR (length gx) * exp (K * T))). split; [apply sqrt_pos|]. intros Z HZ BZ e He H0 t Ht.
  pose proof (enc_solves p ny nx dx Z T HZ) as SZ.
  assert (Hb : forall t, 0 <= t <= T -> nrm IX gx (enc (Y t)) <= M' /\ nrm IX gx (enc (Z t)) <= M').
  { intros s Hs. split; [eapply Rle_trans; [now apply B1|apply Rmax_l]|].
    apply nrm_le; [exact HM'|]. intros [b [i j]] Hk. apply in_gridix in Hk as [Hi Hj]. destruct (BZ s Hs i j Hi Hj) as [U V].
    cbn [szero fst snd] in U, V. unfold fconst in U, V. rewrite Rminus_0_r in U, V.
    eapply Rle_trans; [|apply Rmax_r]. destruct b; assumption. }
  pose proof (dependence IX gx A B LAv_add LAv_scale LBv_add_l LBv_add_r
    LBv_scale_l LBv_scale_r CA CB HA HB Ab Bb _ _ T M' HM' SY SZ Hb t Ht) as D. fold K in D.
  apply within_nrm. set (d := vsub IX (enc (Y t)) (enc (Z t))) in *.
  pose proof (within_dotl e (Y 0) (Z 0) He H0) as W.
  pose proof (nrm_dotl IX gx d) as S. pose proof (nrm_pos IX gx d) as Sp.
  assert (E : exp (K * t) <= exp (K * T)).
  { assert (Hle : K * t <= K * T) by (apply Rmult_le_compat_l; lra).
    destruct (Rle_lt_or_eq_dec _ _ Hle) as [Hl|Hl]; [left; now apply exp_increasing|rewrite Hl; lra]. }
  assert (Q : nrm IX gx d ^ 2 <= INR (length gx) * exp (K * T) * e ^ 2).
  { eapply Rle_trans; [exact S|]. eapply Rle_trans; [exact D|]. replace (INR (length gx) * exp (K * T) * e ^ 2) with (INR (length gx) * (e * e) * exp (K * T)) by ring.
    apply Rmult_le_compat; [apply dotl_pos|left; apply exp_pos|exact W|exact E]. }
  assert (P : 0 <= INR (length gx) * exp (K * T)) by (apply Rmult_le_pos; [exact HN|left; apply exp_pos]).
  rewrite <- (sqrt_pow2 (nrm IX gx d)) by exact Sp. rewrite <- (sqrt_pow2 e) by exact He. rewrite <- sqrt_mult; [|exact P|apply pow2_ge_0].
  now apply sqrt_le_1_alt.
Qed.
Lemma hw_unique Y Z T : 0 <= T -> hw_solution p ny nx dx Y T -> hw_solution p ny nx dx Z T -> sagree ny nx (Y 0) (Z 0) ->
  forall t, 0 <= t <= T -> sagree ny nx (Y t) (Z t).
Proof.
  intros HT HY HZ H0 t Ht. destruct (A_bound p ny nx dx Hy Hx Hd) as (CA & HA & Ab), (B_bound p ny nx dx Hy Hx Hd) as (CB & HB & Bb).
  pose proof (unique IX gx A B LAv_add LAv_scale LBv_add_l LBv_add_r
    LBv_scale_l LBv_scale_r CA CB HA HB Ab Bb _ _ T HT (enc_solves p ny nx dx Y T HY) (enc_solves p ny nx dx Z T HZ)
    (agree_enc ny nx (Y 0) (Z 0) H0)) as U.
  split; intros i j Hi Hj.
  - exact (U t (true, (i, j)) Ht (proj2 (in_gridix ny nx true i j) (conj Hi Hj))).
  - exact (U t (false, (i, j)) Ht (proj2 (in_gridix ny nx false i j) (conj Hi Hj))).
Qed.
End H.
