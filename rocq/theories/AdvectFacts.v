(** The step size limit of advection by a steady flow. *)
From Coq Require Import List Arith ZArith Lia Bool Reals Lra Psatz String.
From Verif Require Import Num NdArray NdFacts ModelArakawa Spec GradFacts SumFacts LapFacts GradProps ArakawaFacts Cplx SpecFourier ModelHW ModelBackend
  SpecHW SpecPlasma HWFacts StepFacts RhsFacts HWProps SymFacts PoissonProps PoissonRound SpecZonal ZonalFacts SpecAdvect.
Import ListNotations.
Local Open Scope R_scope.

(** one more term in the Cauchy-Schwarz inequality *)
Lemma cs_step s S Q w x : s ^ 2 <= S * Q -> 0 <= S -> 0 <= Q -> 0 <= w -> (s + w * x) ^ 2 <= (S + w) * (Q + w * x ^ 2).
Proof.
  intros H HS HQ Hw.
  assert (L : 2 * (s * x) <= S * x ^ 2 + Q).
  { apply Rsqr_incr_0_var; [|assert (0 <= S * x ^ 2) by (apply Rmult_le_pos; [assumption|apply pow2_ge_0]); lra]. unfold Rsqr.
    assert (0 <= (S * x ^ 2 - Q) ^ 2) by apply pow2_ge_0. assert (s ^ 2 * x ^ 2 <= S * Q * x ^ 2) by (apply Rmult_le_compat_r; [apply pow2_ge_0|assumption]). nra. }
  assert (w * (2 * (s * x)) <= w * (S * x ^ 2 + Q)) by (apply Rmult_le_compat_l; assumption). lra.
Qed.

Lemma cs8 D x1 x2 x3 x4 x5 x6 x7 x8 : 0 <= D ->
  (2 * D * x1 + 2 * D * x2 + 2 * D * x3 + 2 * D * x4 + D * x5 + D * x6 + D * x7 + D * x8) ^ 2 <=
  12 * D * (2 * D * x1 ^ 2 + 2 * D * x2 ^ 2 + 2 * D * x3 ^ 2 + 2 * D * x4 ^ 2 + D * x5 ^ 2 + D * x6 ^ 2 + D * x7 ^ 2 + D * x8 ^ 2).
Proof.
  intros HD. replace (12 * D) with (2 * D + 2 * D + 2 * D + 2 * D + D + D + D + D) by ring.
  assert (Q : forall w x, 0 <= w -> 0 <= w * x ^ 2) by (intros; apply Rmult_le_pos; [assumption|apply pow2_ge_0]).
  assert (D2 : 0 <= 2 * D) by lra.
  pose proof (Q _ x1 D2). pose proof (Q _ x2 D2). pose proof (Q _ x3 D2). pose proof (Q _ x4 D2).
  pose proof (Q _ x5 HD). pose proof (Q _ x6 HD). pose proof (Q _ x7 HD).
  do 7 (apply cs_step; [|lra|lra|lra]). apply Req_le. ring.
Qed.

Section Adv.
Variables (ny nx : nat) (dx : R).
Hypothesis (Hy : (0 < ny)%nat) (Hx : (0 < nx)%nat) (Hd : dx <> 0).
Local Notation J := (jacobian ny nx dx).
Local Notation ip := (inner ny nx).
Local Notation ag := (agree ny nx).
Local Notation sag := (sagree ny nx).

(** ** norm of the bracket *)
Lemma jac_sq D phi n i j : 0 <= D -> spread ny nx D phi -> (i < ny)%nat -> (j < nx)%nat ->
  let q a b := P ny nx n a b i j ^ 2 in
  (12 * dx ^ 2 * J phi n i j) ^ 2 <=
  12 * D * (2 * D * q 0%Z 1%Z + 2 * D * q 0%Z (-1)%Z + 2 * D * q 1%Z 0%Z + 2 * D * q (-1)%Z 0%Z + D * q (-1)%Z 1%Z + D * q 1%Z 1%Z + D * q 1%Z (-1)%Z + D * q (-1)%Z (-1)%Z).
Proof.
  intros HD HS Hi Hj q. rewrite jacobian_ara by assumption.
  assert (E : 12 * dx ^ 2 * ara ny nx dx phi n i j = - nb_kernel (fun a b => P ny nx n a b i j) (fun a b => P ny nx phi a b i j)).
  { unfold ara, twelve_dx2, nb_kernel. cbn [ndiv nmul nadd nsub nofZ npow NumR]. field. assumption. }
  rewrite E. unfold nb_kernel. cbn [nadd nsub nmul NumR].
  set (p := fun a b => P ny nx phi a b i j). set (z := fun a b => P ny nx n a b i j).
  assert (B : forall a b a' b', p a b - p a' b' <= D) by (intros; apply HS; now apply sh_lt).
  assert (T : forall w a x, - w <= a <= w -> Rabs (x * a) <= w * Rabs x).
  { intros w a x Ha. rewrite Rabs_mult, Rmult_comm. apply Rmult_le_compat_r; [apply Rabs_pos|]. now apply Rabs_le. }
  pose proof (B 1%Z 0%Z (-1)%Z 0%Z). pose proof (B (-1)%Z 0%Z 1%Z 0%Z). pose proof (B 1%Z 1%Z (-1)%Z 1%Z). pose proof (B (-1)%Z 1%Z 1%Z 1%Z).
  pose proof (B 1%Z (-1)%Z (-1)%Z (-1)%Z). pose proof (B (-1)%Z (-1)%Z 1%Z (-1)%Z). pose proof (B 0%Z 1%Z 0%Z (-1)%Z). pose proof (B 0%Z (-1)%Z 0%Z 1%Z).
  pose proof (B 1%Z 1%Z 1%Z (-1)%Z). pose proof (B 1%Z (-1)%Z 1%Z 1%Z). pose proof (B (-1)%Z 1%Z (-1)%Z (-1)%Z). pose proof (B (-1)%Z (-1)%Z (-1)%Z 1%Z).
  pose proof (B 0%Z 1%Z (-1)%Z 0%Z). pose proof (B (-1)%Z 0%Z 0%Z 1%Z). pose proof (B 1%Z 0%Z 0%Z 1%Z). pose proof (B 0%Z 1%Z 1%Z 0%Z).
  pose proof (B 1%Z 0%Z 0%Z (-1)%Z). pose proof (B 0%Z (-1)%Z 1%Z 0%Z). pose proof (B 0%Z (-1)%Z (-1)%Z 0%Z). pose proof (B (-1)%Z 0%Z 0%Z (-1)%Z).
  pose proof (T (2 * D) (p 1%Z 0%Z - p (-1)%Z 0%Z + p 1%Z 1%Z - p (-1)%Z 1%Z) (z 0%Z 1%Z) ltac:(lra)) as T1.
  pose proof (T (2 * D) (p 1%Z 0%Z - p (-1)%Z 0%Z + p 1%Z (-1)%Z - p (-1)%Z (-1)%Z) (z 0%Z (-1)%Z) ltac:(lra)) as T2.
  pose proof (T (2 * D) (p 0%Z 1%Z - p 0%Z (-1)%Z + p 1%Z 1%Z - p 1%Z (-1)%Z) (z 1%Z 0%Z) ltac:(lra)) as T3.
  pose proof (T (2 * D) (p 0%Z 1%Z - p 0%Z (-1)%Z + p (-1)%Z 1%Z - p (-1)%Z (-1)%Z) (z (-1)%Z 0%Z) ltac:(lra)) as T4.
  pose proof (T D (p 0%Z 1%Z - p (-1)%Z 0%Z) (z (-1)%Z 1%Z) ltac:(lra)) as T5.
  pose proof (T D (p 1%Z 0%Z - p 0%Z 1%Z) (z 1%Z 1%Z) ltac:(lra)) as T6.
  pose proof (T D (p 1%Z 0%Z - p 0%Z (-1)%Z) (z 1%Z (-1)%Z) ltac:(lra)) as T7.
  pose proof (T D (p 0%Z (-1)%Z - p (-1)%Z 0%Z) (z (-1)%Z (-1)%Z) ltac:(lra)) as T8.
  apply Rle_trans with ((2 * D * Rabs (z 0%Z 1%Z) + 2 * D * Rabs (z 0%Z (-1)%Z) + 2 * D * Rabs (z 1%Z 0%Z) + 2 * D * Rabs (z (-1)%Z 0%Z)
    + D * Rabs (z (-1)%Z 1%Z) + D * Rabs (z 1%Z 1%Z) + D * Rabs (z 1%Z (-1)%Z) + D * Rabs (z (-1)%Z (-1)%Z)) ^ 2).
  - rewrite <- !Rsqr_pow2. apply Rsqr_le_abs_1. rewrite Rabs_Ropp.
    rewrite (Rabs_pos_eq (_ + D * Rabs (z (-1)%Z (-1)%Z))).
    + unfold Rminus at 1 2 3 4. repeat (eapply Rle_trans; [apply Rabs_triang|]; apply Rplus_le_compat; [|rewrite ?Rabs_Ropp; assumption]). exact T1.
    + repeat apply Rplus_le_le_0_compat; repeat apply Rmult_le_pos; try lra; apply Rabs_pos.
  - unfold q. rewrite <- (pow2_abs (P ny nx n 0 1 i j)), <- (pow2_abs (P ny nx n 0 (-1) i j)), <- (pow2_abs (P ny nx n 1 0 i j)), <- (pow2_abs (P ny nx n (-1) 0 i j)),
      <- (pow2_abs (P ny nx n (-1) 1 i j)), <- (pow2_abs (P ny nx n 1 1 i j)), <- (pow2_abs (P ny nx n 1 (-1) i j)), <- (pow2_abs (P ny nx n (-1) (-1) i j)).
    apply cs8. exact HD.
Qed.
Lemma jac_norm D phi n : 0 <= D -> spread ny nx D phi -> ip (J phi n) (J phi n) <= (D / dx ^ 2) ^ 2 * ip n n.
Proof.
  intros HD HS. assert (Pd : 0 < dx ^ 2) by (pose proof (pow2_ge_0 dx); assert (dx ^ 2 <> 0) by (apply pow_nonzero; assumption); lra).
  assert (E : forall a b, gsum ny nx (fun i j => P ny nx n a b i j ^ 2) = ip n n).
  { intros a b. unfold inner. rewrite (gsum_P ny nx (fun i j => n i j * n i j) a b) by assumption. apply gsum_ext. intros. unfold P. ring. }
  assert (L : gsum ny nx (fun i j => (12 * dx ^ 2 * J phi n i j) ^ 2) <= gsum ny nx (fun i j => 12 * D * (2 * D * P ny nx n 0 1 i j ^ 2 +
     2 * D * P ny nx n 0 (-1) i j ^ 2 + 2 * D * P ny nx n 1 0 i j ^ 2 + 2 * D * P ny nx n (-1) 0 i j ^ 2 + D * P ny nx n (-1) 1 i j ^ 2 +
     D * P ny nx n 1 1 i j ^ 2 + D * P ny nx n 1 (-1) i j ^ 2 + D * P ny nx n (-1) (-1) i j ^ 2))).
  { apply gsum_le. intros. now apply (jac_sq D). }
  rewrite !gsum_scal, !gsum_add, !gsum_scal, !E in L.
  rewrite (gsum_ext ny nx _ (fun i j => (144 * (dx ^ 2) ^ 2) * (J phi n i j * J phi n i j))) in L by (intros; ring).
  rewrite gsum_scal in L. fold (ip (J phi n) (J phi n)) in L.
  apply Rmult_le_reg_l with (144 * (dx ^ 2) ^ 2); [nra|].
  replace (144 * (dx ^ 2) ^ 2 * ((D / dx ^ 2) ^ 2 * ip n n)) with (144 * D ^ 2 * ip n n) by (field; assumption). lra.
Qed.

(** ** the bracket as a linear map *)
Lemma ip_add_r f g k : ip f (fadd g k) = ip f g + ip f k.
Proof. unfold inner, fadd. rewrite <- gsum_add. apply gsum_ext. intros. ring. Qed.
Lemma ip_add_l f g k : ip (fadd g k) f = ip g f + ip k f.
Proof. unfold inner, fadd. rewrite <- gsum_add. apply gsum_ext. intros. ring. Qed.
Lemma ip_sc_r c f g : ip f (fscale c g) = c * ip f g.
Proof. apply inner_scal_r. Qed.
Lemma ip_sc_l c f g : ip (fscale c f) g = c * ip f g.
Proof. apply inner_scal_l. Qed.
Lemma skew phi f g : ip f (J phi g) = - ip (J phi f) g.
Proof.
  pose proof (inner_jac_r ny nx dx Hy Hx Hd phi (fadd (fscale 1 f) (fscale 1 g))) as E.
  rewrite (inner_ext ny nx _ (fadd (fscale 1 f) (fscale 1 g)) _ (fadd (fscale 1 (J phi f)) (fscale 1 (J phi g)))) in E; [|auto|intros; rewrite (jac_lin_r ny nx dx Hd); reflexivity].
  rewrite !ip_add_l, !ip_add_r, !ip_sc_l, !ip_sc_r in E. rewrite !(inner_jac_r ny nx dx Hy Hx Hd) in E.
  rewrite (inner_sym ny nx g (J phi f)) in E. lra.
Qed.

Variables (p : par) (o : field).
Local Notation F := (hw_rhs p ny nx dx).
Local Notation phi := (invlap ny nx dx o).
Hypothesis (H1 : pc1 p = 0) (Hnu : pnu p = 0) (Hst : steady_flow p ny nx dx o).
Local Notation B k n := (brackets k ny nx dx phi n).
Definition slope (n : field) : field := fscale (- ppb p) (J phi n).

Lemma F_steady y : ag (snd y) o -> sag (F y) (slope (fst y), fconst 0).
Proof.
  intros E. destruct Hst as [S1 S2]. 
  assert (Ep : ag (invlap ny nx dx (snd y)) phi) by (intros i j _ _; now apply invlap_ext).
  split; cbn [fst snd hw_rhs]; intros i j Hi Hj.
  - unfold rhs_n, slope, fscale, hyper. rewrite H1, Hnu. rewrite (jac_ext ny nx dx Hy Hx Hd _ (fst y) phi (fst y) Ep) by (intros ? ? _ _; reflexivity).
    rewrite (cdy_ext ny nx dx Hy _ phi Ep i j Hj). destruct S2 as [S2|S2]; [rewrite S2|rewrite (S2 i j Hi Hj); unfold fconst]; ring.
  - unfold rhs_o, hyper, fconst. rewrite H1, Hnu. rewrite (jac_ext ny nx dx Hy Hx Hd _ (snd y) phi o Ep E). rewrite (S1 i j Hi Hj). unfold fconst. ring.
Qed.
Lemma slope_ext f g : ag f g -> ag (slope f) (slope g).
Proof. intros E i j Hi Hj. unfold slope, fscale. rewrite (jac_ext ny nx dx Hy Hx Hd phi f phi g); auto. intros ? ? _ _; reflexivity. Qed.
Lemma slope_lin a b f g : ag (slope (fadd (fscale a f) (fscale b g))) (fadd (fscale a (slope f)) (fscale b (slope g))).
Proof. intros i j Hi Hj. unfold slope. unfold fscale at 1. rewrite (jac_lin_r ny nx dx Hd). unfold fadd, fscale. ring. Qed.
Lemma pair_step y c k f : ag (snd y) o -> sag k (f, fconst 0) ->
  ag (snd (sadd y (sscale c k))) o /\ ag (slope (fst (sadd y (sscale c k)))) (fadd (fscale 1 (slope (fst y))) (fscale c (slope f))).
Proof.
  intros E [K1 K2]. cbn [fst snd] in K1, K2. split.
  - intros i j Hi Hj. cbn [sadd sscale fst snd]. unfold fadd, fscale. rewrite K2, E by assumption. unfold fconst. ring.
  - eapply agree_trans; [|apply slope_lin]. apply slope_ext. intros i j Hi Hj. cbn [sadd sscale fst snd]. unfold fadd, fscale. rewrite K1 by assumption. ring.
Qed.
Definition sl (k : nat) (n : field) : field := Nat.iter k slope n.
Definition poly4 (dt : R) (n : field) : field := fun i j =>
  n i j + dt * sl 1 n i j + dt ^ 2 / 2 * sl 2 n i j + dt ^ 3 / 6 * sl 3 n i j + dt ^ 4 / 24 * sl 4 n i j.
Lemma rk4_steady dt y : ag (snd y) o -> ag (fst (rk4 F dt y)) (poly4 dt (fst y)) /\ ag (snd (rk4 F dt y)) o.
Proof.
  intros E. unfold rk4, rk4_from. cbv zeta. set (n := fst y).
  set (k1 := F y). assert (K1 : sag k1 (slope n, fconst 0)) by now apply F_steady.
  destruct (pair_step y (dt / 2) k1 _ E K1) as [O2 N2]. fold n in N2. set (y2 := sadd y (sscale (dt / 2) k1)) in *.
  set (k2 := F y2). assert (K2 : sag k2 (slope (fst y2), fconst 0)) by now apply F_steady.
  destruct (pair_step y (dt / 2) k2 _ E K2) as [O3 N3]. fold n in N3. set (y3 := sadd y (sscale (dt / 2) k2)) in *.
  set (k3 := F y3). assert (K3 : sag k3 (slope (fst y3), fconst 0)) by now apply F_steady.
  destruct (pair_step y dt k3 _ E K3) as [O4 N4]. fold n in N4. set (y4 := sadd y (sscale dt k3)) in *.
  set (k4 := F y4). assert (K4 : sag k4 (slope (fst y4), fconst 0)) by now apply F_steady.
  assert (S2 : ag (slope (slope (fst y2))) (fadd (fscale 1 (sl 2 n)) (fscale (dt / 2) (sl 3 n)))).
  { eapply agree_trans; [apply slope_ext, N2|apply slope_lin]. }
  assert (S22 : ag (slope (slope (slope (fst y2)))) (fadd (fscale 1 (sl 3 n)) (fscale (dt / 2) (sl 4 n)))).
  { eapply agree_trans; [apply slope_ext, S2|apply slope_lin]. }
  assert (S3 : ag (slope (slope (fst y3))) (fadd (fscale 1 (sl 2 n)) (fscale (dt / 2) (slope (slope (slope (fst y2))))))).
  { eapply agree_trans; [apply slope_ext, N3|apply slope_lin]. }
  destruct K1 as [A1 B1], K2 as [A2 B2], K3 as [A3 B3], K4 as [A4 B4]. cbn [fst snd] in *.
  split; intros i j Hi Hj; cbn [sadd sscale fst snd]; unfold fadd, fscale.
  - rewrite A1, A2, A3, A4 by assumption. rewrite (N4 i j), (N3 i j), (N2 i j) by assumption. unfold fadd, fscale.
    rewrite (S3 i j) by assumption. unfold fadd, fscale. rewrite (S22 i j), (S2 i j) by assumption. unfold poly4, fadd, fscale. fold n.
    change (slope n i j) with (sl 1 n i j). change (slope (slope n) i j) with (sl 2 n i j). field.
  - rewrite B1, B2, B3, B4, E by assumption. unfold fconst. ring.
Qed.
Lemma euler_steady dt y : ag (snd y) o -> ag (fst (euler F dt y)) (fadd (fst y) (fscale dt (slope (fst y)))) /\ ag (snd (euler F dt y)) o.
Proof.
  intros E. destruct (F_steady y E) as [A1 B1]. cbn [fst snd] in *.
  split; intros i j Hi Hj; unfold euler; cbn [sadd sscale fst snd]; unfold fadd, fscale; rewrite ?A1, ?B1, ?E by assumption; unfold fconst; ring.
Qed.

(** ** change of the square sum over a step *)
Lemma sskew f g : ip f (slope g) = - ip (slope f) g.
Proof. unfold slope. rewrite ip_sc_r, ip_sc_l, skew. ring. Qed.
Lemma self0 f : ip f (slope f) = 0.
Proof. pose proof (sskew f f) as E. rewrite (inner_sym ny nx (slope f) f) in E. lra. Qed.
Lemma rk4_square dt y : ag (snd y) o ->
  ip (fst (rk4 F dt y)) (fst (rk4 F dt y)) =
  ip (fst y) (fst y) - dt ^ 6 / 72 * ip (sl 3 (fst y)) (sl 3 (fst y)) + dt ^ 8 / 576 * ip (sl 4 (fst y)) (sl 4 (fst y)).
Proof.
  intros E. destruct (rk4_steady dt y E) as [A _]. set (n := fst y) in *.
  set (v := fadd n (fadd (fscale dt (sl 1 n)) (fadd (fscale (dt ^ 2 / 2) (sl 2 n)) (fadd (fscale (dt ^ 3 / 6) (sl 3 n)) (fscale (dt ^ 4 / 24) (sl 4 n)))))).
  assert (A' : ag (fst (rk4 F dt y)) v).
  { intros i j Hi Hj. rewrite A by assumption. unfold poly4, v, fadd, fscale. ring. }
  rewrite (inner_ext ny nx _ v _ v A' A'). unfold v. rewrite !ip_add_l, !ip_add_r, !ip_sc_l, !ip_sc_r.
  assert (s1 : sl 1 n = slope n) by reflexivity. assert (s2 : sl 2 n = slope (sl 1 n)) by reflexivity.
  assert (s3 : sl 3 n = slope (sl 2 n)) by reflexivity. assert (s4 : sl 4 n = slope (sl 3 n)) by reflexivity.
  assert (g01 : ip n (sl 1 n) = 0) by apply self0. assert (g12 : ip (sl 1 n) (sl 2 n) = 0) by apply self0.
  assert (g23 : ip (sl 2 n) (sl 3 n) = 0) by apply self0. assert (g34 : ip (sl 3 n) (sl 4 n) = 0) by apply self0.
  assert (g02 : ip n (sl 2 n) = - ip (sl 1 n) (sl 1 n)) by (rewrite s2; apply sskew).
  assert (g03 : ip n (sl 3 n) = 0) by (rewrite s3, sskew; fold (sl 1 n); change (- ip (sl 1 n) (sl 2 n) = 0); lra).
  assert (g13 : ip (sl 1 n) (sl 3 n) = - ip (sl 2 n) (sl 2 n)) by (rewrite s3; apply sskew).
  assert (g04 : ip n (sl 4 n) = ip (sl 2 n) (sl 2 n)) by (rewrite s4, sskew; change (- ip (sl 1 n) (sl 3 n) = ip (sl 2 n) (sl 2 n)); lra).
  assert (g14 : ip (sl 1 n) (sl 4 n) = 0) by (rewrite s4, sskew; change (- ip (sl 2 n) (sl 3 n) = 0); lra).
  assert (g24 : ip (sl 2 n) (sl 4 n) = - ip (sl 3 n) (sl 3 n)) by (rewrite s4; apply sskew).
  rewrite (inner_sym ny nx (sl 1 n) n), (inner_sym ny nx (sl 2 n) n), (inner_sym ny nx (sl 3 n) n), (inner_sym ny nx (sl 4 n) n),
    (inner_sym ny nx (sl 2 n) (sl 1 n)), (inner_sym ny nx (sl 3 n) (sl 1 n)), (inner_sym ny nx (sl 4 n) (sl 1 n)),
    (inner_sym ny nx (sl 3 n) (sl 2 n)), (inner_sym ny nx (sl 4 n) (sl 2 n)), (inner_sym ny nx (sl 4 n) (sl 3 n)).
  rewrite g01, g02, g03, g04, g12, g13, g14, g23, g24, g34. field.
Qed.
Lemma euler_square dt y : ag (snd y) o ->
  ip (fst (euler F dt y)) (fst (euler F dt y)) = ip (fst y) (fst y) + dt ^ 2 * ip (slope (fst y)) (slope (fst y)).
Proof.
  intros E. destruct (euler_steady dt y E) as [A _]. rewrite (inner_ext ny nx _ _ _ _ A A).
  rewrite !ip_add_l, !ip_add_r, !ip_sc_l, !ip_sc_r. rewrite (inner_sym ny nx (slope (fst y)) (fst y)), self0. ring.
Qed.
Lemma slope_norm D f : 0 <= D -> spread ny nx D phi -> ip (slope f) (slope f) <= (ppb p * D / dx ^ 2) ^ 2 * ip f f.
Proof.
  intros HD HS. unfold slope. rewrite ip_sc_l, ip_sc_r. pose proof (jac_norm D phi f HD HS) as L.
  replace ((ppb p * D / dx ^ 2) ^ 2 * ip f f) with (ppb p ^ 2 * ((D / dx ^ 2) ^ 2 * ip f f)) by (field; assumption).
  replace (- ppb p * (- ppb p * ip (J phi f) (J phi f))) with (ppb p ^ 2 * ip (J phi f) (J phi f)) by ring.
  apply Rmult_le_compat_l; [apply pow2_ge_0|exact L].
Qed.
Lemma rk4_contract D dt y : 0 <= D -> spread ny nx D phi -> (dt * ppb p * D / dx ^ 2) ^ 2 <= 8 -> ag (snd y) o ->
  ip (fst (rk4 F dt y)) (fst (rk4 F dt y)) <= ip (fst y) (fst y).
Proof.
  intros HD HS HL E. rewrite rk4_square by assumption. pose proof (slope_norm D (sl 3 (fst y)) HD HS) as L.
  change (slope (sl 3 (fst y))) with (sl 4 (fst y)) in L. pose proof (inner_sq_nonneg ny nx (sl 3 (fst y))) as P3.
  assert (dt ^ 2 * ip (sl 4 (fst y)) (sl 4 (fst y)) <= 8 * ip (sl 3 (fst y)) (sl 3 (fst y))).
  { apply Rle_trans with (dt ^ 2 * ((ppb p * D / dx ^ 2) ^ 2 * ip (sl 3 (fst y)) (sl 3 (fst y)))); [apply Rmult_le_compat_l; [apply pow2_ge_0|exact L]|].
    replace (dt ^ 2 * ((ppb p * D / dx ^ 2) ^ 2 * ip (sl 3 (fst y)) (sl 3 (fst y)))) with ((dt * ppb p * D / dx ^ 2) ^ 2 * ip (sl 3 (fst y)) (sl 3 (fst y))) by (field; assumption).
    apply Rmult_le_compat_r; assumption. }
  assert (0 <= dt ^ 6) by (replace (dt ^ 6) with ((dt ^ 3) ^ 2) by ring; apply pow2_ge_0).
  assert (dt ^ 6 * (dt ^ 2 * ip (sl 4 (fst y)) (sl 4 (fst y))) <= dt ^ 6 * (8 * ip (sl 3 (fst y)) (sl 3 (fst y)))) by (apply Rmult_le_compat_l; assumption).
  replace (dt ^ 8) with (dt ^ 6 * dt ^ 2) by ring. lra.
Qed.
Lemma slope_pos f : 0 < ip (slope f) (slope f) -> 0 < ip (slope (slope f)) (slope (slope f)).
Proof.
  intros H. destruct (Rle_lt_or_eq_dec 0 _ (inner_sq_nonneg ny nx (slope (slope f)))) as [L|L]; [exact L|]. exfalso.
  symmetry in L. pose proof (proj1 (inner_sq_0 ny nx (slope (slope f))) L) as L0. pose proof (sskew f (slope f)) as E.
  rewrite (inner_ext ny nx f f (slope (slope f)) (fun _ _ => 0) (fun i j _ _ => eq_refl) L0) in E.
  assert (Z : ip f (fun _ _ => 0) = 0) by (unfold inner; rewrite (gsum_ext ny nx _ (fun _ _ => 0)) by (intros; ring); apply gsum_zero). lra.
Qed.
Lemma rk4_grows n : 0 < ip (slope n) (slope n) -> exists dt0, 0 < dt0 /\ forall dt y, dt0 < dt -> ag (snd y) o -> fst y = n ->
  ip n n < ip (fst (rk4 F dt y)) (fst (rk4 F dt y)).
Proof.
  intros H. assert (P2 := slope_pos n H). assert (P3 := slope_pos _ P2). assert (P4 := slope_pos _ P3).
  change (slope (slope (slope n))) with (sl 3 n) in *. change (slope (sl 3 n)) with (sl 4 n) in *.
  set (a := ip (sl 3 n) (sl 3 n)) in *. set (b := ip (sl 4 n) (sl 4 n)) in *. exists (1 + 8 * a / b).
  assert (Q : 0 < 8 * a / b) by (apply Rdiv_lt_0_compat; lra). split; [lra|]. intros dt y Hdt E Ey. rewrite rk4_square, Ey by assumption. fold a b.
  assert (8 * a < dt ^ 2 * b).
  { assert (8 * a / b * b = 8 * a) by (field; lra). assert (8 * a / b < dt ^ 2) by nra. nra. }
  assert (0 < dt ^ 6) by (apply pow_lt; lra).
  assert (dt ^ 6 * (8 * a) < dt ^ 6 * (dt ^ 2 * b)) by (apply Rmult_lt_compat_l; assumption).
  replace (dt ^ 8) with (dt ^ 6 * dt ^ 2) by ring. lra.
Qed.
End Adv.
