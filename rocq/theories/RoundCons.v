(** The conservation laws of the Arakawa bracket in binary64: they hold up to
    the rounding errors of the bracket, and not exactly. *)
From Coq Require Import List Arith ZArith Reals Lra Lia Psatz SpecFloat Bool.
From Verif Require Import Num NdArray NdFacts ModelGradients ModelArakawa Spec SpecHW SumFacts GradFacts ArakawaFacts ArakawaProps HWFacts
  SpecRound RoundFacts RoundStencil RoundTop.
Import List ListNotations.
Local Open Scope R_scope.
Local Existing Instance NumF64.

Lemma rsum_abs_le n f e : (forall i, (i < n)%nat -> Rabs (f i) <= e) -> Rabs (rsum n f) <= INR n * e.
Proof.
  induction n as [|n IH]; intros H; [cbn [rsum]; rewrite Rabs_R0; cbn; lra|]. rewrite S_INR. cbn [rsum].
  assert (Rabs (f n) <= e) by (apply H; lia). assert (Rabs (rsum n f) <= INR n * e) by (apply IH; intros; apply H; lia).
  apply Rle_trans with (1 := Rabs_triang _ _). lra.
Qed.
Lemma gsum_abs_le ny nx f e : (forall i j, (i < ny)%nat -> (j < nx)%nat -> Rabs (f i j) <= e) -> Rabs (gsum ny nx f) <= INR ny * INR nx * e.
Proof.
  intros H. unfold gsum. rewrite Rmult_assoc. apply rsum_abs_le. intros i Hi. apply rsum_abs_le. intros j Hj. now apply H.
Qed.

Lemma jacobian_cons ny nx h f g : (0 < ny)%nat -> (0 < nx)%nat -> h <> 0 ->
  gsum ny nx (jacobian ny nx h f g) = 0 /\ inner ny nx f (jacobian ny nx h f g) = 0 /\ inner ny nx g (jacobian ny nx h f g) = 0.
Proof.
  intros Hy Hx Hh. apply (c09 ny nx h f g); auto. rewrite np_periodic_arakawa_vec_grid by assumption. f_equal. apply grid_ext.
  intros i j _ _. symmetry. now apply jacobian_ara.
Qed.

Section C.
Variables (ny nx : nat) (dx : f64).
Hypothesis Hy : (0 < ny)%nat.
Hypothesis Hx : (0 < nx)%nat.
Hypothesis Fd : finite64 dx.
Hypothesis Sd : scale64 (fval dx).
Local Notation h := (fval dx).

Lemma cons_of_near F G f g b e : bounded64 ny nx F f -> bounded64 ny nx G g -> 0 <= e ->
  (forall i j, (i < ny)%nat -> (j < nx)%nat -> near (b i j) (jacobian ny nx h (values f) (values g) i j) e) ->
  Rabs (gsum ny nx (values b)) <= INR ny * INR nx * e /\
  Rabs (inner ny nx (values f) (values b)) <= INR ny * INR nx * (F * e) /\
  Rabs (inner ny nx (values g) (values b)) <= INR ny * INR nx * (G * e).
Proof.
  intros B C He H. assert (Ph : h <> 0) by (pose proof (h_pos dx Sd); lra).
  set (J := jacobian ny nx h (values f) (values g)) in *.
  destruct (jacobian_cons ny nx h (values f) (values g) Hy Hx Ph) as (Z0 & Z1 & Z2). fold J in Z0, Z1, Z2.
  assert (D : forall i j, (i < ny)%nat -> (j < nx)%nat -> Rabs (values b i j - J i j) <= e) by (intros i j Hi Hj; now apply near_val, H).
  assert (K : forall u U, bounded64 ny nx U u -> inner ny nx (values u) J = 0 -> Rabs (inner ny nx (values u) (values b)) <= INR ny * INR nx * (U * e)).
  { intros u U Bu Z. replace (inner ny nx (values u) (values b)) with (gsum ny nx (fun i j => values u i j * (values b i j - J i j))).
    - apply gsum_abs_le. intros i j Hi Hj. rewrite Rabs_mult.
      apply Rmult_le_compat; try apply Rabs_pos; [now apply Bu|now apply D].
    - transitivity (inner ny nx (values u) (values b) - inner ny nx (values u) J); [|lra].
      unfold inner. rewrite <- gsum_sub. apply gsum_ext. intros; ring. }
  split; [|split; [now apply (K f)|now apply (K g)]].
  replace (gsum ny nx (values b)) with (gsum ny nx (fun i j => values b i j - J i j)) by (rewrite gsum_sub; lra).
  now apply gsum_abs_le.
Qed.

Lemma c98_cons F G f g : scale64 F -> scale64 G -> bounded64 ny nx F f -> bounded64 ny nx G g ->
  forall b junk,
  np_periodic_arakawa_vec (Ok (grid ny nx f)) (Ok (grid ny nx g)) dx = Ok (grid ny nx b) \/
  nb_periodic_arakawa_vec (Ok (grid ny nx f)) (Ok (grid ny nx g)) dx = Ok (grid ny nx b) \/
  nb_periodic_arakawa_stencil (Ok (grid ny nx f)) (Ok (grid ny nx g)) dx = Ok (grid ny nx b) \/
  np_periodic_arakawa junk (Ok (grid ny nx f)) (Ok (grid ny nx g)) dx = Ok (grid ny nx b) \/
  nb_periodic_arakawa (Ok (grid ny nx f)) (Ok (grid ny nx g)) dx = Ok (grid ny nx b) ->
  let e := 22 * uro * (F * G) / h ^ 2 in
  Rabs (gsum ny nx (values b)) <= INR ny * INR nx * e /\
  Rabs (inner ny nx (values f) (values b)) <= INR ny * INR nx * (F * e) /\
  Rabs (inner ny nx (values g) (values b)) <= INR ny * INR nx * (G * e).
Proof.
  intros SF SG B C b junk H e.
  pose proof uro_pos as Pu.
  assert (PF : 0 < F) by (apply (mag_pos 1), scale_mag, SF).
  assert (PG : 0 < G) by (apply (mag_pos 1), scale_mag, SG).
  assert (Ph : 0 < h ^ 2) by (apply pow_lt, (h_pos dx), Sd).
  assert (He : 0 <= e).
  { unfold e, Rdiv. apply Rlt_le, Rmult_lt_0_compat; [|now apply Rinv_0_lt_compat]. repeat apply Rmult_lt_0_compat; lra. }
  destruct (c96_bracket ny nx dx Hy Hx Fd Sd F G f g SF SG B C) as [(b1 & E1 & E2 & E3 & N1) (b2 & E4 & E5 & N2)].
  apply (cons_of_near F G f g b e B C He). intros i j Hi Hj.
  assert (Q : forall b', Ok (grid ny nx b') = Ok (grid ny nx b) -> b i j = b' i j).
  { intros b' E. assert (E1' : grid ny nx b' = grid ny nx b) by congruence. symmetry. now apply (grid_inj ny nx b' b). }
  rewrite E1, E2, E3, E4, E5 in H.
  destruct H as [H|[H|[H|[H|H]]]]; rewrite (Q _ H); auto.
Qed.
End C.

(** ** not exactly conserved *)
(** value times 2^60, when that is an integer *)
Definition zval (x : f64) : Z :=
  match x with
  | S754_finite s m e => (if s then Z.neg m else Z.pos m) * 2 ^ (e + 60)
  | _ => 0
  end%Z.
Definition small (x : f64) : bool := match x with S754_finite s m e => (-60 <=? e)%Z | _ => true end.
Lemma fval_zval x : small x = true -> fval x = IZR (zval x) * / 2 ^ 60.
Proof.
  destruct x as [| | |s m e]; cbn [small fval zval]; intros H; try (cbn; lra).
  apply Z.leb_le in H. rewrite mult_IZR.
  assert (E : two e = IZR (2 ^ (e + 60)) * / 2 ^ 60).
  { unfold two. replace e with ((e + 60) + (-60))%Z at 1 by lia. rewrite powerRZ_add by lra. f_equal.
    rewrite <- (Z2Nat.id (e + 60)) at 1 by lia. rewrite <- pow_powerRZ, pow_IZR. f_equal. f_equal. lia. }
  rewrite E. destruct s; [change (Z.neg m) with (- Z.pos m)%Z; rewrite opp_IZR|]; ring.
Qed.

Definition exf : nat -> nat -> f64 := fun i j => f64_ofZ (Z.of_nat (i * i + j)).
Definition exg : nat -> nat -> f64 := fun i j => f64_ofZ (Z.modulo (Z.of_nat (j * j + i * j)) 5).
Definition one64 : f64 := f64_ofZ 1.

Lemma exf_bounded : bounded64 3 3 6 exf /\ bounded64 3 3 4 exg.
Proof.
  split; intros i j Hi Hj.
  - destruct (ofZ_exact (Z.of_nat (i * i + j))) as [A V]; [nia|]. split; [exact A|]. change (Rabs (fval (SpecFloat.binary_normalize 53 1024 (Z.of_nat (i * i + j)) 0 false)) <= 6).
    rewrite V, Rabs_pos_eq by (apply IZR_le; lia). apply IZR_le. nia.
  - set (z := (Z.of_nat (j * j + i * j) mod 5)%Z). assert (E : (0 <= z < 5)%Z) by (apply Z.mod_pos_bound; lia).
    destruct (ofZ_exact z) as [A V]; [lia|]. split; [exact A|]. change (Rabs (fval (SpecFloat.binary_normalize 53 1024 z 0 false)) <= 4).
    rewrite V, Rabs_pos_eq by (apply IZR_le; lia). apply IZR_le. lia.
Qed.
Lemma one_scale : finite64 one64 /\ fval one64 = 1 /\ scale64 (fval one64).
Proof.
  destruct (ofZ_exact 1) as [F1 V1]; [lia|]. change (fval one64 = 1) in V1. split; [exact F1|]. split; [exact V1|]. rewrite V1.
  unfold scale64. assert (1 <= 2 ^ 200) by (apply pow_R1_Rle; lra). split; [|assumption].
  rewrite <- Rinv_1. apply Rinv_le_contravar; lra.
Qed.

Lemma c98_refuted : ~ forall ny nx (dx : f64) f g b, (0 < ny)%nat -> (0 < nx)%nat -> finite64 dx -> scale64 (fval dx) ->
  (exists B, bounded64 ny nx B f /\ bounded64 ny nx B g) ->
  np_periodic_arakawa_vec (Ok (grid ny nx f)) (Ok (grid ny nx g)) dx = Ok (grid ny nx b) ->
  gsum ny nx (values b) = 0.
Proof.
  intros H. destruct exf_bounded as [Bf Bg].
  specialize (H 3%nat 3%nat one64 exf exg (ara 3 3 one64 exf exg)).
  destruct one_scale as (F1 & V1 & S1).
  assert (E : gsum 3 3 (values (ara 3 3 one64 exf exg)) = 0).
  { apply H; [lia|lia|exact F1|exact S1| |].
    - exists 6. split; [exact Bf|]. intros i j Hi Hj. destruct (Bg i j Hi Hj). split; [assumption|lra].
    - apply np_periodic_arakawa_vec_grid; lia. }
  unfold gsum, values in E. cbn [rsum] in E.
  rewrite !fval_zval in E by (vm_compute; reflexivity).
  repeat rewrite <- Rmult_plus_distr_r in E.
  assert (P : 0 < / 2 ^ 60) by (apply Rinv_0_lt_compat, pow_lt; lra).
  rewrite !Rplus_0_l in E. rewrite <- !Rmult_plus_distr_r in E. rewrite <- !plus_IZR in E.
  apply Rmult_integral in E. destruct E as [E|E]; [|lra]. apply eq_IZR in E. revert E. vm_compute. discriminate.
Qed.
