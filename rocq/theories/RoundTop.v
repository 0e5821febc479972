(** Rounding errors of the program's difference operators on binary64 fields. *)
From Coq Require Import List Arith ZArith Reals Lra Lia Psatz SpecFloat Bool.
From Verif Require Import Num NdArray NdFacts ModelGradients ModelArakawa Spec SpecHW GradFacts ArakawaFacts ArakawaProps LapFacts HWFacts
  SpecRound RoundFacts RoundStencil SpecSmooth SmoothStencil SmoothTop.
Import List ListNotations.
Local Open Scope R_scope.
Local Existing Instance NumF64.

Lemma near_val x r e : near x r e -> Rabs (fval x - r) <= e.
Proof. intros [_ H]. exact H. Qed.

Section T.
Variables (ny nx : nat) (dx : f64).
Hypothesis Hy : (0 < ny)%nat.
Hypothesis Hx : (0 < nx)%nat.
Hypothesis Fd : finite64 dx.
Hypothesis Sd : scale64 (fval dx).
Local Notation h := (fval dx).
Lemma h_pos : 0 < h.
Proof. apply (mag_pos 1), scale_mag, Sd. Qed.

Lemma bnear B f i j : bounded64 ny nx B f -> (i < ny)%nat -> (j < nx)%nat -> near (f i j) (values f i j) 0 /\ Rabs (values f i j) <= B.
Proof. intros H Hi Hj. destruct (H i j Hi Hj) as [A C]. split; [now apply near_self|exact C]. Qed.

Lemma cdy_round F f i j : scale64 F -> bounded64 ny nx F f -> (i < ny)%nat -> (j < nx)%nat ->
  near (cdy ny dx f i j) (cdy ny h (values f) i j) (4 * uro * F / h).
Proof.
  intros SF B Hi Hj. unfold cdy. cbn [nsub nmul ndiv nofZ NumF64 NumR].
  apply grad_point; try (apply near_self; assumption); try (apply scale_mag; assumption); apply (bnear F); auto; now apply sh_lt.
Qed.
Lemma cdx_round F f i j : scale64 F -> bounded64 ny nx F f -> (i < ny)%nat -> (j < nx)%nat ->
  near (cdx nx dx f i j) (cdx nx h (values f) i j) (4 * uro * F / h).
Proof.
  intros SF B Hi Hj. unfold cdx. cbn [nsub nmul ndiv nofZ NumF64 NumR].
  apply grad_point; try (apply near_self; assumption); try (apply scale_mag; assumption); apply (bnear F); auto; now apply sh_lt.
Qed.
Lemma lap5_round F f i j : scale64 F -> bounded64 ny nx F f -> (i < ny)%nat -> (j < nx)%nat ->
  near (lap5 ny nx dx f i j) (lap5 ny nx h (values f) i j) (44 * uro * F / h ^ 2).
Proof.
  intros SF B Hi Hj. unfold lap5. cbn [nadd nsub nmul ndiv nofZ npow NumF64 NumR].
  apply lap_point; try (apply near_self; assumption); try (apply scale_mag; assumption); apply (bnear F); auto; now apply sh_lt.
Qed.
Lemma ara_round F G f g i j : scale64 F -> scale64 G -> bounded64 ny nx F f -> bounded64 ny nx G g ->
  (i < ny)%nat -> (j < nx)%nat ->
  near (ara ny nx dx f g i j) (jacobian ny nx h (values f) (values g) i j) (22 * uro * (F * G) / h ^ 2).
Proof.
  intros SF SG B C Hi Hj. rewrite jacobian_ara by (pose proof h_pos; lra). unfold ara, twelve_dx2. cbn [ndiv nmul nofZ npow NumF64 NumR].
  apply (ara_point dx h F G); try (apply near_self; assumption); try (apply scale_mag; assumption); intros a b; unfold P;
    [apply B|apply C]; now apply sh_lt.
Qed.
Lemma ara3_round F G f g i j : scale64 F -> scale64 G -> bounded64 ny nx F f -> bounded64 ny nx G g ->
  (i < ny)%nat -> (j < nx)%nat ->
  near (ara3 ny nx dx f g i j) (jacobian ny nx h (values f) (values g) i j) (22 * uro * (F * G) / h ^ 2).
Proof.
  intros SF SG B C Hi Hj. pose proof h_pos. rewrite jacobian_ara, <- ara3_ara by lra. unfold ara3. cbv zeta.
  apply (ara3_point dx h F G); try (apply near_self; assumption); try (apply scale_mag; assumption); intros a b; unfold P;
    [apply B|apply C]; now apply sh_lt.
Qed.

(** ** iterated Laplacian *)
Lemma lap5_diff (a b : nat -> nat -> R) e i j : (forall i j, (i < ny)%nat -> (j < nx)%nat -> Rabs (a i j - b i j) <= e) ->
  (i < ny)%nat -> (j < nx)%nat -> Rabs (lap5 ny nx h a i j - lap5 ny nx h b i j) <= 8 / h ^ 2 * e.
Proof.
  intros H Hi Hj. pose proof h_pos as Ph. assert (P2 : 0 < h ^ 2) by (apply pow_lt; exact Ph).
  unfold lap5. cbn [nadd nsub nmul ndiv nofZ npow NumR].
  pose proof (H (sh ny i (-1)) j (sh_lt _ _ _ Hy) Hj) as H1. pose proof (H i (sh nx j (-1)) Hi (sh_lt _ _ _ Hx)) as H2.
  pose proof (H i j Hi Hj) as H3. pose proof (H i (sh nx j 1) Hi (sh_lt _ _ _ Hx)) as H4. pose proof (H (sh ny i 1) j (sh_lt _ _ _ Hy) Hj) as H5.
  match goal with |- Rabs (?x / _ - ?y / _) <= _ => replace (x / h ^ 2 - y / h ^ 2) with ((x - y) * / h ^ 2) by (field; lra) end.
  rewrite Rabs_mult, (Rabs_right (/ _)) by (apply Rle_ge, Rlt_le, Rinv_0_lt_compat, P2).
  replace (8 / h ^ 2 * e) with (8 * e * / h ^ 2) by (field; lra).
  apply Rmult_le_compat_r; [apply Rlt_le, Rinv_0_lt_compat, P2|]. rabs.
Qed.
Lemma lap5_bound (a : nat -> nat -> R) e i j : (forall i j, (i < ny)%nat -> (j < nx)%nat -> Rabs (a i j) <= e) ->
  (i < ny)%nat -> (j < nx)%nat -> Rabs (lap5 ny nx h a i j) <= 8 / h ^ 2 * e.
Proof.
  intros H Hi Hj. pose proof (lap5_diff a (fun _ _ => 0) e i j) as D.
  assert (Z : lap5 ny nx h (fun _ _ => 0) i j = 0) by (unfold lap5; cbn [nadd nsub nmul ndiv nofZ npow NumR]; unfold Rdiv; ring).
  rewrite Z, Rminus_0_r in D. apply D; auto. intros. rewrite Rminus_0_r. auto.
Qed.
Local Notation g := (8.01 / h ^ 2).
Lemma lap_iter_round F f n : (forall k, (k < n)%nat -> scale64 (g ^ k * F)) -> bounded64 ny nx F f ->
  bounded64 ny nx (g ^ n * F) (lap_iter n ny nx dx f) /\
  forall i j, (i < ny)%nat -> (j < nx)%nat ->
    near (lap_iter n ny nx dx f i j) (lap_iter n ny nx h (values f) i j) (INR n * 6 * uro * (g ^ n * F)).
Proof.
  intros Sc B. pose proof h_pos as Ph. assert (P2 : 0 < / h ^ 2) by (apply Rinv_0_lt_compat, pow_lt, Ph).
  induction n as [|n IH].
  - cbn [pow lap_iter INR]. rewrite !Rmult_1_l, !Rmult_0_l. split; [exact B|]. intros i j Hi Hj. now apply near_self, B.
  - destruct IH as [IB IE]; [intros k Hk; apply Sc; lia|]. pose proof (Sc n (Nat.lt_succ_diag_r n)) as Sn.
    cbn [lap_iter]. set (fn := lap_iter n ny nx dx f) in *. set (rn := lap_iter n ny nx h (values f)) in *. set (Fn := g ^ n * F) in *.
    assert (PF : 0 < Fn) by (apply (mag_pos 1), scale_mag, Sn).
    replace (g ^ S n * F) with (g * Fn) by (unfold Fn; cbn [pow]; ring).
    assert (PQ : 0 < Fn * / h ^ 2) by (apply Rmult_lt_0_compat; assumption).
    assert (U : 0 < uro) by apply uro_pos.
    assert (L : forall i j, (i < ny)%nat -> (j < nx)%nat -> near (lap5 ny nx dx fn i j) (lap5 ny nx h (values fn) i j) (44 * uro * Fn / h ^ 2))
      by (intros; now apply lap5_round).
    split.
    + intros i j Hi Hj. split; [apply (L i j Hi Hj)|].
      pose proof (tri _ _ _ (near_val _ _ _ (L i j Hi Hj))) as T.
      pose proof (lap5_bound (values fn) Fn i j (fun i j Hi Hj => proj2 (IB i j Hi Hj)) Hi Hj) as T2.
      apply Rle_trans with (1 := T). rewrite uro_num in *. unfold Rdiv in *. lra.
    + intros i j Hi Hj. split; [apply (L i j Hi Hj)|].
      pose proof (near_val _ _ _ (L i j Hi Hj)) as T1.
      pose proof (lap5_diff (values fn) rn _ i j (fun i j Hi Hj => near_val _ _ _ (IE i j Hi Hj)) Hi Hj) as T2.
      replace (fval (lap5 ny nx dx fn i j) - lap5 ny nx h rn i j) with
        ((fval (lap5 ny nx dx fn i j) - lap5 ny nx h (values fn) i j) + (lap5 ny nx h (values fn) i j - lap5 ny nx h rn i j)) by ring.
      apply Rle_trans with (1 := Rabs_triang _ _). apply Rle_trans with (44 * uro * Fn / h ^ 2 + 8 / h ^ 2 * (INR n * 6 * uro * Fn)); [lra|].
      rewrite S_INR. pose proof (pos_INR n) as Pn.
      assert (0 <= INR n * (uro * (Fn * / h ^ 2))) by (apply Rmult_le_pos; [exact Pn|apply Rmult_le_pos; lra]).
      assert (0 <= uro * (Fn * / h ^ 2)) by (apply Rmult_le_pos; lra). unfold Rdiv in *. lra.
Qed.

(** ** the program's functions *)
Lemma c96_gradient F f (axis : Z) : scale64 F -> bounded64 ny nx F f -> (axis = 0 \/ axis = 1)%Z ->
  exists g, np_periodic_gradient (Ok (grid ny nx f)) dx axis = Ok (Some (grid ny nx g)) /\
    nb_periodic_gradient (Ok (grid ny nx f)) dx axis = Ok (Some (grid ny nx g)) /\
    forall i j, (i < ny)%nat -> (j < nx)%nat ->
      near (g i j) ((if (axis =? 0)%Z then cdy ny h (values f) else cdx nx h (values f)) i j) (4 * uro * F / h).
Proof.
  intros SF B Ha. eexists. split; [apply (np_grad_pos ny nx dx f axis Hy Hx Ha)|].
  split; [rewrite (nb_np_grad _ _ _ Ha); apply (np_grad_pos ny nx dx f axis Hy Hx Ha)|].
  intros i j Hi Hj. destruct (axis =? 0)%Z; [now apply cdy_round|now apply cdx_round].
Qed.
Lemma c96_laplace F f (n : nat) : (forall k, (k < n)%nat -> scale64 ((8.01 / h ^ 2) ^ k * F)) -> bounded64 ny nx F f ->
  exists g, nb_periodic_laplace_N (Ok (grid ny nx f)) dx (Z.of_nat n) = Ok (grid ny nx g) /\
    np_periodic_laplace_N (Ok (grid ny nx f)) dx (Z.of_nat n) = Ok (grid ny nx g) /\
    forall i j, (i < ny)%nat -> (j < nx)%nat ->
      near (g i j) (lap_iter n ny nx h (values f) i j) (INR n * 6 * uro * ((8.01 / h ^ 2) ^ n * F)).
Proof.
  intros S B. eexists.
  assert (E : nb_periodic_laplace_N (Ok (grid ny nx f)) dx (Z.of_nat n) = Ok (grid ny nx (lap_iter n ny nx dx f))).
  { rewrite nb_periodic_laplace_N_grid by (try assumption; lia). now rewrite Nat2Z.id. }
  split; [exact E|]. split.
  - rewrite <- laplace_N_agree; [exact E|apply wf_build|reflexivity|lia].
  - now apply lap_iter_round.
Qed.
Lemma c96_bracket F G f g : scale64 F -> scale64 G -> bounded64 ny nx F f -> bounded64 ny nx G g ->
  (exists b, np_periodic_arakawa_vec (Ok (grid ny nx f)) (Ok (grid ny nx g)) dx = Ok (grid ny nx b) /\
    nb_periodic_arakawa_vec (Ok (grid ny nx f)) (Ok (grid ny nx g)) dx = Ok (grid ny nx b) /\
    nb_periodic_arakawa_stencil (Ok (grid ny nx f)) (Ok (grid ny nx g)) dx = Ok (grid ny nx b) /\
    forall i j, (i < ny)%nat -> (j < nx)%nat ->
      near (b i j) (jacobian ny nx h (values f) (values g) i j) (22 * uro * (F * G) / h ^ 2)) /\
  (exists b, (forall junk, np_periodic_arakawa junk (Ok (grid ny nx f)) (Ok (grid ny nx g)) dx = Ok (grid ny nx b)) /\
    nb_periodic_arakawa (Ok (grid ny nx f)) (Ok (grid ny nx g)) dx = Ok (grid ny nx b) /\
    forall i j, (i < ny)%nat -> (j < nx)%nat ->
      near (b i j) (jacobian ny nx h (values f) (values g) i j) (22 * uro * (F * G) / h ^ 2)).
Proof.
  intros SF SG B C. split.
  - exists (ara ny nx dx f g). split; [now apply np_periodic_arakawa_vec_grid|].
    split; [now apply np_periodic_arakawa_vec_grid|]. split; [now apply nb_periodic_arakawa_stencil_grid|].
    intros; now apply ara_round.
  - exists (ara3 ny nx dx f g). split; [intros; now apply np_periodic_arakawa_grid|]. split; [now apply nb_periodic_arakawa_grid|].
    intros; now apply ara3_round.
Qed.

(** truncation plus rounding, for the gradient of a sampled smooth field *)
Lemma cd_diff (a b : nat -> nat -> R) e i j : (forall i j, (i < ny)%nat -> (j < nx)%nat -> Rabs (a i j - b i j) <= e) ->
  (i < ny)%nat -> (j < nx)%nat -> Rabs (cdy ny h a i j - cdy ny h b i j) <= e / h /\ Rabs (cdx nx h a i j - cdx nx h b i j) <= e / h.
Proof.
  intros H Hi Hj. pose proof h_pos as Ph.
  assert (G : forall x y x' y', Rabs (x - x') <= e -> Rabs (y - y') <= e -> Rabs ((x - y) / (2 * h) - (x' - y') / (2 * h)) <= e / h).
  { intros x y x' y' H1 H2. replace ((x - y) / (2 * h) - (x' - y') / (2 * h)) with (((x - x') - (y - y')) / 2 * / h) by (field; lra).
    rewrite Rabs_mult, (Rabs_right (/ _)) by (apply Rle_ge, Rlt_le, Rinv_0_lt_compat, Ph).
    apply Rmult_le_compat_r; [apply Rlt_le, Rinv_0_lt_compat, Ph|]. rabs. }
  split; [unfold cdy|unfold cdx]; cbn [nsub nmul ndiv nofZ NumR]; apply G; apply H; auto; now apply sh_lt.
Qed.
Lemma c96_total F e f (axis : Z) M u D : scale64 F -> bounded64 ny nx F f -> (axis = 0 \/ axis = 1)%Z ->
  smooth 3 M u D -> periodic (INR ny * h) (INR nx * h) u ->
  (forall i j, (i < ny)%nat -> (j < nx)%nat -> near (f i j) (u (INR i * h) (INR j * h)) e) ->
  exists g, np_periodic_gradient (Ok (grid ny nx f)) dx axis = Ok (Some (grid ny nx g)) /\
    nb_periodic_gradient (Ok (grid ny nx f)) dx axis = Ok (Some (grid ny nx g)) /\
    forall i j, (i < ny)%nat -> (j < nx)%nat ->
      near (g i j) ((if (axis =? 0)%Z then D 1%nat 0%nat else D 0%nat 1%nat) (INR i * h) (INR j * h)) (M * h ^ 2 / 6 + (e + 4 * uro * F) / h).
Proof.
  intros SF B Ha Sm P Hf. pose proof h_pos as Ph.
  destruct (c96_gradient F f axis SF B Ha) as (g & E1 & E2 & N). exists g. split; [exact E1|]. split; [exact E2|].
  intros i j Hi Hj. pose proof (N i j Hi Hj) as Nij. split; [apply Nij|]. apply near_val in Nij.
  set (C := if (axis =? 0)%Z then cdy ny h else cdx nx h).
  assert (R1 : Rabs (C (values f) i j - C (sample h u) i j) <= e / h).
  { destruct (cd_diff (values f) (sample h u) e i j (fun i j Hi Hj => near_val _ _ _ (Hf i j Hi Hj)) Hi Hj). unfold C. destruct (axis =? 0)%Z; assumption. }
  assert (R2 : Rabs (C (sample h u) i j - (if (axis =? 0)%Z then D 1%nat 0%nat else D 0%nat 1%nat) (INR i * h) (INR j * h)) <= M * h ^ 2 / 6).
  { unfold C. destruct (axis =? 0)%Z; [now apply (cdy_smooth ny nx h)|now apply (cdx_smooth ny nx h)]. }
  assert (R0 : Rabs (fval (g i j) - C (values f) i j) <= 4 * uro * F / h) by (unfold C; destruct (axis =? 0)%Z; exact Nij).
  replace ((e + 4 * uro * F) / h) with (e / h + 4 * uro * F / h) by (field; lra). rabs.
Qed.
End T.
