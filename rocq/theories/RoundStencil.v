(** Rounding errors of the finite-difference stencils in binary64. *)
From Coq Require Import List Arith ZArith Reals Lra Lia Psatz SpecFloat Bool.
From Verif Require Import Num NdArray ModelGradients ModelArakawa Spec SpecHW GradFacts ArakawaFacts SpecRound RoundFacts.
Import List ListNotations.
Local Open Scope R_scope.

Local Notation "x ⊕ y" := (SFadd 53 1024 x y) (at level 50, left associativity).
Local Notation "x ⊖ y" := (SFsub 53 1024 x y) (at level 50, left associativity).
Local Notation "x ⊗ y" := (SFmul 53 1024 x y) (at level 40, left associativity).
Local Notation "x ⊘ y" := (SFdiv 53 1024 x y) (at level 40, left associativity).

(** small integers are exact *)
Lemma ofZ_near z : (z = 2 \/ z = 3 \/ z = 4 \/ z = 12)%Z -> near (f64_ofZ z) (IZR z) 0.
Proof.
  intros H.
  assert (E : finite64 (f64_ofZ z) /\ fval (f64_ofZ z) = IZR z).
  { destruct H as [->|[->|[->| ->]]]; (split; [split; [reflexivity|exact I]|]);
      match goal with |- fval ?x = _ => let v := eval vm_compute in x in change x with v end; cbn [fval]; unfold two;
      match goal with |- _ * powerRZ 2 (Zneg ?p) = _ =>
        change (powerRZ 2 (Zneg p)) with (/ 2 ^ Pos.to_nat p); let n := eval vm_compute in (Pos.to_nat p) in change (Pos.to_nat p) with n;
        rewrite (pow_IZR 2 n); let z := eval vm_compute in (2 ^ Z.of_nat n)%Z in change (2 ^ Z.of_nat n)%Z with z end; lra. }
  destruct E as [F E]. split; [exact F|]. rewrite E, Rminus_diag_eq by reflexivity. rewrite Rabs_R0. lra.
Qed.

Ltac rabs := repeat match goal with
  | H : Rabs ?x <= _ |- _ => apply abs_inv in H
  end; apply Rabs_le; lra.

(** ** sums *)
Section Sums.
Variables (F : R).
Hypothesis HF : 0 < F.
Hypothesis HE : eta <= uro * F / 1000000.
Hypothesis HB : 1000 * F <= big.

Ltac num := pose proof eta_pos; pose proof HE as HE'; rewrite uro_num in HE' |- * || rewrite uro_num in HE'; clear HE; lra.

Lemma diff2 x y r s : near x r 0 -> near y s 0 -> Rabs r <= F -> Rabs s <= F -> near (x ⊖ y) (r - s) (2 * uro * F).
Proof.
  intros Nx Ny Hr Hs. eapply near_mono; [apply (near_sub x y r s 0 0 (2 * F) Nx Ny)|]; [rabs|num|num].
Qed.
Lemma lapnum n w c e s rn rw rc re rs :
  near n rn 0 -> near w rw 0 -> near c rc 0 -> near e re 0 -> near s rs 0 ->
  Rabs rn <= F -> Rabs rw <= F -> Rabs rc <= F -> Rabs re <= F -> Rabs rs <= F ->
  near (n ⊕ w ⊖ f64_ofZ 4 ⊗ c ⊕ e ⊕ s) (rn + rw - 4 * rc + re + rs) (27.001 * uro * F).
Proof.
  intros Nn Nw Nc Ne Ns Hn Hw Hc He Hs.
  assert (A1 : near (n ⊕ w) (rn + rw) (2 * uro * F)).
  { eapply near_mono; [apply (near_add n w rn rw 0 0 (2 * F) Nn Nw)|]; [rabs|num|num]. }
  assert (A2 : near (f64_ofZ 4 ⊗ c) (4 * rc) (4.00001 * uro * F)).
  { eapply near_mono; [apply (near_mul (f64_ofZ 4) c 4 rc 0 0 4 F (ofZ_near 4 ltac:(lia)) Nc)|]; [rewrite Rabs_right; lra|exact Hc|num|num]. }
  assert (A3 : near (n ⊕ w ⊖ f64_ofZ 4 ⊗ c) (rn + rw - 4 * rc) (12.0001 * uro * F)).
  { eapply near_mono; [apply (near_sub _ _ _ _ _ _ (6 * F) A1 A2)|]; [rabs|num|num]. }
  assert (A4 : near (n ⊕ w ⊖ f64_ofZ 4 ⊗ c ⊕ e) (rn + rw - 4 * rc + re) (19.0002 * uro * F)).
  { eapply near_mono; [apply (near_add _ _ _ _ _ _ (7 * F) A3 Ne)|]; [rabs|num|num]. }
  eapply near_mono; [apply (near_add _ _ _ _ _ _ (8 * F) A4 Ns)|]; [rabs|num|num].
Qed.
End Sums.

Section Prods.
Variables (F G : R).
Hypothesis HF : 0 < F.
Hypothesis HG : 0 < G.
Hypothesis HEG : eta <= uro * G / 1000000.
Hypothesis HE : eta <= uro * (F * G) / 1000000.
Hypothesis HBG : 1000 * G <= big.
Hypothesis HB : 1000 * (F * G) <= big.
Local Notation Q := (F * G).
Lemma Qpos : 0 < Q.
Proof. apply Rmult_lt_0_compat; assumption. Qed.

Ltac num := pose proof eta_pos; pose proof HE as HE1; pose proof HEG as HE2; pose proof Qpos; clear HE HEG;
  rewrite uro_num in HE1, HE2 |- * || rewrite uro_num in HE1, HE2; lra.

Lemma four a b c d ra rb rc rd : near a ra 0 -> near b rb 0 -> near c rc 0 -> near d rd 0 ->
  Rabs ra <= G -> Rabs rb <= G -> Rabs rc <= G -> Rabs rd <= G ->
  near (a ⊖ b ⊕ c ⊖ d) (ra - rb + rc - rd) (9.001 * uro * G).
Proof.
  intros Na Nb Nc Nd Ha Hb Hc Hd.
  assert (A1 : near (a ⊖ b) (ra - rb) (2 * uro * G)).
  { eapply near_mono; [apply (near_sub _ _ _ _ _ _ (2 * G) Na Nb)|]; [rabs|num|num]. }
  assert (A2 : near (a ⊖ b ⊕ c) (ra - rb + rc) (5.0001 * uro * G)).
  { eapply near_mono; [apply (near_add _ _ _ _ _ _ (3 * G) A1 Nc)|]; [rabs|num|num]. }
  eapply near_mono; [apply (near_sub _ _ _ _ _ _ (4 * G) A2 Nd)|]; [rabs|num|num].
Qed.
Lemma prod4 z rz a b c d ra rb rc rd : near z rz 0 -> Rabs rz <= F -> near a ra 0 -> near b rb 0 -> near c rc 0 -> near d rd 0 ->
  Rabs ra <= G -> Rabs rb <= G -> Rabs rc <= G -> Rabs rd <= G ->
  near (z ⊗ (a ⊖ b ⊕ c ⊖ d)) (rz * (ra - rb + rc - rd)) (13.01 * uro * Q) /\ Rabs (rz * (ra - rb + rc - rd)) <= 4 * Q.
Proof.
  intros Nz Hz Na Nb Nc Nd Ha Hb Hc Hd.
  assert (M : Rabs (ra - rb + rc - rd) <= 4 * G) by rabs.
  split.
  - eapply near_mono; [apply (near_mul _ _ _ _ _ _ F (4 * G) Nz (four a b c d ra rb rc rd Na Nb Nc Nd Ha Hb Hc Hd) Hz M)|]; num.
  - rewrite Rabs_mult. replace (4 * Q) with (F * (4 * G)) by ring. apply Rmult_le_compat; auto; apply Rabs_pos.
Qed.
Lemma prod2 z rz a b ra rb : near z rz 0 -> Rabs rz <= F -> near a ra 0 -> near b rb 0 ->
  Rabs ra <= G -> Rabs rb <= G ->
  near (z ⊗ (a ⊖ b)) (rz * (ra - rb)) (4.01 * uro * Q) /\ Rabs (rz * (ra - rb)) <= 2 * Q.
Proof.
  intros Nz Hz Na Nb Ha Hb.
  assert (M : Rabs (ra - rb) <= 2 * G) by rabs.
  assert (A1 : near (a ⊖ b) (ra - rb) (2 * uro * G)).
  { eapply near_mono; [apply (near_sub _ _ _ _ _ _ (2 * G) Na Nb)|]; [rabs|num|num]. }
  split.
  - eapply near_mono; [apply (near_mul _ _ _ _ _ _ F (2 * G) Nz A1 Hz M)|]; num.
  - rewrite Rabs_mult. replace (2 * Q) with (F * (2 * G)) by ring. apply Rmult_le_compat; auto; apply Rabs_pos.
Qed.
Lemma sum8 a b c d e f g h ra rb rc rd re rf rg rh :
  near a ra (13.01 * uro * Q) /\ Rabs ra <= 4 * Q -> near b rb (13.01 * uro * Q) /\ Rabs rb <= 4 * Q ->
  near c rc (13.01 * uro * Q) /\ Rabs rc <= 4 * Q -> near d rd (13.01 * uro * Q) /\ Rabs rd <= 4 * Q ->
  near e re (4.01 * uro * Q) /\ Rabs re <= 2 * Q -> near f rf (4.01 * uro * Q) /\ Rabs rf <= 2 * Q ->
  near g rg (4.01 * uro * Q) /\ Rabs rg <= 2 * Q -> near h rh (4.01 * uro * Q) /\ Rabs rh <= 2 * Q ->
  near (a ⊖ b ⊖ c ⊕ d ⊕ e ⊕ f ⊖ g ⊖ h) (ra - rb - rc + rd + re + rf - rg - rh) (189 * uro * Q) /\
  Rabs (ra - rb - rc + rd + re + rf - rg - rh) <= 24 * Q.
Proof.
  intros [Na Ha] [Nb Hb] [Nc Hc] [Nd Hd] [Ne He] [Nf Hf] [Ng Hg] [Nh Hh]. split; [|rabs].
  assert (A1 : near (a ⊖ b) (ra - rb) (34.03 * uro * Q)).
  { eapply near_mono; [apply (near_sub _ _ _ _ _ _ (8 * Q) Na Nb)|]; [rabs|num|num]. }
  assert (A2 : near (a ⊖ b ⊖ c) (ra - rb - rc) (59.05 * uro * Q)).
  { eapply near_mono; [apply (near_sub _ _ _ _ _ _ (12 * Q) A1 Nc)|]; [rabs|num|num]. }
  assert (A3 : near (a ⊖ b ⊖ c ⊕ d) (ra - rb - rc + rd) (88.07 * uro * Q)).
  { eapply near_mono; [apply (near_add _ _ _ _ _ _ (16 * Q) A2 Nd)|]; [rabs|num|num]. }
  assert (A4 : near (a ⊖ b ⊖ c ⊕ d ⊕ e) (ra - rb - rc + rd + re) (110.09 * uro * Q)).
  { eapply near_mono; [apply (near_add _ _ _ _ _ _ (18 * Q) A3 Ne)|]; [rabs|num|num]. }
  assert (A5 : near (a ⊖ b ⊖ c ⊕ d ⊕ e ⊕ f) (ra - rb - rc + rd + re + rf) (134.11 * uro * Q)).
  { eapply near_mono; [apply (near_add _ _ _ _ _ _ (20 * Q) A4 Nf)|]; [rabs|num|num]. }
  assert (A6 : near (a ⊖ b ⊖ c ⊕ d ⊕ e ⊕ f ⊖ g) (ra - rb - rc + rd + re + rf - rg) (160.13 * uro * Q)).
  { eapply near_mono; [apply (near_sub _ _ _ _ _ _ (22 * Q) A5 Ng)|]; [rabs|num|num]. }
  eapply near_mono; [apply (near_sub _ _ _ _ _ _ (24 * Q) A6 Nh)|]; [rabs|num|num].
Qed.
Lemma prod22 a b c d ra rb rc rd : eta <= uro * F / 1000000 -> 1000 * F <= big ->
  near a ra 0 -> near b rb 0 -> near c rc 0 -> near d rd 0 ->
  Rabs ra <= F -> Rabs rb <= F -> Rabs rc <= G -> Rabs rd <= G ->
  near ((a ⊖ b) ⊗ (c ⊖ d)) ((ra - rb) * (rc - rd)) (12.01 * uro * Q) /\ Rabs ((ra - rb) * (rc - rd)) <= 4 * Q.
Proof.
  intros EF BF Na Nb Nc Nd Ha Hb Hc Hd.
  assert (M1 : Rabs (ra - rb) <= 2 * F) by rabs. assert (M2 : Rabs (rc - rd) <= 2 * G) by rabs.
  assert (A1 : near (a ⊖ b) (ra - rb) (2 * uro * F)) by (apply (diff2 F); auto).
  assert (A2 : near (c ⊖ d) (rc - rd) (2 * uro * G)) by (apply (diff2 G); auto).
  split.
  - eapply near_mono; [apply (near_mul _ _ _ _ _ _ (2 * F) (2 * G) A1 A2 M1 M2)|]; num.
  - rewrite Rabs_mult. replace (4 * Q) with (2 * F * (2 * G)) by ring. apply Rmult_le_compat; auto; apply Rabs_pos.
Qed.
Lemma sum2 a b ra rb : near a ra (12.01 * uro * Q) /\ Rabs ra <= 4 * Q -> near b rb (12.01 * uro * Q) /\ Rabs rb <= 4 * Q ->
  near (a ⊖ b) (ra - rb) (34.1 * uro * Q) /\ Rabs (ra - rb) <= 8 * Q.
Proof.
  intros [Na Ha] [Nb Hb]. split; [|rabs].
  eapply near_mono; [apply (near_sub _ _ _ _ _ _ (8 * Q) Na Nb)|]; [rabs|num|num].
Qed.
Lemma sum4 a b c d ra rb rc rd :
  near a ra (4.01 * uro * Q) /\ Rabs ra <= 2 * Q -> near b rb (4.01 * uro * Q) /\ Rabs rb <= 2 * Q ->
  near c rc (4.01 * uro * Q) /\ Rabs rc <= 2 * Q -> near d rd (4.01 * uro * Q) /\ Rabs rd <= 2 * Q ->
  near (a ⊖ b ⊖ c ⊕ d) (ra - rb - rc + rd) (34.1 * uro * Q) /\ Rabs (ra - rb - rc + rd) <= 8 * Q.
Proof.
  intros [Na Ha] [Nb Hb] [Nc Hc] [Nd Hd]. split; [|rabs].
  assert (A1 : near (a ⊖ b) (ra - rb) (12.03 * uro * Q)).
  { eapply near_mono; [apply (near_sub _ _ _ _ _ _ (4 * Q) Na Nb)|]; [rabs|num|num]. }
  assert (A2 : near (a ⊖ b ⊖ c) (ra - rb - rc) (22.05 * uro * Q)).
  { eapply near_mono; [apply (near_sub _ _ _ _ _ _ (6 * Q) A1 Nc)|]; [rabs|num|num]. }
  eapply near_mono; [apply (near_add _ _ _ _ _ _ (8 * Q) A2 Nd)|]; [rabs|num|num].
Qed.
End Prods.

(** ** denominators *)
Section Den.
Variables (dx : f64) (h : R).
Hypothesis Nd : near dx h 0.
Hypothesis Hh : mag 1 h.
Lemma hpos : 0 < h.
Proof. exact (mag_pos _ _ Hh). Qed.
Lemma h2mag : mag 2 (h ^ 2).
Proof. replace (h ^ 2) with (h * h) by ring. apply (mag_mul 1 1); assumption. Qed.
Lemma habs : Rabs h <= h.
Proof. rewrite Rabs_right; [lra|]. pose proof hpos. lra. Qed.

Ltac num := pose proof eta_pos; pose proof hpos; pose proof (mag_pos _ _ h2mag);
  pose proof (mag_tiny 1 h ltac:(lia) Hh) as E1; pose proof (mag_tiny 2 _ ltac:(lia) h2mag) as E2;
  pose proof (mag_huge 1 h ltac:(lia) Hh) as B1; pose proof (mag_huge 2 _ ltac:(lia) h2mag) as B2;
  rewrite uro_num in E1, E2 |- * || rewrite uro_num in E1, E2; lra.

Lemma den2 : near (f64_ofZ 2 ⊗ dx) (2 * h) (1.01 * uro * (2 * h)).
Proof.
  eapply near_mono; [apply (near_mul _ _ _ _ _ _ 2 h (ofZ_near 2 ltac:(lia)) Nd)|];
    [rewrite Rabs_right; lra|exact habs|num|num].
Qed.
Lemma sq : near (f64_pow dx 2) (h ^ 2) (1.001 * uro * h ^ 2).
Proof.
  replace (h ^ 2) with (h * h) by ring.
  eapply near_mono; [apply (near_mul _ _ _ _ _ _ h h Nd Nd habs habs)|]; num.
Qed.
Lemma den_sq z c : near (f64_ofZ z) c 0 -> 1 <= c <= 100 -> near (f64_ofZ z ⊗ f64_pow dx 2) (c * h ^ 2) (2.01 * uro * (c * h ^ 2)).
Proof.
  intros Nz Hc.
  assert (A : Rabs (h ^ 2) <= h ^ 2) by (rewrite Rabs_right; [lra|]; pose proof (mag_pos _ _ h2mag); lra).
  assert (C : Rabs c <= c) by (rewrite Rabs_right; lra).
  pose proof (mag_pos _ _ h2mag) as P.
  assert (P2 : 0 <= (100 - c) * h ^ 2) by (apply Rmult_le_pos; lra).
  assert (P3 : 0 <= (c - 1) * h ^ 2) by (apply Rmult_le_pos; lra).
  eapply near_mono; [apply (near_mul _ _ _ _ _ _ c (h ^ 2) Nz sq C A)|].
  - pose proof (mag_huge 2 _ ltac:(lia) h2mag) as B2; rewrite uro_num; lra.
  - pose proof (mag_tiny 2 _ ltac:(lia) h2mag) as E2; rewrite uro_num in E2 |- *; lra.
Qed.
End Den.

Local Existing Instance NumF64.
(** ** one grid point *)
Section Point.
Variables (dx : f64) (h F G : R).
Hypothesis Nd : near dx h 0.
Hypothesis Sh : mag 1 h.
Hypothesis SF : mag 1 F.
Hypothesis SG : mag 1 G.
Local Notation Q := (F * G).
Lemma hinv : mag 1 (/ h). Proof. now apply mag_inv. Qed.
Lemma h2inv : mag 2 (/ h ^ 2). Proof. apply mag_inv, h2mag, Sh. Qed.
Lemma qF : mag 2 (F / h). Proof. apply (mag_mul 1 1); [exact SF|exact hinv]. Qed.
Lemma qF2 : mag 3 (F / h ^ 2). Proof. apply (mag_mul 1 2); [exact SF|exact h2inv]. Qed.
Lemma Qm : mag 2 Q. Proof. apply (mag_mul 1 1); assumption. Qed.
Lemma qQ : mag 4 (Q / h ^ 2). Proof. apply (mag_mul 2 2); [exact Qm|exact h2inv]. Qed.
Lemma magB m t : (m <= 4)%nat -> mag m t -> 1000 * t <= big.
Proof. intros L H. pose proof (mag_huge m t L H). pose proof (mag_pos m t H). lra. Qed.

Ltac num m q := let P := fresh "P" in let E := fresh "E" in let B := fresh "B" in let H0 := fresh "Eta" in
  pose proof eta_pos as H0; pose proof (mag_pos _ _ q) as P; pose proof (mag_tiny m _ ltac:(lia) q) as E;
  pose proof (mag_huge m _ ltac:(lia) q) as B; rewrite uro_num in E |- * || rewrite uro_num in E; lra.

Lemma grad_point x y r s : near x r 0 -> near y s 0 -> Rabs r <= F -> Rabs s <= F ->
  near ((x ⊖ y) ⊘ (f64_ofZ 2 ⊗ dx)) ((r - s) / (2 * h)) (4 * uro * F / h).
Proof.
  intros Nx Ny Hr Hs. pose proof (mag_pos _ _ Sh) as Ph.
  assert (N1 : near (x ⊖ y) (r - s) (2 * uro * F)) by (apply (diff2 F); auto using (mag_pos _ _ SF), (mag_tiny 1 F ltac:(lia) SF), (magB 1 F ltac:(lia) SF)).
  replace (2 * uro * F) with (uro * (F / h * (2 * h))) in N1 by (field; lra).
  pose proof (den2 dx h Nd Sh) as N2.
  assert (M : Rabs (r - s) <= 1 * (F / h * (2 * h))) by (replace (1 * (F / h * (2 * h))) with (2 * F) by (field; lra); rabs).
  eapply near_mono; [apply (near_quot _ _ _ _ _ _ 1 _ N1 N2)|]; [lra|rewrite uro_num; lra|pose proof (mag_pos _ _ qF); lra|exact M| |].
  - num 2%nat qF.
  - replace (4 * uro * F / h) with (4 * uro * (F / h)) by (field; lra). num 2%nat qF.
Qed.
Lemma lap_point n w c e s rn rw rc re rs :
  near n rn 0 -> near w rw 0 -> near c rc 0 -> near e re 0 -> near s rs 0 ->
  Rabs rn <= F -> Rabs rw <= F -> Rabs rc <= F -> Rabs re <= F -> Rabs rs <= F ->
  near ((n ⊕ w ⊖ f64_ofZ 4 ⊗ c ⊕ e ⊕ s) ⊘ f64_pow dx 2) ((rn + rw - 4 * rc + re + rs) / h ^ 2) (44 * uro * F / h ^ 2).
Proof.
  intros Nn Nw Nc Ne Ns Hn Hw Hc He Hs. pose proof (mag_pos _ _ Sh) as Ph. pose proof (mag_pos _ _ (h2mag _ Sh)) as Ph2.
  assert (N1 : near (n ⊕ w ⊖ f64_ofZ 4 ⊗ c ⊕ e ⊕ s) (rn + rw - 4 * rc + re + rs) (27.001 * uro * F)) by (apply (lapnum F); auto using (mag_pos _ _ SF), (mag_tiny 1 F ltac:(lia) SF), (magB 1 F ltac:(lia) SF)).
  replace (27.001 * uro * F) with (27.001 * uro * (F / h ^ 2 * h ^ 2)) in N1 by (field; lra).
  pose proof (sq dx h Nd Sh) as N2.
  assert (M : Rabs (rn + rw - 4 * rc + re + rs) <= 8 * (F / h ^ 2 * h ^ 2)) by (replace (8 * (F / h ^ 2 * h ^ 2)) with (8 * F) by (field; lra); rabs).
  eapply near_mono; [apply (near_quot _ _ _ _ _ _ 8 _ N1 N2)|]; [lra|rewrite uro_num; lra|pose proof (mag_pos _ _ qF2); lra|exact M| |].
  - num 3%nat qF2.
  - replace (44 * uro * F / h ^ 2) with (44 * uro * (F / h ^ 2)) by (field; lra). num 3%nat qF2.
Qed.

Variables z p : Z -> Z -> f64.
Hypothesis Hz : forall a b, finite64 (z a b) /\ Rabs (fval (z a b)) <= F.
Hypothesis Hp : forall a b, finite64 (p a b) /\ Rabs (fval (p a b)) <= G.
Local Notation Z' := (fun a b => fval (z a b)).
Local Notation P' := (fun a b => fval (p a b)).
Lemma Nz a b : near (z a b) (Z' a b) 0. Proof. apply near_self, Hz. Qed.
Lemma Np a b : near (p a b) (P' a b) 0. Proof. apply near_self, Hp. Qed.
Lemma Bz a b : Rabs (Z' a b) <= F. Proof. apply Hz. Qed.
Lemma Bp a b : Rabs (P' a b) <= G. Proof. apply Hp. Qed.

Lemma kernel_near : near (nb_kernel (N := NumF64) z p) (nb_kernel (N := NumR) Z' P') (189 * uro * Q) /\
  Rabs (nb_kernel (N := NumR) Z' P') <= 24 * Q.
Proof.
  pose proof (mag_pos _ _ SF) as PF. pose proof (mag_pos _ _ SG) as PG.
  pose proof (mag_tiny 1 G ltac:(lia) SG) as TG. pose proof (mag_tiny 2 Q ltac:(lia) Qm) as TQ.
  pose proof (magB 1 G ltac:(lia) SG) as BG. pose proof (magB 2 Q ltac:(lia) Qm) as BQ.
  unfold nb_kernel. cbn [nadd nsub nmul NumF64 NumR].
  apply (sum8 F G); auto;
    first [apply (prod4 F G); auto using Nz, Np, Bz, Bp | apply (prod2 F G); auto using Nz, Np, Bz, Bp].
Qed.
Lemma ara_point : near (nb_kernel (N := NumF64) z p ⊘ (f64_ofZ 12 ⊗ f64_pow dx 2)) (nb_kernel (N := NumR) Z' P' / (12 * h ^ 2)) (22 * uro * Q / h ^ 2).
Proof.
  pose proof (mag_pos _ _ Sh) as Ph. pose proof (mag_pos _ _ (h2mag _ Sh)) as Ph2.
  destruct kernel_near as [N1 M].
  replace (189 * uro * Q) with (189 / 12 * uro * (Q / h ^ 2 * (12 * h ^ 2))) in N1 by (field; lra).
  pose proof (den_sq dx h Nd Sh 12 12 (ofZ_near 12 ltac:(lia)) ltac:(lra)) as N2.
  replace (24 * Q) with (2 * (Q / h ^ 2 * (12 * h ^ 2))) in M by (field; lra).
  eapply near_mono; [apply (near_quot _ _ _ _ _ _ 2 _ N1 N2)|]; [lra|rewrite uro_num; lra|pose proof (mag_pos _ _ qQ); lra|exact M| |].
  - num 4%nat qQ.
  - replace (22 * uro * Q / h ^ 2) with (22 * uro * (Q / h ^ 2)) by (field; lra). num 4%nat qQ.
Qed.

(** the three Jacobians separately *)
Lemma jq x r : near x r (34.1 * uro * Q) /\ Rabs r <= 8 * Q ->
  near (x ⊘ (f64_ofZ 4 ⊗ f64_pow dx 2)) (r / (4 * h ^ 2)) (14.6 * uro * (Q / h ^ 2)) /\ Rabs (r / (4 * h ^ 2)) <= 2 * (Q / h ^ 2).
Proof.
  intros [N1 M]. pose proof (mag_pos _ _ Sh) as Ph. pose proof (mag_pos _ _ (h2mag _ Sh)) as Ph2. split.
  - replace (34.1 * uro * Q) with (34.1 / 4 * uro * (Q / h ^ 2 * (4 * h ^ 2))) in N1 by (field; lra).
    pose proof (den_sq dx h Nd Sh 4 4 (ofZ_near 4 ltac:(lia)) ltac:(lra)) as N2.
    replace (8 * Q) with (2 * (Q / h ^ 2 * (4 * h ^ 2))) in M by (field; lra).
    eapply near_mono; [apply (near_quot _ _ _ _ _ _ 2 _ N1 N2)|]; [lra|rewrite uro_num; lra|pose proof (mag_pos _ _ qQ); lra|exact M| |].
    + num 4%nat qQ.
    + num 4%nat qQ.
  - unfold Rdiv at 1. rewrite Rabs_mult, (Rabs_right (/ _)) by (apply Rle_ge, Rlt_le, Rinv_0_lt_compat; lra).
    replace (2 * (Q / h ^ 2)) with (8 * Q * / (4 * h ^ 2)) by (field; lra).
    apply Rmult_le_compat_r; [apply Rlt_le, Rinv_0_lt_compat; lra|exact M].
Qed.
Lemma ara3_point : near (nadd (nadd (nb_jpp dx z p) (nb_jpx dx z p)) (nb_jxp dx z p) ⊘ f64_ofZ 3)
    ((nb_jpp h Z' P' + nb_jpx h Z' P' + nb_jxp h Z' P') / 3) (22 * uro * Q / h ^ 2).
Proof.
  pose proof (mag_pos _ _ SF) as PF. pose proof (mag_pos _ _ SG) as PG. pose proof (mag_pos _ _ Sh) as Ph.
  pose proof (mag_tiny 1 G ltac:(lia) SG) as TG. pose proof (mag_tiny 2 Q ltac:(lia) Qm) as TQ. pose proof (mag_tiny 1 F ltac:(lia) SF) as TF.
  pose proof (magB 1 G ltac:(lia) SG) as BG. pose proof (magB 2 Q ltac:(lia) Qm) as BQ. pose proof (magB 1 F ltac:(lia) SF) as BF.
  assert (J1 : near (nb_jpp dx z p) (nb_jpp h Z' P') (14.6 * uro * (Q / h ^ 2)) /\ Rabs (nb_jpp h Z' P') <= 2 * (Q / h ^ 2)).
  { unfold nb_jpp, four_dx2. cbn [nadd nsub nmul ndiv nofZ npow NumF64 NumR]. apply jq. apply (sum2 F G); auto; apply (prod22 F G); auto using Nz, Np, Bz, Bp. }
  assert (J2 : near (nb_jpx dx z p) (nb_jpx h Z' P') (14.6 * uro * (Q / h ^ 2)) /\ Rabs (nb_jpx h Z' P') <= 2 * (Q / h ^ 2)).
  { unfold nb_jpx, four_dx2. cbn [nadd nsub nmul ndiv nofZ npow NumF64 NumR]. apply jq. apply (sum4 F G); auto; apply (prod2 F G); auto using Nz, Np, Bz, Bp. }
  assert (J3 : near (nb_jxp dx z p) (nb_jxp h Z' P') (14.6 * uro * (Q / h ^ 2)) /\ Rabs (nb_jxp h Z' P') <= 2 * (Q / h ^ 2)).
  { unfold nb_jxp, four_dx2. cbn [nadd nsub nmul ndiv nofZ npow NumF64 NumR]. apply jq. apply (sum4 F G); auto; apply (prod2 F G); auto using Nz, Np, Bz, Bp. }
  cbn [nadd NumF64]. revert J1 J2 J3.
  generalize (nb_jpp dx z p) (nb_jpp h Z' P') (nb_jpx dx z p) (nb_jpx h Z' P') (nb_jxp dx z p) (nb_jxp h Z' P').
  intros a ra b rb c rc [Na Ha] [Nb Hb] [Nc Hc].
  assert (A1 : near (a ⊕ b) (ra + rb) (33.3 * uro * (Q / h ^ 2))).
  { eapply near_mono; [apply (near_add _ _ _ _ _ _ (4 * (Q / h ^ 2)) Na Nb)|]; [rabs|num 4%nat qQ|num 4%nat qQ]. }
  assert (A2 : near (a ⊕ b ⊕ c) (ra + rb + rc) (54 / 3 * uro * (Q / h ^ 2 * 3))).
  { eapply near_mono; [apply (near_add _ _ _ _ _ _ (6 * (Q / h ^ 2)) A1 Nc)|]; [rabs|num 4%nat qQ|num 4%nat qQ]. }
  assert (M : Rabs (ra + rb + rc) <= 2 * (Q / h ^ 2 * 3)) by rabs.
  assert (N2 : near (f64_ofZ 3) 3 (0 * 3)) by (rewrite Rmult_0_l; apply (ofZ_near 3); lia).
  eapply near_mono; [apply (near_quot _ _ _ _ _ _ 2 _ A2 N2)|]; [lra|lra|pose proof (mag_pos _ _ qQ); lra|exact M| |].
  - num 4%nat qQ.
  - replace (22 * uro * Q / h ^ 2) with (22 * uro * (Q / h ^ 2)) by (field; lra). num 4%nat qQ.
Qed.
End Point.
