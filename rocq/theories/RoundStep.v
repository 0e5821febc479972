(** Rounding errors of one Runge-Kutta step in binary64. *)
From Coq Require Import List Arith ZArith Reals Lra Lia Psatz SpecFloat Bool String.
From Verif Require Import Num NdArray NdFacts ModelGradients ModelArakawa ModelProperties ModelHW ModelBackend ModelSchemes Spec SpecHW
  GradFacts ArakawaFacts LapFacts HWFacts SpecRound RoundFacts RoundStencil RoundTop RoundHW SpecRoundStep RoundReal RoundEval.
Import List ListNotations.
Local Open Scope R_scope.
Local Existing Instance NumF64.
Local Notation "x ⊕ y" := (SFadd 53 1024 x y) (at level 50, left associativity).
Local Notation "x ⊗ y" := (SFmul 53 1024 x y) (at level 40, left associativity).
Local Notation "x ⊘ y" := (SFdiv 53 1024 x y) (at level 40, left associativity).

Lemma near_move x r r' e e' : near x r e -> Rabs (r - r') <= e' -> near x r' (e + e').
Proof.
  intros [F H] D. split; [exact F|]. replace (fval x - r') with ((fval x - r) + (r - r')) by ring.
  apply Rle_trans with (1 := Rabs_triang _ _). lra.
Qed.

(** ** the scalar operations of a step *)
Section Cell.
Variables (B K : R).
Hypothesis SB : scale64 B.
Hypothesis PK : 0 <= K.
Hypothesis KB : K <= B.
Local Notation U := (uro * B).
Lemma cell_facts : 0 < B /\ 0 < U /\ U <= / 1000000000000 * B /\ eta <= / 1000000 * U /\ 1000000 * B <= big.
Proof.
  pose proof (scale_mag _ SB) as M. pose proof (mag_pos _ _ M) as PB. pose proof uro_pos. pose proof uro_small.
  split; [exact PB|]. split; [now apply Rmult_lt_0_compat|]. split; [apply Rmult_le_compat_r; lra|].
  split; [pose proof (mag_tiny 1 _ ltac:(lia) M); lra|exact (mag_huge 1 _ ltac:(lia) M)].
Qed.

Ltac scl c := match goal with Pu : 0 < uro |- _ => let c' := fresh in pose proof c as c'; apply Rmult_le_compat_l with (r := uro) in c'; [|lra] end.

Lemma half_near k f kap : near k f kap -> Rabs f <= K -> kap <= B / 10 -> near (half ⊗ k) (/ 2 * f) (kap / 2 + 0.56 * U).
Proof.
  intros Nk Hf Hk. pose proof cell_facts as (PB & PU & SU & SE & BB). pose proof (near_err _ _ _ Nk) as P0. pose proof uro_pos as Pu.
  assert (Nh : near half (/ 2) 0).
  { split; [split; [vm_compute; reflexivity|exact I]|]. replace (fval half) with (/ 2); [rewrite Rminus_diag_eq, Rabs_R0 by reflexivity; lra|].
    unfold half. replace (ndiv (nofZ 1) (nofZ 2)) with (S754_finite false 4503599627370496 (-53)) by (vm_compute; reflexivity).
    unfold fval, two. cbn [powerRZ]. replace (Pos.to_nat 53) with 53%nat by reflexivity. lra. }
  assert (C : / 2 * kap + / 2 * K <= 0.55 * B) by lra. scl C.
  eapply near_mono; [apply (near_mul half k (/ 2) f 0 kap (/ 2) K Nh Nk); [rewrite Rabs_right; lra|exact Hf|lra]|]. lra.
Qed.
Lemma twice_near k f kap : near k f kap -> Rabs f <= K -> kap <= B / 10 -> near (f64_ofZ 2 ⊗ k) (2 * f) (2 * kap + 2.3 * U).
Proof.
  intros Nk Hf Hk. pose proof cell_facts as (PB & PU & SU & SE & BB). pose proof (near_err _ _ _ Nk) as P0. pose proof uro_pos as Pu.
  assert (C : 2 * kap + 2 * K <= 2.2 * B) by lra. scl C.
  eapply near_mono; [apply (near_mul (f64_ofZ 2) k 2 f 0 kap 2 K (ofZ_near 2 ltac:(auto)) Nk); [rewrite Rabs_right; lra|exact Hf|lra]|]. lra.
Qed.
Lemma plus_near x y r s e d m c : near x r e -> near y s d -> Rabs (r + s) <= m -> m + e + d <= c * B -> c <= 10 ->
  near (x ⊕ y) (r + s) (e + d + c * U).
Proof.
  intros Nx Ny Hm Hc Lc. pose proof cell_facts as (PB & PU & SU & SE & BB). pose proof uro_pos as Pu.
  assert (c * B <= 10 * B) by (apply Rmult_le_compat_r; lra).
  scl Hc. eapply near_mono; [apply (near_add x y r s e d m Nx Ny Hm); lra|]. lra.
Qed.
Lemma sixth_near s f e : near s f e -> Rabs f <= 6 * K -> e <= B -> near ((f64_ofZ 1 ⊘ f64_ofZ 6) ⊗ s) (/ 6 * f) (e / 6 + 2.7 * U).
Proof.
  intros Ns Hf He. pose proof cell_facts as (PB & PU & SU & SE & BB). pose proof (near_err _ _ _ Ns) as P0. pose proof uro_pos as Pu. pose proof uro_small as Us.
  assert (N6 : near (f64_ofZ 1 ⊘ f64_ofZ 6) (/ 6) (uro / 5)).
  { replace (f64_ofZ 1 ⊘ f64_ofZ 6) with (S754_finite false 6004799503160661 (-55)) by (vm_compute; reflexivity).
    split; [split; [vm_compute; reflexivity|exact I]|]. unfold fval, two. cbn [powerRZ]. replace (Pos.to_nat 55) with 55%nat by reflexivity.
    rewrite uro_num. apply Rabs_le. lra. }
  assert (C1 : 6 * K * (uro / 5) <= 6 * B * (uro / 5)) by (apply Rmult_le_compat_r; lra).
  assert (C2 : uro / 5 * e <= uro / 5 * B) by (apply Rmult_le_compat_l; lra).
  assert (C3 : / 6 * (6 * K) <= B) by lra. scl C3.
  assert (C4 : / 6 * e + 6 * K * (uro / 5) + uro / 5 * e <= 0.2 * B) by lra.
  eapply near_mono; [apply (near_mul _ s (/ 6) f (uro / 5) e (/ 6) (6 * K) N6 Ns); [rewrite Rabs_right; lra|exact Hf|lra]|].
  scl C4. lra.
Qed.

Variables (y : f64) (B0 : R).
Hypothesis Fy : finite64 y.
Hypothesis By : Rabs (fval y) <= B0.
Hypothesis HB0 : B0 + K <= B.
(** stage values, and the step *)
Lemma stage_half k f kap : near k f kap -> Rabs f <= K -> kap <= B / 10 -> near ((half ⊗ k) ⊕ y) (fval y + / 2 * f) (kap / 2 + 1.7 * U).
Proof.
  intros Nk Hf Hk. pose proof cell_facts as (PB & PU & SU & SE & BB). pose proof (near_err _ _ _ Nk) as P0.
  eapply near_mono; [eapply near_eq; [apply (plus_near _ _ _ _ _ _ B 1.06 (half_near k f kap Nk Hf Hk) (near_self _ Fy))|ring]|]; try lra.
  rabs.
Qed.
Lemma stage_full k f kap : near k f kap -> Rabs f <= K -> kap <= B / 10 -> near (k ⊕ y) (fval y + f) (kap + 1.7 * U).
Proof.
  intros Nk Hf Hk. pose proof cell_facts as (PB & PU & SU & SE & BB). pose proof (near_err _ _ _ Nk) as P0.
  eapply near_mono; [eapply near_eq; [apply (plus_near _ _ _ _ _ _ B 1.2 Nk (near_self _ Fy))|ring]|]; try lra.
  rabs.
Qed.
Lemma step_near k1 k2 k3 k4 f1 f2 f3 f4 q1 q2 q3 q4 : near k1 f1 q1 -> near k2 f2 q2 -> near k3 f3 q3 -> near k4 f4 q4 ->
  Rabs f1 <= K -> Rabs f2 <= K -> Rabs f3 <= K -> Rabs f4 <= K -> q1 <= B / 10 -> q2 <= B / 10 -> q3 <= B / 10 -> q4 <= B / 10 ->
  near (((f64_ofZ 1 ⊘ f64_ofZ 6) ⊗ (k4 ⊕ ((f64_ofZ 2 ⊗ k3) ⊕ ((f64_ofZ 2 ⊗ k2) ⊕ k1)))) ⊕ y) (fval y + / 6 * (f1 + 2 * f2 + 2 * f3 + f4))
    ((q1 + 2 * q2 + 2 * q3 + q4) / 6 + 7.4 * U).
Proof.
  intros N1 N2 N3 N4 H1 H2 H3 H4 Q1 Q2 Q3 Q4. pose proof cell_facts as (PB & PU & SU & SE & BB).
  pose proof (near_err _ _ _ N1). pose proof (near_err _ _ _ N2). pose proof (near_err _ _ _ N3). pose proof (near_err _ _ _ N4).
  pose proof (plus_near _ _ _ _ _ _ (3 * K) 3.4 (twice_near _ _ _ N2 H2 Q2) N1 ltac:(rabs) ltac:(lra) ltac:(lra)) as A1.
  pose proof (plus_near _ _ _ _ _ _ (5 * K) 5.6 (twice_near _ _ _ N3 H3 Q3) A1 ltac:(rabs) ltac:(lra) ltac:(lra)) as A2.
  pose proof (plus_near _ _ _ _ _ _ (6 * K) 6.7 N4 A2 ltac:(rabs) ltac:(lra) ltac:(lra)) as A3.
  match type of A3 with near _ ?r ?e => assert (A4 : near (k4 ⊕ ((f64_ofZ 2 ⊗ k3) ⊕ ((f64_ofZ 2 ⊗ k2) ⊕ k1))) (f1 + 2 * f2 + 2 * f3 + f4) (q1 + 2 * q2 + 2 * q3 + q4 + 20.3 * U))
    by (eapply near_mono; [eapply near_eq; [exact A3|ring]|lra]) end.
  pose proof (sixth_near _ _ _ A4 ltac:(rabs) ltac:(lra)) as A5.
  eapply near_mono; [eapply near_eq; [apply (plus_near _ _ _ _ _ _ B 1.2 A5 (near_self _ Fy))|ring]|]; try lra.
  rabs.
Qed.
End Cell.

Section Step.
Variables (ny nx : nat) (dx : f64).
Hypothesis Hy : (0 < ny)%nat.
Hypothesis Hx : (0 < nx)%nat.
Hypothesis Fd : finite64 dx.
Hypothesis Sd : scale64 (fval dx).
Local Notation h := (fval dx).
Variables (solver : nd f64 -> f64 -> nd f64) (b : backend f64) (dx0 : f64) (N : nat) (c1 nu pb kap : f64) (zon : bool).
Hypothesis Hb : b = np_schemes solver \/ b = nb_schemes solver.
Hypothesis F1 : finite64 c1.
Hypothesis F2 : finite64 nu.
Hypothesis F3 : finite64 pb.
Hypothesis F4 : finite64 kap.
Hypothesis HN : INR N <= 1000000.
Hypothesis Hny : zon = true -> INR ny <= 1000000.
Local Notation p := (mkPar N (fval c1) (fval nu) (fval pb) (fval kap) zon).
Local Notation hw_ := (hw_init b dx0 (Z.of_nat N) c1 nu pb kap zon false).
Local Notation g := (8.01 / h ^ 2).
Variables (Lam B P S d : R).
Hypothesis HLp : 0 <= Lam.
Hypothesis HLam : inv_bound ny nx h Lam.
Hypothesis SB : scale64 B.
Hypothesis SP : scale64 P.
Hypothesis SS : scale64 S.
Hypothesis Sg : forall k, (k < N)%nat -> scale64 (g ^ k * B).
Hypothesis HP : Lam * B <= P.
Hypothesis HS : size_n p h P B <= S.
Hypothesis Hd : 0 <= d <= P / 1000.
Hypothesis Hsol : solves64 ny nx dx (fun om dx => snd (hw_get_phi hw_ om dx)) B P d.
Variable dt : f64.
Hypothesis Fdt : finite64 dt.
Hypothesis Sdt : scale64 (fval dt).
Local Notation t := (fval dt).
Local Notation F := (hw_rhs p ny nx h).
Local Notation G := (rhs_err p ny h d B S).
Local Notation vals n o := (values n, values o).
Local Notation K := (t * S).

Lemma step_facts : 0 < h /\ 0 < t /\ 0 < B /\ 0 < P /\ 0 < S /\ 0 <= phi_err p h d B <= S / 1000 /\ 0 <= G <= S / 500 /\
  roundings p ny * uro <= / 1000000 /\ eta <= / 1000000 * (uro * K) /\ 1000000 * K <= big.
Proof.
  assert (Ph : 0 < h) by (apply (mag_pos 1), scale_mag, Sd). assert (Pt : 0 < t) by (apply (mag_pos 1), scale_mag, Sdt).
  assert (PB : 0 < B) by (apply (mag_pos 1), scale_mag, SB). assert (PP : 0 < P) by (apply (mag_pos 1), scale_mag, SP).
  assert (PS : 0 < S) by (apply (mag_pos 1), scale_mag, SS). pose proof uro_pos as Pu.
  assert (I2 : 0 < / h ^ 2) by (apply Rinv_0_lt_compat, pow_lt, Ph). assert (I1 : 0 < / h) by (apply Rinv_0_lt_compat, Ph).
  assert (Q : 0 <= phi_err p h d B <= S / 1000).
  { unfold phi_err. unfold size_n, size_c in HS. cbn [pN pc1 pnu ppb pkap pzon] in *.
    pose proof (Rabs_pos (fval c1)) as A1. pose proof (Rabs_pos (fval pb)) as A2. pose proof (Rabs_pos (fval kap)) as A3. pose proof (Rabs_pos (fval nu)) as A4.
    assert (Z : 0 < (if zon then 2 else 1)) by (destruct zon; lra). set (z := if zon then 2 else 1) in *. clearbody z.
    assert (E1 : 0 <= Rabs (fval c1) * (z * d) <= Rabs (fval c1) * (z * (P + B)) / 1000).
    { split; [repeat apply Rmult_le_pos; lra|]. unfold Rdiv at 1. rewrite Rmult_assoc. apply Rmult_le_compat_l; [exact A1|].
      rewrite Rmult_assoc. apply Rmult_le_compat_l; lra. }
    assert (E2 : 0 <= Rabs (fval pb) * (2 * (d * B) / h ^ 2) <= Rabs (fval pb) * (2 * (P * B) / h ^ 2) / 1000).
    { assert (D : 0 <= d * B <= P / 1000 * B) by (split; [apply Rmult_le_pos|apply Rmult_le_compat_r]; lra).
      split; [apply Rmult_le_pos; [exact A2|apply Rmult_le_pos; lra]|]. unfold Rdiv at 2. rewrite Rmult_assoc. apply Rmult_le_compat_l; [exact A2|].
      replace (2 * (P * B) / h ^ 2 * / 1000) with (2 * (P / 1000 * B) * / h ^ 2) by (unfold Rdiv; ring). apply Rmult_le_compat_r; lra. }
    assert (E3 : 0 <= Rabs (fval kap) * (d / h) <= Rabs (fval kap) * (P / h) / 1000).
    { split; [apply Rmult_le_pos; [exact A3|apply Rmult_le_pos; lra]|]. unfold Rdiv at 2. rewrite Rmult_assoc. apply Rmult_le_compat_l; [exact A3|].
      replace (P / h * / 1000) with (P / 1000 * / h) by (unfold Rdiv; ring). apply Rmult_le_compat_r; lra. }
    assert (E4 : 0 <= Rabs (fval nu) * (g ^ N * B)).
    { repeat apply Rmult_le_pos; try lra. apply pow_le. unfold Rdiv. lra. }
    lra. }
  assert (Rn : 16 <= roundings p ny <= 8000000).
  { unfold roundings. cbn [pN pzon]. pose proof (pos_INR N). pose proof (pos_INR ny). destruct zon; [specialize (Hny eq_refl)|]; lra. }
  assert (Ru : roundings p ny * uro <= / 1000000) by (rewrite uro_num; lra).
  assert (RS : 0 <= (roundings p ny + 2.1) * uro * S <= / 100000 * S).
  { split; [apply Rmult_le_pos; [apply Rmult_le_pos|]; lra|]. apply Rmult_le_compat_r; [lra|]. rewrite uro_num in *. lra. }
  pose proof (mag_mul 1 1 _ _ (scale_mag _ Sdt) (scale_mag _ SS)) as MK.
  repeat (split; [assumption || (unfold rhs_err; lra)|]).
  split; [pose proof (mag_tiny 2 _ ltac:(lia) MK); lra|exact (mag_huge 2 _ ltac:(lia) MK)].
Qed.
Lemma size_mono : size_n p h (Lam * B) B <= S.
Proof.
  destruct step_facts as (Ph & Pt & PB & PP & PS & _). eapply Rle_trans; [|exact HS]. unfold size_n, size_c.
  assert (I2 : 0 < / h ^ 2) by (apply Rinv_0_lt_compat, pow_lt, Ph). assert (I1 : 0 < / h) by (apply Rinv_0_lt_compat, Ph).
  repeat apply Rplus_le_compat; try apply Rle_refl; (apply Rmult_le_compat_l; [apply Rabs_pos|]).
  - destruct zon; cbn [pzon]; lra.
  - unfold Rdiv. apply Rmult_le_compat_r; [lra|]. assert (Lam * B * B <= P * B) by (apply Rmult_le_compat_r; lra). lra.
  - unfold Rdiv. apply Rmult_le_compat_r; lra.
Qed.
Lemma F_le n o : sbdd ny nx B (n, o) -> forall i j, (i < ny)%nat -> (j < nx)%nat ->
  Rabs (fst (F (n, o)) i j) <= S /\ Rabs (snd (F (n, o)) i j) <= S.
Proof.
  intros H i j Hi Hj. destruct step_facts as (Ph & _).
  destruct (F_size p ny nx h Hy Hx Ph Lam B HLam (n, o) H) as [A C]. pose proof size_mono.
  split; [specialize (A i j Hi Hj)|specialize (C i j Hi Hj)]; lra.
Qed.

Definition pot (phi o : nat -> nat -> f64) : Prop := bounded64 ny nx P phi /\
  forall i j, (i < ny)%nat -> (j < nx)%nat -> near (phi i j) (invlap ny nx h (values o) i j) d.

Lemma kstage phi n o : pot phi o -> bounded64 ny nx B n -> bounded64 ny nx B o -> forall i j, (i < ny)%nat -> (j < nx)%nat ->
  near (kn ny nx dx dt N c1 nu pb kap zon phi n i j) (t * fst (F (vals n o)) i j) (t * G) /\
  near (ko ny nx dx dt N c1 nu pb zon phi n o i j) (t * snd (F (vals n o)) i j) (t * G).
Proof.
  intros [Bp Np] Bn Bo i j Hi Hj. destruct step_facts as (Ph & Pt & PB & PP & PS & Pe & PG & Ru & SE & KB).
  pose proof uro_pos as Pu.
  assert (SZ : size_o p h P B B <= S).
  { eapply Rle_trans; [|exact HS]. unfold size_o, size_n. 
    assert (0 <= Rabs (pkap p) * (P / h)) by (apply Rmult_le_pos; [apply Rabs_pos|apply Rlt_le, Rdiv_lt_0_compat; lra]). lra. }
  pose proof (g_n_near ny nx dx Hy Hx Fd Sd N c1 nu pb kap zon F1 F2 F3 F4 HN Hny phi n P B SP SB Bp Bn S SS i j Hi Hj HS Sg) as Nn.
  pose proof (g_o_near ny nx dx Hy Hx Fd Sd N c1 nu pb kap zon F1 F2 F3 HN Hny phi n o P B B SP SB SB Bp Bn Bo S SS i j Hi Hj SZ Sg) as No.
  assert (D : bdd ny nx d (fdif (values phi) (invlap ny nx h (values o)))) by (intros a e Ha He; apply (Np a e Ha He)).
  assert (Bn' : bdd ny nx B (values n)) by (intros a e Ha He; apply (Bn a e Ha He)).
  assert (Bo' : bdd ny nx B (values o)) by (intros a e Ha He; apply (Bo a e Ha He)).
  destruct (rhs_phi p ny nx h Hy Hx Ph Lam B HLam d (values phi) (values n) (values o) D Bn' Bo' i j Hi Hj) as [R1 R2]. cbn [fst snd] in R1, R2.
  destruct (F_le (values n) (values o) (conj Bn' Bo') i j Hi Hj) as [L1 L2].
  pose proof (near_move _ _ _ _ _ Nn R1) as M1. pose proof (near_move _ _ _ _ _ No R2) as M2.
  assert (X : forall x r, near x r (roundings p ny * uro * S + phi_err p h d B) -> Rabs r <= S -> near (SFmul 53 1024 dt x) (t * r) (t * G)).
  { intros x r Nx Hr. set (e := roundings p ny * uro * S + phi_err p h d B) in *.
    assert (Le : e <= S / 900) by (assert (roundings p ny * uro * S <= / 1000000 * S) by (apply Rmult_le_compat_r; lra); unfold e; lra).
    assert (P0 : 0 <= e) by (apply (near_err _ _ _ Nx)).
    assert (Ke : t * e <= t * (S / 900)) by (apply Rmult_le_compat_l; lra).
    assert (Kp : 0 < K) by (now apply Rmult_lt_0_compat).
    assert (Uk : uro * (t * e) <= uro * (t * (S / 900))) by (apply Rmult_le_compat_l; lra).
    assert (Ukp : 0 < uro * K) by (now apply Rmult_lt_0_compat).
    eapply near_mono; [apply (near_mul dt x t r 0 e t S (near_self _ Fdt) Nx)|]; try lra.
    - rewrite Rabs_right; lra.
    - unfold rhs_err. unfold e in *. lra. }
  split; apply X; assumption.
Qed.

(** ** one step *)
Section One.
Variable B0 : R.
Hypothesis HB0 : 1.001 * B0 + 1.1 * K <= B.
Hypothesis HtL : t * lip p h Lam B <= 1.
Variables (n o phi : nat -> nat -> f64).
Hypothesis Bn : bounded64 ny nx B0 n.
Hypothesis Bo : bounded64 ny nx B0 o.
Hypothesis Bphi : pot phi o.

Lemma b0_pos : 0 <= B0.
Proof. destruct (Bn 0%nat 0%nat Hy Hx) as [_ H]. pose proof (Rabs_pos (fval (n 0%nat 0%nat))). lra. Qed.
Lemma margin e : e <= K / 50 + 10 * (uro * B) -> B0 + K + e <= B.
Proof.
  intros He. pose proof b0_pos. pose proof (cell_facts B SB) as (PB & PU & SU & _). destruct step_facts as (_ & Pt & _ & _ & PS & _).
  assert (0 < K) by (now apply Rmult_lt_0_compat). lra.
Qed.
Lemma exact_ok : let y := vals n o in sbdd ny nx B y /\
  sbdd ny nx B (st1 p ny nx h t y) /\ sbdd ny nx B (st2 p ny nx h t y) /\ sbdd ny nx B (st3 p ny nx h t y).
Proof.
  destruct step_facts as (Ph & Pt & PB & _ & PS & _). pose proof size_mono as Sm. pose proof b0_pos.
  assert (0 < K) by (now apply Rmult_lt_0_compat).
  apply (st_all p ny nx h Hy Hx Ph Lam B HLam t K B0); try lra.
  - apply Rmult_le_compat_l; lra.
  - split; intros i j Hi Hj; [apply (Bn i j Hi Hj)|apply (Bo i j Hi Hj)].
Qed.
Lemma tF_le (y : state) i j : sbdd ny nx B y -> (i < ny)%nat -> (j < nx)%nat -> Rabs (t * fst (F y) i j) <= K /\ Rabs (t * snd (F y) i j) <= K.
Proof.
  intros H Hi Hj. destruct y as [a e]. destruct (F_le a e H i j Hi Hj) as [A C]. destruct step_facts as (_ & Pt & _).
  rewrite !Rabs_mult, (Rabs_right t) by lra. split; apply Rmult_le_compat_l; lra.
Qed.

(** a later stage: the stage values are [e]-close to the exact ones *)
Lemma kstage_at q1 q2 qp (y : state) e : pot qp q2 -> bounded64 ny nx B q1 -> bounded64 ny nx B q2 -> sbdd ny nx B y ->
  within ny nx e (vals q1 q2) y -> forall i j, (i < ny)%nat -> (j < nx)%nat ->
  near (kn ny nx dx dt N c1 nu pb kap zon qp q1 i j) (t * fst (F y) i j) (t * G + e) /\
  near (ko ny nx dx dt N c1 nu pb zon qp q1 q2 i j) (t * snd (F y) i j) (t * G + e).
Proof.
  intros Hq Hq1 Hq2 Hyb W i j Hi Hj. destruct step_facts as (Ph & Pt & PB & _).
  assert (Hs : sbdd ny nx B (vals q1 q2)) by (split; intros a c Ha Hc; [apply (Hq1 a c Ha Hc)|apply (Hq2 a c Ha Hc)]).
  destruct (kstage qp q1 q2 Hq Hq1 Hq2 i j Hi Hj) as [A C].
  destruct (F_lip p ny nx h Hy Hx Ph Lam B HLam e (vals q1 q2) y Hs Hyb W i j Hi Hj) as [D1 D2].
  assert (Pe : 0 <= e) by (eapply Rle_trans; [apply Rabs_pos|apply (W i j Hi Hj)]).
  assert (Q : t * (lip p h Lam B * e) <= e) by (rewrite <- Rmult_assoc; rewrite <- (Rmult_1_l e) at 2; apply Rmult_le_compat_r; assumption).
  assert (X : forall u v, Rabs (u - v) <= lip p h Lam B * e -> Rabs (t * u - t * v) <= e).
  { intros u v Hu. rewrite <- Rmult_minus_distr_l, Rabs_mult, (Rabs_right t) by lra.
    eapply Rle_trans; [apply Rmult_le_compat_l; [lra|exact Hu]|exact Q]. }
  split; (eapply near_move; [eassumption|apply X; assumption]).
Qed.
Lemma close_bd (q : nat -> nat -> f64) r e : (forall i j, (i < ny)%nat -> (j < nx)%nat -> near (q i j) (r i j) e) ->
  (forall i j, (i < ny)%nat -> (j < nx)%nat -> Rabs (r i j) <= B0 + K) -> e <= K / 50 + 10 * (uro * B) -> bounded64 ny nx B q.
Proof.
  intros Nq Hr He i j Hi Hj. destruct (Nq i j Hi Hj) as [Fq Hq]. split; [exact Fq|]. apply tri in Hq. specialize (Hr i j Hi Hj).
  pose proof (margin e He). lra.
Qed.
Lemma pots q : bounded64 ny nx B q -> exists qp, getp ny nx dx b dx0 N c1 nu pb kap zon q qp /\ pot qp q.
Proof. intros Hq. destruct (Hsol q Hq) as (qp & E & A & C). exists qp. split; [exact E|]. split; assumption. Qed.

Lemma rk4_round pl a : holds ny nx pl n o phi a -> exists lg pl' n' o' phi',
  rk4_step hw_ pl dt dx = (lg, Ok pl') /\ holds ny nx pl' n' o' phi' (nadd a dt) /\ bounded64 ny nx B n' /\ bounded64 ny nx B o' /\ pot phi' o' /\
  forall i j, (i < ny)%nat -> (j < nx)%nat ->
    near (n' i j) (fst (rk4 F t (vals n o)) i j) (step_err p ny h d B S t) /\
    near (o' i j) (snd (rk4 F t (vals n o)) i j) (step_err p ny h d B S t).
Proof.
  intros Hpl. destruct step_facts as (Ph & Pt & PB & PP & PS & Pe & PG & Ru & SE & KBig).
  assert (Kp : 0 < K) by (now apply Rmult_lt_0_compat). pose proof b0_pos as P0.
  destruct exact_ok as (Y0 & Y1 & Y2 & Y3). set (y := vals n o) in *.
  pose proof (cell_facts B SB) as (_ & PU & SU & SE' & BB). set (U := uro * B) in *.
  assert (KB : K <= B) by lra. assert (B0K : B0 + K <= B) by lra.
  assert (T0 : 0 <= t * G <= K / 500) by (split; [apply Rmult_le_pos; lra|]; replace (K / 500) with (t * (S / 500)) by field; apply Rmult_le_compat_l; lra).
  set (T := t * G) in *.
  assert (Bn1 : bounded64 ny nx B n) by (intros i j Hi Hj; destruct (Bn i j Hi Hj); split; [assumption|lra]).
  assert (Bo1 : bounded64 ny nx B o) by (intros i j Hi Hj; destruct (Bo i j Hi Hj); split; [assumption|lra]).
  (* the exact stage values, cell by cell *)
  assert (V : forall c c' (z : state) i j, c' = c * t ->
    fst (sadd y (sscale c' (F z))) i j = fval (n i j) + c * (t * fst (F z) i j) /\
    snd (sadd y (sscale c' (F z))) i j = fval (o i j) + c * (t * snd (F z) i j)).
  { intros c c' z i j ->. rewrite <- !Rmult_assoc. split; reflexivity. }
  assert (ST : forall c c' (z : state) i j, c' = c * t -> 0 <= c <= 1 -> sbdd ny nx B z -> (i < ny)%nat -> (j < nx)%nat ->
    Rabs (fst (sadd y (sscale c' (F z))) i j) <= B0 + K /\ Rabs (snd (sadd y (sscale c' (F z))) i j) <= B0 + K).
  { intros c c' z i j Ec Hc Hz Hi Hj. destruct (V c c' z i j Ec) as [-> ->].
    destruct (tF_le z i j Hz Hi Hj) as [A C]. destruct (Bn i j Hi Hj) as [_ D]. destruct (Bo i j Hi Hj) as [_ E].
    generalize dependent (t * fst (F z) i j). generalize dependent (t * snd (F z) i j). intros v C u A.
    assert (Mc : forall x, Rabs x <= K -> Rabs (c * x) <= K).
    { intros x Hx'. rewrite Rabs_mult, (Rabs_right c) by lra. pose proof (Rabs_pos x). nra. }
    apply Mc in A, C. split; (eapply Rle_trans; [apply Rabs_triang|lra]). }
  assert (E2 : t / 2 = / 2 * t) by field. assert (E1 : t = 1 * t) by ring.
  (* stage 1 *)
  set (n1 := kn ny nx dx dt N c1 nu pb kap zon phi n). set (o1 := ko ny nx dx dt N c1 nu pb zon phi n o).
  pose proof (kstage phi n o Bphi Bn1 Bo1) as K1. fold n1 o1 y T in K1.
  set (yn1 := fpl n (fsc half n1)). set (yo1 := fpl o (fsc half o1)).
  assert (N1 : forall i j, (i < ny)%nat -> (j < nx)%nat -> near (yn1 i j) (fst (sadd y (sscale (t / 2) (F y))) i j) (T / 2 + 1.7 * U) /\
                                                          near (yo1 i j) (snd (sadd y (sscale (t / 2) (F y))) i j) (T / 2 + 1.7 * U)).
  { intros i j Hi Hj. destruct (K1 i j Hi Hj) as [A C]. destruct (tF_le _ i j Y0 Hi Hj) as [L1 L2].
    destruct (Bn i j Hi Hj) as [Fn Ln]. destruct (Bo i j Hi Hj) as [Fo Lo].
    destruct (V (/ 2) (t / 2) y i j E2) as [-> ->].
    clear - A C L1 L2 Fn Fo Ln Lo Kp KB SB B0K T0 SU PU. 
    generalize dependent (t * fst (F y) i j). generalize dependent (t * snd (F y) i j). intros v C L2 u A L1.
    split; (eapply near_mono; [apply (stage_half B K SB (Rlt_le _ _ Kp) KB _ B0); try eassumption; lra|fold U; lra]). }
  assert (Bd1 : bounded64 ny nx B yn1 /\ bounded64 ny nx B yo1).
  { split; [apply (close_bd yn1 _ (T / 2 + 1.7 * U) (fun i j Hi Hj => proj1 (N1 i j Hi Hj)) (fun i j Hi Hj => proj1 (ST (/ 2) (t / 2) y i j E2 ltac:(lra) Y0 Hi Hj)))|
      apply (close_bd yo1 _ (T / 2 + 1.7 * U) (fun i j Hi Hj => proj2 (N1 i j Hi Hj)) (fun i j Hi Hj => proj2 (ST (/ 2) (t / 2) y i j E2 ltac:(lra) Y0 Hi Hj)))]; fold U; lra. }
  destruct Bd1 as [Bd1 Bd1']. destruct (pots yo1 Bd1') as (p1 & G1 & Q1).
  (* stage 2 *)
  set (n2 := kn ny nx dx dt N c1 nu pb kap zon p1 yn1). set (o2 := ko ny nx dx dt N c1 nu pb zon p1 yn1 yo1).
  assert (W1 : within ny nx (T / 2 + 1.7 * U) (vals yn1 yo1) (st1 p ny nx h t y)) by (intros i j Hi Hj; destruct (N1 i j Hi Hj) as [[_ A] [_ C]]; split; assumption).
  pose proof (kstage_at yn1 yo1 p1 _ _ Q1 Bd1 Bd1' Y1 W1) as K2. fold n2 o2 T in K2.
  set (yn2 := fpl n (fsc half n2)). set (yo2 := fpl o (fsc half o2)).
  assert (N2 : forall i j, (i < ny)%nat -> (j < nx)%nat -> near (yn2 i j) (fst (sadd y (sscale (t / 2) (F (st1 p ny nx h t y)))) i j) (0.75 * T + 2.55 * U) /\
                                                          near (yo2 i j) (snd (sadd y (sscale (t / 2) (F (st1 p ny nx h t y)))) i j) (0.75 * T + 2.55 * U)).
  { intros i j Hi Hj. destruct (K2 i j Hi Hj) as [A C]. destruct (tF_le _ i j Y1 Hi Hj) as [L1 L2].
    destruct (Bn i j Hi Hj) as [Fn Ln]. destruct (Bo i j Hi Hj) as [Fo Lo].
    destruct (V (/ 2) (t / 2) (st1 p ny nx h t y) i j E2) as [-> ->].
    clear - A C L1 L2 Fn Fo Ln Lo Kp KB SB B0K T0 SU PU. 
    generalize dependent (t * fst (F (st1 p ny nx h t y)) i j). generalize dependent (t * snd (F (st1 p ny nx h t y)) i j). intros v C L2 u A L1.
    split; (eapply near_mono; [apply (stage_half B K SB (Rlt_le _ _ Kp) KB _ B0); try eassumption; lra|fold U; lra]). }
  assert (Bd2 : bounded64 ny nx B yn2 /\ bounded64 ny nx B yo2).
  { split; [apply (close_bd yn2 _ (0.75 * T + 2.55 * U) (fun i j Hi Hj => proj1 (N2 i j Hi Hj)) (fun i j Hi Hj => proj1 (ST (/ 2) (t / 2) (st1 p ny nx h t y) i j E2 ltac:(lra) Y1 Hi Hj)))|
      apply (close_bd yo2 _ (0.75 * T + 2.55 * U) (fun i j Hi Hj => proj2 (N2 i j Hi Hj)) (fun i j Hi Hj => proj2 (ST (/ 2) (t / 2) (st1 p ny nx h t y) i j E2 ltac:(lra) Y1 Hi Hj)))]; fold U; lra. }
  destruct Bd2 as [Bd2 Bd2']. destruct (pots yo2 Bd2') as (p2 & G2 & Q2).
  (* stage 3 *)
  set (n3 := kn ny nx dx dt N c1 nu pb kap zon p2 yn2). set (o3 := ko ny nx dx dt N c1 nu pb zon p2 yn2 yo2).
  assert (W2 : within ny nx (0.75 * T + 2.55 * U) (vals yn2 yo2) (st2 p ny nx h t y)) by (intros i j Hi Hj; destruct (N2 i j Hi Hj) as [[_ A] [_ C]]; split; assumption).
  pose proof (kstage_at yn2 yo2 p2 _ _ Q2 Bd2 Bd2' Y2 W2) as K3. fold n3 o3 T in K3.
  set (yn3 := fpl n n3). set (yo3 := fpl o o3).
  assert (N3 : forall i j, (i < ny)%nat -> (j < nx)%nat -> near (yn3 i j) (fst (sadd y (sscale t (F (st2 p ny nx h t y)))) i j) (1.75 * T + 4.25 * U) /\
                                                          near (yo3 i j) (snd (sadd y (sscale t (F (st2 p ny nx h t y)))) i j) (1.75 * T + 4.25 * U)).
  { intros i j Hi Hj. destruct (K3 i j Hi Hj) as [A C]. destruct (tF_le _ i j Y2 Hi Hj) as [L1 L2].
    destruct (Bn i j Hi Hj) as [Fn Ln]. destruct (Bo i j Hi Hj) as [Fo Lo].
    destruct (V 1 t (st2 p ny nx h t y) i j E1) as [-> ->]. rewrite !Rmult_1_l.
    clear - A C L1 L2 Fn Fo Ln Lo Kp KB SB B0K T0 SU PU. 
    generalize dependent (t * fst (F (st2 p ny nx h t y)) i j). generalize dependent (t * snd (F (st2 p ny nx h t y)) i j). intros v C L2 u A L1.
    split; (eapply near_mono; [apply (stage_full B K SB (Rlt_le _ _ Kp) KB _ B0); try eassumption; lra|fold U; lra]). }
  assert (Bd3 : bounded64 ny nx B yn3 /\ bounded64 ny nx B yo3).
  { split; [apply (close_bd yn3 _ (1.75 * T + 4.25 * U) (fun i j Hi Hj => proj1 (N3 i j Hi Hj)) (fun i j Hi Hj => proj1 (ST 1 t (st2 p ny nx h t y) i j E1 ltac:(lra) Y2 Hi Hj)))|
      apply (close_bd yo3 _ (1.75 * T + 4.25 * U) (fun i j Hi Hj => proj2 (N3 i j Hi Hj)) (fun i j Hi Hj => proj2 (ST 1 t (st2 p ny nx h t y) i j E1 ltac:(lra) Y2 Hi Hj)))]; fold U; lra. }
  destruct Bd3 as [Bd3 Bd3']. destruct (pots yo3 Bd3') as (p3 & G3 & Q3).
  (* stage 4 *)
  set (n4 := kn ny nx dx dt N c1 nu pb kap zon p3 yn3). set (o4 := ko ny nx dx dt N c1 nu pb zon p3 yn3 yo3).
  assert (W3 : within ny nx (1.75 * T + 4.25 * U) (vals yn3 yo3) (st3 p ny nx h t y)) by (intros i j Hi Hj; destruct (N3 i j Hi Hj) as [[_ A] [_ C]]; split; assumption).
  pose proof (kstage_at yn3 yo3 p3 _ _ Q3 Bd3 Bd3' Y3 W3) as K4. fold n4 o4 T in K4.
  set (nn := rk_n n n1 n2 n3 n4). set (no := rk_n o o1 o2 o3 o4).
  assert (X : forall c f1 f2 f3 f4, c + t / 6 * (f1 + 2 * f2 + 2 * f3 + f4) = c + / 6 * (t * f1 + 2 * (t * f2) + 2 * (t * f3) + t * f4)) by (intros; field).
  assert (RK : forall i j, 
    fst (rk4 F t y) i j = fval (n i j) + / 6 * (t * fst (F y) i j + 2 * (t * fst (F (st1 p ny nx h t y)) i j) + 2 * (t * fst (F (st2 p ny nx h t y)) i j) + t * fst (F (st3 p ny nx h t y)) i j) /\
    snd (rk4 F t y) i j = fval (o i j) + / 6 * (t * snd (F y) i j + 2 * (t * snd (F (st1 p ny nx h t y)) i j) + 2 * (t * snd (F (st2 p ny nx h t y)) i j) + t * snd (F (st3 p ny nx h t y)) i j)).
  { intros i j. rewrite <- !X. split; reflexivity. }
  assert (SEr : step_err p ny h d B S t = 2 * T + 10 * U) by (unfold step_err, T, U; ring).
  assert (NN : forall i j, (i < ny)%nat -> (j < nx)%nat -> near (nn i j) (fst (rk4 F t y) i j) (step_err p ny h d B S t) /\
                                                          near (no i j) (snd (rk4 F t y) i j) (step_err p ny h d B S t)).
  { intros i j Hi Hj. destruct (K1 i j Hi Hj) as [A1 C1]. destruct (K2 i j Hi Hj) as [A2 C2]. destruct (K3 i j Hi Hj) as [A3 C3]. destruct (K4 i j Hi Hj) as [A4 C4].
    destruct (tF_le _ i j Y0 Hi Hj) as [L1 L1']. destruct (tF_le _ i j Y1 Hi Hj) as [L2 L2']. destruct (tF_le _ i j Y2 Hi Hj) as [L3 L3']. destruct (tF_le _ i j Y3 Hi Hj) as [L4 L4'].
    destruct (Bn i j Hi Hj) as [Fn Ln]. destruct (Bo i j Hi Hj) as [Fo Lo].
    rewrite SEr. destruct (RK i j) as [-> ->]. split.
    - clear - A1 A2 A3 A4 L1 L2 L3 L4 Fn Ln Kp KB SB B0K T0 SU PU.
      eapply near_mono; [apply (step_near B K SB KB (n i j) B0 Fn Ln B0K (n1 i j) (n2 i j) (n3 i j) (n4 i j) _ _ _ _ _ _ _ _ A1 A2 A3 A4 L1 L2 L3 L4); lra|fold U; lra].
    - clear - C1 C2 C3 C4 L1' L2' L3' L4' Fo Lo Kp KB SB B0K T0 SU PU.
      eapply near_mono; [apply (step_near B K SB KB (o i j) B0 Fo Lo B0K (o1 i j) (o2 i j) (o3 i j) (o4 i j) _ _ _ _ _ _ _ _ C1 C2 C3 C4 L1' L2' L3' L4'); lra|fold U; lra]. }
  assert (RB : forall i j, (i < ny)%nat -> (j < nx)%nat -> Rabs (fst (rk4 F t y) i j) <= B0 + K /\ Rabs (snd (rk4 F t y) i j) <= B0 + K).
  { intros i j Hi Hj. destruct (RK i j) as [-> ->].
    destruct (tF_le _ i j Y0 Hi Hj) as [L1 L1']. destruct (tF_le _ i j Y1 Hi Hj) as [L2 L2']. destruct (tF_le _ i j Y2 Hi Hj) as [L3 L3']. destruct (tF_le _ i j Y3 Hi Hj) as [L4 L4'].
    destruct (Bn i j Hi Hj) as [Fn Ln]. destruct (Bo i j Hi Hj) as [Fo Lo].
    assert (X6 : forall c u1 u2 u3 u4, Rabs c <= B0 -> Rabs u1 <= K -> Rabs u2 <= K -> Rabs u3 <= K -> Rabs u4 <= K -> Rabs (c + / 6 * (u1 + 2 * u2 + 2 * u3 + u4)) <= B0 + K).
    { clear. intros c u1 u2 u3 u4 H0 H1 H2 H3 H4. generalize dependent K. intros q. intros. rabs. }
    split; apply X6; assumption. }
  assert (Er : step_err p ny h d B S t <= K / 50 + 10 * (uro * B)) by (rewrite SEr; fold U; lra).
  assert (Bdn : bounded64 ny nx B nn) by (apply (close_bd nn _ _ (fun i j Hi Hj => proj1 (NN i j Hi Hj)) (fun i j Hi Hj => proj1 (RB i j Hi Hj)) Er)).
  assert (Bdo : bounded64 ny nx B no) by (apply (close_bd no _ _ (fun i j Hi Hj => proj2 (NN i j Hi Hj)) (fun i j Hi Hj => proj2 (RB i j Hi Hj)) Er)).
  destruct (pots no Bdo) as (p4 & G4 & Q4).
  destruct (rk4_eval ny nx dx dt Hy Hx solver b dx0 N c1 nu pb kap zon Hb pl n o a phi p1 p2 p3 p4 Hpl G1 G2 G3 G4) as (lg & pl' & E & Hh).
  exists lg, pl', nn, no, p4. split; [exact E|]. split; [exact Hh|]. split; [exact Bdn|]. split; [exact Bdo|]. split; [exact Q4|exact NN].
Qed.
End One.

(** ** many steps *)
Local Notation L := (lip p h Lam B).
Local Notation err := (step_err p ny h d B S t).
Hypothesis HtL : t * L <= 1.
Lemma err_pos : 0 <= err.
Proof.
  destruct step_facts as (Ph & Pt & PB & PP & PS & Pe & PG & _). unfold step_err. pose proof uro_pos.
  apply Rplus_le_le_0_compat; apply Rmult_le_pos; lra.
Qed.
Lemma lam_pos : 0 <= t * L.
Proof.
  destruct step_facts as (Ph & Pt & PB & _). apply Rmult_le_pos; [lra|]. apply lip_pos; lra.
Qed.
Lemma close_sbdd e n o y A0 : close64 ny nx e n o y -> sbdd ny nx A0 y -> bounded64 ny nx (A0 + e) n /\ bounded64 ny nx (A0 + e) o.
Proof.
  intros C [H1 H2]. split; intros i j Hi Hj; destruct (C i j Hi Hj) as [[F_ A] [F_' A']]; (split; [assumption|]).
  - apply tri in A. specialize (H1 i j Hi Hj). lra.
  - apply tri in A'. specialize (H2 i j Hi Hj). lra.
Qed.
Lemma bounded_mono b1 b2 (q : nat -> nat -> f64) : b1 <= b2 -> bounded64 ny nx b1 q -> bounded64 ny nx b2 q.
Proof. intros H Q i j Hi Hj. destruct (Q i j Hi Hj). split; [assumption|lra]. Qed.

Definition growth (k : nat) (e : R) : R := (1 + 2 * (t * L)) ^ k * (e + INR k * err).
Lemma growth_S k e : 0 <= e -> growth k ((1 + 2 * (t * L)) * e + err) <= growth (Datatypes.S k) e.
Proof.
  intros He. unfold growth. pose proof lam_pos as Pl. pose proof err_pos as Pe. rewrite S_INR. pose proof (pos_INR k) as Pk.
  set (m := 1 + 2 * (t * L)) in *. assert (1 <= m) by (unfold m; lra). assert (M : 1 <= m ^ k) by (now apply pow_R1_Rle).
  cbn [pow]. rewrite (Rmult_comm m (m ^ k)), Rmult_assoc. apply Rmult_le_compat_l; [lra|].
  assert (Q : 0 <= INR k * err + err) by (apply Rplus_le_le_0_compat; [apply Rmult_le_pos|]; lra).
  assert (1 * (INR k * err + err) <= m * (INR k * err + err)) by (apply Rmult_le_compat_r; lra). lra.
Qed.
Lemma growth_ge k e : 0 <= e -> e <= growth k e.
Proof.
  intros He. unfold growth. pose proof lam_pos as Pl. pose proof err_pos as Pe. pose proof (pos_INR k) as Pk.
  set (m := 1 + 2 * (t * L)) in *. assert (1 <= m) by (unfold m; lra). assert (M : 1 <= m ^ k) by (now apply pow_R1_Rle).
  assert (Q : 0 <= INR k * err) by (now apply Rmult_le_pos). nra.
Qed.

Lemma run_round A0 k : forall pl n o phi a y e, holds ny nx pl n o phi a -> close64 ny nx e n o y -> pot phi o ->
  stays ny nx A0 (rk4 F t) k y -> 1.001 * (A0 + growth k e) + 1.1 * K <= B ->
  exists lg pl' n' o' phi' a', steps (fun pl => rk4_step hw_ pl dt dx) k pl = (lg, Ok pl') /\ holds ny nx pl' n' o' phi' a' /\
    close64 ny nx (growth k e) n' o' (iter_step (rk4 F t) k y) /\ pot phi' o'.
Proof.
  induction k as [|k IH]; intros pl n o phi a y e Hpl C Hp Hs HB.
  - exists [], pl, n, o, phi, a. split; [reflexivity|]. split; [exact Hpl|]. split; [|exact Hp].
    unfold growth. cbn [pow INR iter_step]. rewrite Rmult_1_l, Rmult_0_l, Rplus_0_r. exact C.
  - assert (He : 0 <= e) by (destruct (C 0%nat 0%nat Hy Hx) as [A _]; apply (near_err _ _ _ A)).
    pose proof (growth_S k e He) as G1. pose proof (growth_ge (Datatypes.S k) e He) as G2.
    destruct step_facts as (Ph & Pt & PB & PP & PS & _).
    pose proof (Hs 0%nat ltac:(lia)) as S0. cbn [iter_step] in S0.
    destruct (close_sbdd e n o y A0 C S0) as [Bn Bo].
    set (B0 := A0 + growth (Datatypes.S k) e) in *.
    assert (Bn0 : bounded64 ny nx B0 n) by (apply (bounded_mono (A0 + e)); [unfold B0; lra|assumption]).
    assert (Bo0 : bounded64 ny nx B0 o) by (apply (bounded_mono (A0 + e)); [unfold B0; lra|assumption]).
    destruct (rk4_round B0 HB HtL n o phi Bn0 Bo0 Hp pl a Hpl) as (lg & pl1 & n1 & o1 & phi1 & E & Hh & _ & _ & Hp1 & Ner).
    assert (S0' : sbdd ny nx B0 y) by (apply (sbdd_mono ny nx A0); [unfold B0; lra|exact S0]).
    assert (Sv : sbdd ny nx B0 (vals n o)) by (split; intros i j Hi Hj; [apply (Bn0 i j Hi Hj)|apply (Bo0 i j Hi Hj)]).
    assert (W : within ny nx e (vals n o) y) by (intros i j Hi Hj; destruct (C i j Hi Hj) as [[_ A] [_ A']]; split; assumption).
    pose proof size_mono as Sm. pose proof (b0_pos B0 n Bn0) as P0.
    assert (Kp : 0 < K) by (now apply Rmult_lt_0_compat).
    assert (Rl : within ny nx ((1 + 2 * (t * L)) * e) (rk4 F t (vals n o)) (rk4 F t y)).
    { apply (rk4_lip p ny nx h Hy Hx Ph Lam B HLam t K B0); try assumption; try lra. apply Rmult_le_compat_l; lra. }
    assert (C1 : close64 ny nx ((1 + 2 * (t * L)) * e + err) n1 o1 (rk4 F t y)).
    { intros i j Hi Hj. destruct (Ner i j Hi Hj) as [A A']. destruct (Rl i j Hi Hj) as [D D'].
      rewrite (Rplus_comm _ err). split; eapply near_move; eassumption. }
    destruct (IH pl1 n1 o1 phi1 (nadd a dt) (rk4 F t y) _ Hh C1 Hp1) as (lg2 & pl2 & n2 & o2 & phi2 & a2 & E2 & H2 & C2 & P2).
    + intros j Hj. apply (Hs (Datatypes.S j)). lia.
    + unfold B0 in HB. lra.
    + exists (lg ++ lg2)%list, pl2, n2, o2, phi2, a2. split; [|split; [exact H2|split; [|exact P2]]].
      * cbn [steps]. rewrite E, mbind_ok, E2. apply tell_pair.
      * intros i j Hi Hj. destruct (C2 i j Hi Hj) as [A A']. cbn [iter_step].
        split; (eapply near_mono; [eassumption|exact G1]).
Qed.

(** against the exact solution of the semi-discrete system *)
Lemma pow_exp x k : 0 <= x -> (1 + x) ^ k <= exp (INR k * x).
Proof.
  intros Hx'. induction k as [|k IH]; [cbn [pow INR]; rewrite Rmult_0_l, exp_0; lra|].
  cbn [pow]. rewrite S_INR. replace ((INR k + 1) * x) with (x + INR k * x) by ring. rewrite exp_plus.
  apply Rmult_le_compat; [lra|apply pow_le; lra| |exact IH]. destruct (Req_dec x 0) as [->|Hn]; [rewrite exp_0; lra|].
  apply Rlt_le, exp_ineq1; lra.
Qed.
Lemma growth_le k e T : 0 <= e -> INR k * t <= T -> growth k e <= exp (2 * L * T) * (e + T * (err / t)).
Proof.
  intros He HT. destruct step_facts as (Ph & Pt & PB & _). pose proof err_pos as Pe. pose proof (pos_INR k) as Pk.
  assert (PL : 0 <= L) by (apply lip_pos; lra). unfold growth. pose proof lam_pos.
  apply Rmult_le_compat.
  - apply pow_le. lra.
  - apply Rplus_le_le_0_compat; [exact He|now apply Rmult_le_pos].
  - eapply Rle_trans; [apply pow_exp; lra|]. assert (Q : INR k * (2 * (t * L)) <= 2 * L * T).
    { replace (INR k * (2 * (t * L))) with (2 * L * (INR k * t)) by ring. apply Rmult_le_compat_l; lra. }
    destruct (Rle_lt_or_eq_dec _ _ Q) as [Q'|Q']; [apply Rlt_le, exp_increasing, Q'|rewrite Q'; apply Rle_refl].
  - apply Rplus_le_compat_l. replace (INR k * err) with (INR k * t * (err / t)) by (field; lra).
    apply Rmult_le_compat_r; [|exact HT]. apply Rmult_le_pos; [exact Pe|apply Rlt_le, Rinv_0_lt_compat, Pt].
Qed.
Lemma run_solution C h0 Y T M k pl n o phi a e :
  (forall u k, 0 < u <= h0 -> INR k * u <= T -> within ny nx (C * u ^ 4) (iter_step (rk4 F u) k (Y 0)) (Y (INR k * u))) ->
  0 <= C -> (forall s, 0 <= s <= T -> sbdd ny nx M (Y s)) -> t <= h0 -> INR k * t <= T ->
  holds ny nx pl n o phi a -> close64 ny nx e n o (Y 0) -> pot phi o ->
  let E := exp (2 * L * T) * (e + T * (err / t)) in
  1.001 * (M + C * t ^ 4 + E) + 1.1 * K <= B ->
  exists lg pl' n' o' phi' a', steps (fun pl => rk4_step hw_ pl dt dx) k pl = (lg, Ok pl') /\ holds ny nx pl' n' o' phi' a' /\
    close64 ny nx (E + C * t ^ 4) n' o' (Y (INR k * t)) /\ pot phi' o'.
Proof.
  intros HC PC HM Hh Hk Hpl Cl Hp E HB. destruct step_facts as (Ph & Pt & PB & _).
  assert (He : 0 <= e) by (destruct (Cl 0%nat 0%nat Hy Hx) as [A _]; apply (near_err _ _ _ A)).
  pose proof (growth_le k e T He Hk) as Gl. fold E in Gl.
  assert (St : stays ny nx (M + C * t ^ 4) (rk4 F t) k (Y 0)).
  { intros j Hj. assert (Hjt : INR j * t <= INR k * t) by (apply Rmult_le_compat_r; [lra|now apply le_INR]).
    eapply within_sbdd; [apply HC; lra|]. apply HM. split; [apply Rmult_le_pos; [apply pos_INR|lra]|lra]. }
  destruct (run_round _ k pl n o phi a (Y 0) e Hpl Cl Hp St) as (lg & pl' & n' & o' & phi' & a' & E1 & H1 & C1 & P1); [lra|].
  exists lg, pl', n', o', phi', a'. split; [exact E1|]. split; [exact H1|]. split; [|exact P1].
  pose proof (HC t k ltac:(lra) Hk) as W. intros i j Hi Hj. destruct (C1 i j Hi Hj) as [A A']. destruct (W i j Hi Hj) as [D D'].
  split; (eapply near_mono; [eapply near_move; [eassumption|eassumption]|]; lra).
Qed.
End Step.
