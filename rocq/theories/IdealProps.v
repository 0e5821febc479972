(** C128 on the code: steps of the code with c1 = 0. *)
From Coq Require Import List Arith ZArith Lia Bool Reals Lra Psatz String FunctionalExtensionality Permutation.
From Verif Require Import Num NdArray NdFacts Spec GradFacts SumFacts LapFacts
  Cplx DftFacts SpecFourier PoissonFacts PoissonProps ModelHW ModelBackend
  SpecHW SpecPlasma HWFacts StepFacts RhsFacts SymFacts BalanceProps BalanceWit OdeFacts RkOrder
  SmoothFacts PdeConv HwExist HwConv DiagProps SpecConv SpecAccount AccountOde AccountProps HWProps StepProps
  SpecWave WaveHW SpecIdeal IdealFacts.
Import ListNotations.
Local Open Scope R_scope.

(** which quadratic means are invariant for the parameters p *)
Definition keeps (p : par) (ny nx : nat) (dx : R) (q : state -> R) : Prop :=
  flow_invariant ny nx dx q \/ (pkap p = 0 /\ full_invariant ny nx dx q).

Section C.
Variables (b : backend R) (p : par) (dx0 : R) (test : bool) (ny nx : nat) (dx : R).
Hypothesis Hy : (0 < ny)%nat.
Hypothesis Hx : (0 < nx)%nat.
Hypothesis Hd : dx <> 0.
Hypothesis Hb : backend_ok ny nx b.
Local Notation h := (hw_of b p dx0 test).
Local Notation F := (hw_rhs p ny nx dx).
Local Notation plasma_ok := (plasma_ok test ny nx).
Local Notation agree := (agree ny nx).
Local Notation rk4s k dt pl := (snd (steps (fun pl => rk4_step h pl dt dx) k pl)).
Local Notation eu k dt pl := (snd (steps (fun pl => euler_step h pl dt dx) k pl)).

Lemma keeps_steady q : pc1 p = 0 -> pnu p = 0 -> keeps p ny nx dx q -> steady p ny nx dx q.
Proof. intros E En [H|[Ek H]]; [now apply flow_steady|now apply full_steady]. Qed.
Lemma mean_pos (f : field) : 0 <= gmean ny nx (fun i j => f i j ^ 2).
Proof.
  unfold gmean. apply Rmult_le_pos; [|left; apply Rinv_0_lt_compat, Rmult_lt_0_compat; now apply lt_0_INR].
  unfold gsum. apply rsum_nonneg. intros. apply rsum_nonneg. intros. apply pow2_ge_0.
Qed.
Lemma kin_pos y : 0 <= kinetic ny nx dx y.
Proof.
  pose proof (energy_pos ny nx dx Hy Hx Hd (fconst 0, snd y)) as E. unfold energy, spec_energy in E. cbn [fst snd] in E.
  rewrite (mn_0 ny nx (fun i j => fconst 0 i j ^ 2)) in E by (intros; unfold fconst; ring). unfold kinetic. lra.
Qed.

Lemma id_solution q Y T : pc1 p = 0 -> pnu p = 0 -> keeps p ny nx dx q -> hw_solution p ny nx dx Y T ->
  forall t, 0 <= t <= T -> q (Y t) = q (Y 0).
Proof. intros E En K. apply steady_solution. now apply keeps_steady. Qed.
Lemma id_viscous Y T : pc1 p = 0 -> 0 <= pnu p -> hw_solution p ny nx dx Y T ->
  (forall s t, 0 <= s -> s <= t -> t <= T -> mean_oo ny nx (Y t) <= mean_oo ny nx (Y s)) /\
  (pkap p = 0 -> forall s t, 0 <= s -> s <= t -> t <= T -> mean_nn ny nx (Y t) <= mean_nn ny nx (Y s)).
Proof.
  intros E En HY. split.
  - apply (visc_solution p ny nx dx qoo (mean_oo ny nx) Y T (wf_qoo ny nx) (qoo_eq ny nx)); [|exact HY].
    intros y. rewrite (rate_oo p ny nx dx Hy Hx Hd) by exact E. pose proof (visc_rate p ny nx dx Hy Hx Hd (snd y) En). lra.
  - intros Ek. apply (visc_solution p ny nx dx qnn (mean_nn ny nx) Y T (wf_qnn ny nx) (qnn_eq ny nx)); [|exact HY].
    intros y. rewrite (rate_nn p ny nx dx Hy Hx Hd) by assumption. pose proof (visc_rate p ny nx dx Hy Hx Hd (fst y) En). lra.
Qed.
Lemma id_euler pl n o phi a dt k : pc1 p = 0 -> pnu p = 0 ->
  plasma_ok pl n o phi a -> agree phi (invlap ny nx dx o) ->
  exists pl' n' o' phi', eu k dt pl = Ok pl' /\ plasma_ok pl' n' o' phi' (a + INR k * dt) /\ agree phi' (invlap ny nx dx o') /\
    (forall q, keeps p ny nx dx q -> q (n', o') = q (n, o) + dt ^ 2 * along (euler F dt) (fun z => q (F z)) k (n, o)) /\
    mean_oo ny nx (n, o) <= mean_oo ny nx (n', o') /\ kinetic ny nx dx (n, o) <= kinetic ny nx dx (n', o') /\
    (pkap p = 0 -> mean_nn ny nx (n, o) <= mean_nn ny nx (n', o')).
Proof.
  intros E En Hpl Hphi. destruct (c19_euler b p dx0 test ny nx dx Hy Hx Hd Hb pl n o phi a dt k Hpl Hphi) as (pl' & phi' & R1 & R2 & R3 & _).
  eexists pl', _, _, phi'. split; [exact R1|]. split; [exact R2|]. split; [exact R3|]. rewrite <- surjective_pairing.
  assert (G : forall q, keeps p ny nx dx q -> q (iter_step (euler F dt) k (n, o)) = q (n, o) + dt ^ 2 * along (euler F dt) (fun z => q (F z)) k (n, o))
    by (intros q K; apply (steady_euler p ny nx dx); now apply keeps_steady).
  split; [exact G|].
  assert (P : forall q, (forall z, 0 <= q z) -> keeps p ny nx dx q -> q (n, o) <= q (iter_step (euler F dt) k (n, o))).
  { intros q Hq K. rewrite (G q K). pose proof (along_pos (euler F dt) (fun z => q (F z)) k (n, o) (fun z => Hq (F z))). pose proof (pow2_ge_0 dt). nra. }
  split; [|split].
  - apply P; [intros; apply mean_pos|left; constructor].
  - apply P; [intros; apply kin_pos|left; constructor].
  - intros Ek. apply P; [intros; apply mean_pos|right; split; [exact Ek|apply fu_nn]].
Qed.
Lemma id_rk4 n o T q : pc1 p = 0 -> pnu p = 0 -> keeps p ny nx dx q -> 0 <= T ->
  exists C h0, 0 <= C /\ 0 < h0 /\ forall pl phi a dt k,
    plasma_ok pl n o phi a -> agree phi (invlap ny nx dx o) -> 0 < dt <= h0 -> INR k * dt <= T ->
    exists pl' n' o' phi', rk4s k dt pl = Ok pl' /\ plasma_ok pl' n' o' phi' (a + INR k * dt) /\ agree phi' (invlap ny nx dx o') /\
      Rabs (q (n', o') - q (n, o)) <= C * dt ^ 4.
Proof.
  intros E En K HT. destruct (steady_rk4 p ny nx dx Hy Hx Hd q (n, o) T (keeps_steady q E En K) HT) as (C & h0 & HC & Hh & HG).
  exists C, h0. split; [exact HC|]. split; [exact Hh|]. intros pl phi a dt k Hpl Hphi Hdt Hk.
  destruct (c19 b p dx0 test ny nx dx Hy Hx Hd Hb pl n o phi a dt k Hpl Hphi) as (pl' & phi' & R1 & R2 & R3 & _).
  eexists pl', _, _, phi'. split; [exact R1|]. split; [exact R2|]. split; [exact R3|]. rewrite <- surjective_pairing. now apply HG.
Qed.

(** two plasmas with the same vorticity *)
Definition run_of (rk : bool) (dt : R) (k : nat) (pl : ns R) : res (ns R) := if rk then rk4s k dt pl else eu k dt pl.
Definition step_of (rk : bool) (dt : R) : state -> state := if rk then rk4 F dt else euler F dt.
Lemma run_states rk dt k pl n o phi a : plasma_ok pl n o phi a -> agree phi (invlap ny nx dx o) ->
  let y' := iter_step (step_of rk dt) k (n, o) in
  exists pl' phi', run_of rk dt k pl = Ok pl' /\ plasma_ok pl' (fst y') (snd y') phi' (a + INR k * dt) /\ agree phi' (invlap ny nx dx (snd y')).
Proof.
  intros Hpl Hphi y'. destruct rk.
  - destruct (c19 b p dx0 test ny nx dx Hy Hx Hd Hb pl n o phi a dt k Hpl Hphi) as (pl' & phi' & R1 & R2 & R3 & _). exists pl', phi'. auto.
  - destruct (c19_euler b p dx0 test ny nx dx Hy Hx Hd Hb pl n o phi a dt k Hpl Hphi) as (pl' & phi' & R1 & R2 & R3 & _). exists pl', phi'. auto.
Qed.
Lemma plasma_agree pl n o phi a n' o' phi' : plasma_ok pl n o phi a -> agree n n' -> agree o o' -> agree phi phi' -> plasma_ok pl n' o' phi' a.
Proof.
  intros H A1 A2 A3. destruct H. constructor; auto.
  - now rewrite <- (grid_ext ny nx _ _ A1).
  - now rewrite <- (grid_ext ny nx _ _ A2).
  - now rewrite <- (grid_ext ny nx _ _ A3).
Qed.
Lemma id_alone rk dt k pl1 pl2 n1 n2 o phi1 phi2 a1 a2 : pc1 p = 0 ->
  plasma_ok pl1 n1 o phi1 a1 -> agree phi1 (invlap ny nx dx o) -> plasma_ok pl2 n2 o phi2 a2 -> agree phi2 (invlap ny nx dx o) ->
  exists pl1' pl2' n1' n2' o' phi', run_of rk dt k pl1 = Ok pl1' /\ run_of rk dt k pl2 = Ok pl2' /\
    plasma_ok pl1' n1' o' phi' (a1 + INR k * dt) /\ plasma_ok pl2' n2' o' phi' (a2 + INR k * dt).
Proof.
  intros E P1 A1 P2 A2.
  destruct (run_states rk dt k pl1 n1 o phi1 a1 P1 A1) as (q1 & f1 & R1 & Q1 & B1).
  destruct (run_states rk dt k pl2 n2 o phi2 a2 P2 A2) as (q2 & f2 & R2 & Q2 & B2).
  set (y1 := iter_step (step_of rk dt) k (n1, o)) in *. set (y2 := iter_step (step_of rk dt) k (n2, o)) in *.
  assert (Ho : agree (snd y2) (snd y1)).
  { apply (iter_onlyo ny nx); [|intros i j _ _; reflexivity]. destruct rk; [now apply rk4_onlyo|now apply euler_onlyo]. }
  exists q1, q2, (fst y1), (fst y2), (snd y1), f1. split; [exact R1|]. split; [exact R2|]. split; [exact Q1|].
  apply (plasma_agree q2 _ _ _ _ _ _ _ Q2); [intros i j _ _; reflexivity|exact Ho|].
  intros i j Hi Hj. rewrite (B1 i j Hi Hj), (B2 i j Hi Hj). now apply invlap_ext.
Qed.
Lemma id_superpose rk dt k pl1 pl2 pl3 n1 n2 n3 o phi1 phi2 phi3 a1 a2 a3 c d : pc1 p = 0 -> pkap p = 0 ->
  plasma_ok pl1 n1 o phi1 a1 -> agree phi1 (invlap ny nx dx o) -> plasma_ok pl2 n2 o phi2 a2 -> agree phi2 (invlap ny nx dx o) ->
  plasma_ok pl3 n3 o phi3 a3 -> agree phi3 (invlap ny nx dx o) -> agree n3 (fadd (fscale c n1) (fscale d n2)) ->
  exists pl1' pl2' pl3' n1' n2' o' phi', run_of rk dt k pl1 = Ok pl1' /\ run_of rk dt k pl2 = Ok pl2' /\ run_of rk dt k pl3 = Ok pl3' /\
    plasma_ok pl1' n1' o' phi' (a1 + INR k * dt) /\ plasma_ok pl2' n2' o' phi' (a2 + INR k * dt) /\
    plasma_ok pl3' (fadd (fscale c n1') (fscale d n2')) o' phi' (a3 + INR k * dt).
Proof.
  intros E Ek P1 A1 P2 A2 P3 A3 H3.
  destruct (run_states rk dt k pl1 n1 o phi1 a1 P1 A1) as (q1 & f1 & R1 & Q1 & B1).
  destruct (run_states rk dt k pl2 n2 o phi2 a2 P2 A2) as (q2 & f2 & R2 & Q2 & B2).
  destruct (run_states rk dt k pl3 n3 o phi3 a3 P3 A3) as (q3 & f3 & R3 & Q3 & B3).
  set (y1 := iter_step (step_of rk dt) k (n1, o)) in *. set (y2 := iter_step (step_of rk dt) k (n2, o)) in *. set (y3 := iter_step (step_of rk dt) k (n3, o)) in *.
  assert (M : mixes ny nx c d y1 y2 y3).
  { apply (iter_superposes ny nx); [destruct rk; [now apply rk4_superposes|now apply euler_superposes]|].
    split; [intros i j _ _; reflexivity|]. split; [intros i j _ _; reflexivity|exact H3]. }
  destruct M as (M1 & M2 & M3).
  exists q1, q2, q3, (fst y1), (fst y2), (snd y3), f3. split; [exact R1|]. split; [exact R2|]. split; [exact R3|].
  assert (Ph : forall f s, agree f (invlap ny nx dx s) -> agree s (snd y3) -> agree f f3).
  { intros f s Bf Hs i j Hi Hj. rewrite (B3 i j Hi Hj), (Bf i j Hi Hj). now apply invlap_ext. }
  split; [|split].
  - apply (plasma_agree q1 _ _ _ _ _ _ _ Q1); [intros i j _ _; reflexivity|exact M1|now apply (Ph f1 _ B1)].
  - apply (plasma_agree q2 _ _ _ _ _ _ _ Q2); [intros i j _ _; reflexivity|exact M2|now apply (Ph f2 _ B2)].
  - apply (plasma_agree q3 _ _ _ _ _ _ _ Q3); [exact M3|intros i j _ _; reflexivity|intros i j _ _; reflexivity].
Qed.
Lemma id_locked rk dt k pl n o phi a c d : pc1 p = 0 -> pkap p = 0 -> (1 <= pN p)%nat ->
  plasma_ok pl n o phi a -> agree phi (invlap ny nx dx o) -> agree n (fun i j => c * o i j + d) ->
  exists pl' o' phi', run_of rk dt k pl = Ok pl' /\ plasma_ok pl' (fun i j => c * o' i j + d) o' phi' (a + INR k * dt).
Proof.
  intros E Ek HN P A H. destruct (run_states rk dt k pl n o phi a P A) as (q & f & R & Q & B).
  set (y := iter_step (step_of rk dt) k (n, o)) in *.
  assert (L : locked ny nx c d y).
  { apply (iter_locked ny nx); [|exact H]. intros z Hz. destruct rk; [now apply rk4_locked|now apply euler_locked]. }
  exists q, (snd y), f. split; [exact R|]. apply (plasma_agree q _ _ _ _ _ _ _ Q); [exact L| |]; intros i j _ _; reflexivity.
Qed.
End C.

(** ** a case with a bracket that does not vanish: 4 x 4 cells, density a wave
    along y in a flow along y that varies along x *)
Definition cw (k l : Z) : field := pwave 4 4 k l (mkC 1 0).
Definition phi4 : field := invlap 4 4 1 (cw 0 1).
Definition pid : par := pW 0 0 1 0 false.
Lemma cos_val m : cos (2 * PI * 1 / INR 4 * INR m) = cos (INR m * (PI / 2)).
Proof. f_equal. cbn [INR]. field. Qed.
Lemma cw01 i j : cw 0 1 i j = cos (INR j * (PI / 2)).
Proof. unfold cw, pwave, phase. cbn [re im]. rewrite Rmult_0_l, Rminus_0_r, Rmult_1_l. f_equal. cbn [INR]. field. Qed.
Lemma cw10 i j : cw 1 0 i j = cos (INR i * (PI / 2)).
Proof. unfold cw, pwave, phase. cbn [re im]. rewrite Rmult_0_l, Rminus_0_r, Rmult_1_l. f_equal. cbn [INR]. field. Qed.
Lemma phi4_eq i j : phi4 i j = - / (PI / 2) ^ 2 * cw 0 1 i j.
Proof.
  unfold phi4, cw. rewrite invlap_pwave by (first [lra|lia|repeat split; lia]).
  rewrite pwave_scal. f_equal. f_equal. f_equal. unfold ksq. cbn [INR]. field.
Qed.
Lemma cosv0 : cos (INR 0 * (PI / 2)) = 1. Proof. cbn [INR]. rewrite Rmult_0_l. apply cos_0. Qed.
Lemma cosv2 : cos (INR 2 * (PI / 2)) = -1. Proof. cbn [INR]. replace ((1 + 1) * (PI / 2)) with PI by field. apply cos_PI. Qed.
Lemma bracket_value : jacobian 4 4 1 phi4 (cw 1 0) 1 1 = - / (PI / 2) ^ 2.
Proof.
  unfold jacobian, jac_pp, jac_px, jac_xp. rewrite !phi4_eq, !cw01, !cw10.
  change (sh 4 1 0) with 1%nat. change (sh 4 1 1) with 2%nat. change (sh 4 1 (-1)) with 0%nat. rewrite cosv0, cosv2.
  pose proof PI_RGT_0. field. lra.
Qed.
Lemma strict_gain : mean_nn 4 4 (cw 1 0, cw 0 1) < mean_nn 4 4 (euler (hw_rhs pid 4 4 1) 1 (cw 1 0, cw 0 1)).
Proof.
  pose proof (steady_euler pid 4 4 1 (mean_nn 4 4) 1 (cw 1 0, cw 0 1) 1
    (full_steady pid 4 4 1 ltac:(lia) ltac:(lia) ltac:(lra) (mean_nn 4 4) eq_refl eq_refl eq_refl (fu_nn 4 4 1))) as E.
  cbn [iter_step along] in E. rewrite E, pow1, Rmult_1_l, Rplus_0_r. cut (0 < mean_nn 4 4 (hw_rhs pid 4 4 1 (cw 1 0, cw 0 1))); [lra|].
  unfold mean_nn, gmean. apply Rmult_lt_0_compat; [|apply Rinv_0_lt_compat; cbn [INR]; lra].
  set (g := fun i j : nat => fst (hw_rhs pid 4 4 1 (cw 1 0, cw 0 1)) i j ^ 2).
  assert (P : forall i j, 0 <= g i j) by (intros; apply pow2_ge_0).
  assert (P1 : 0 < g 1%nat 1%nat).
  { unfold g. cbn [hw_rhs fst snd]. rewrite (rhs_n_c1 pid 4 4 1) by reflexivity. rewrite hyper_nu0 by reflexivity.
    fold phi4. rewrite bracket_value. cbn [pid pW ppb].
    pose proof PI_RGT_0. assert (0 < / (PI / 2) ^ 2) by (apply Rinv_0_lt_compat, pow_lt; lra).
    apply pow_lt. lra. }
  unfold gsum. cbn [rsum]. pose proof (P 0 0)%nat. pose proof (P 0 1)%nat. pose proof (P 0 2)%nat. pose proof (P 0 3)%nat.
  pose proof (P 1 0)%nat. pose proof (P 1 2)%nat. pose proof (P 1 3)%nat. pose proof (P 2 0)%nat. pose proof (P 2 1)%nat. pose proof (P 2 2)%nat. pose proof (P 2 3)%nat.
  pose proof (P 3 0)%nat. pose proof (P 3 1)%nat. pose proof (P 3 2)%nat. pose proof (P 3 3)%nat. lra.
Qed.
Lemma euler_gains :
  ~ (forall p n o phi dt pl', pc1 p = 0 -> pnu p = 0 -> pkap p = 0 -> agree 4 4 phi (invlap 4 4 1 o) ->
     snd (euler_step (hw_of np_backend p 1 false) (pl0 4 4 n o phi 0) dt 1) = Ok pl' ->
     forall n' o', ns_get pl' "density" = Ok (grid 4 4 n') -> ns_get pl' "omega" = Ok (grid 4 4 o') ->
     mean_nn 4 4 (n', o') = mean_nn 4 4 (n, o)).
Proof.
  intros H. destruct (c19_euler np_backend pid 1 false 4 4 1 ltac:(lia) ltac:(lia) R1_neq_R0 (or_introl eq_refl)
    (pl0 4 4 (cw 1 0) (cw 0 1) phi4 0) (cw 1 0) (cw 0 1) phi4 0 1 1 (pl0_ok _ _ _ _ _ _ _) (fun i j _ _ => eq_refl)) as (pl' & phi' & E & P & _).
  cbn [iter_step steps] in E, P.
  assert (En : snd (euler_step (hw_of np_backend pid 1 false) (pl0 4 4 (cw 1 0) (cw 0 1) phi4 0) 1 1) = Ok pl').
  { destruct (euler_step (hw_of np_backend pid 1 false) (pl0 4 4 (cw 1 0) (cw 0 1) phi4 0) 1 1) as [l [r|x]]; cbn in E |- *; congruence. }
  assert (G := H pid (cw 1 0) (cw 0 1) phi4 1 pl' eq_refl eq_refl eq_refl (fun i j _ _ => eq_refl) En _ _ (po_n _ _ _ _ _ _ _ _ P) (po_o _ _ _ _ _ _ _ _ P)).
  rewrite <- surjective_pairing in G. pose proof strict_gain. lra.
Qed.
