(** The Hasegawa-Wakatani system in the maximum norm: size, Lipschitz
    constant, sensitivity to the potential, and the Runge-Kutta map. *)
From Coq Require Import List Arith ZArith Reals Lra Lia Psatz SpecFloat Bool.
From Verif Require Import Num NdArray NdFacts Spec SpecHW GradFacts LapFacts HWFacts StepFacts RhsFacts OdeFacts RkOrder SpecRound RoundFacts RoundStencil SpecRoundStep.
Import List ListNotations.
Local Open Scope R_scope.

Section B.
Variables (p : par) (ny nx : nat) (h : R).
Hypothesis Hy : (0 < ny)%nat.
Hypothesis Hx : (0 < nx)%nat.
Hypothesis Hh : 0 < h.
Local Notation bd := (bdd ny nx).
Local Notation zf := (if pzon p then 2 else 1).
Local Notation g := (8.01 / h ^ 2).
Implicit Types f q : field.

Definition fdif f q : field := fun i j => f i j - q i j.

Lemma pr_bd a b x y : Rabs a <= x -> Rabs b <= y -> Rabs (a * b) <= x * y.
Proof. intros. rewrite Rabs_mult. apply Rmult_le_compat; auto; apply Rabs_pos. Qed.
Lemma df_bd a b x : Rabs a <= x -> Rabs b <= x -> Rabs (a - b) <= 2 * x.
Proof. intros. rabs. Qed.
Lemma ih2p : 0 < / h ^ 2. Proof. apply Rinv_0_lt_compat, pow_lt, Hh. Qed.

Lemma jac_bd F G f q i j : bd F f -> bd G q -> Rabs (jacobian ny nx h f q i j) <= 2 * (F * G) / h ^ 2.
Proof.
  intros Bf Bq. unfold jacobian, jac_pp, jac_px, jac_xp. cbv zeta.
  assert (A : forall a b, Rabs (f (sh ny i a) (sh nx j b)) <= F) by (intros; apply Bf; now apply sh_lt).
  assert (C : forall a b, Rabs (q (sh ny i a) (sh nx j b)) <= G) by (intros; apply Bq; now apply sh_lt).
  pose proof (fun a b c d => df_bd _ _ _ (A a b) (A c d)) as A2. pose proof (fun a b c d => df_bd _ _ _ (C a b) (C c d)) as C2.
  pose proof (pr_bd _ _ _ _ (A2 0 1 0 (-1))%Z (C2 1 0 (-1) 0)%Z) as P1. pose proof (pr_bd _ _ _ _ (A2 1 0 (-1) 0)%Z (C2 0 1 0 (-1))%Z) as P2.
  pose proof (pr_bd _ _ _ _ (A 0 1)%Z (C2 1 1 (-1) 1)%Z) as P3. pose proof (pr_bd _ _ _ _ (A 0 (-1))%Z (C2 1 (-1) (-1) (-1))%Z) as P4.
  pose proof (pr_bd _ _ _ _ (A 1 0)%Z (C2 1 1 1 (-1))%Z) as P5. pose proof (pr_bd _ _ _ _ (A (-1) 0)%Z (C2 (-1) 1 (-1) (-1))%Z) as P6.
  pose proof (pr_bd _ _ _ _ (C 1 0)%Z (A2 1 1 1 (-1))%Z) as P7. pose proof (pr_bd _ _ _ _ (C (-1) 0)%Z (A2 (-1) 1 (-1) (-1))%Z) as P8.
  pose proof (pr_bd _ _ _ _ (C 0 1)%Z (A2 1 1 (-1) 1)%Z) as P9. pose proof (pr_bd _ _ _ _ (C 0 (-1))%Z (A2 1 (-1) (-1) (-1))%Z) as P10.
  clear A C A2 C2.
  repeat match goal with H : Rabs (?x * ?y) <= _ |- _ => generalize dependent (x * y); intros end.
  match goal with |- Rabs (?x / 3 / (4 * h ^ 2)) <= _ => replace (x / 3 / (4 * h ^ 2)) with (x / 12 * / h ^ 2) by (field; lra) end.
  replace (2 * (F * G) / h ^ 2) with (2 * (F * G) * / h ^ 2) by reflexivity.
  rewrite Rabs_mult, (Rabs_right (/ _)) by (apply Rle_ge, Rlt_le, ih2p). apply Rmult_le_compat_r; [apply Rlt_le, ih2p|].
  rabs.
Qed.
Lemma jac_dif f f' q q' i j : jacobian ny nx h f q i j - jacobian ny nx h f' q' i j =
  jacobian ny nx h (fdif f f') q i j + jacobian ny nx h f' (fdif q q') i j.
Proof. unfold jacobian, jac_pp, jac_px, jac_xp, fdif. cbv zeta. field. lra. Qed.

Lemma lap_bd d f : bd d f -> bd (8 / h ^ 2 * d) (lap5 ny nx h f).
Proof.
  intros H i j Hi Hj. unfold lap5. cbn [nadd nsub nmul ndiv nofZ npow NumR].
  pose proof (H (sh ny i (-1)) j (sh_lt _ _ _ Hy) Hj) as H1. pose proof (H i (sh nx j (-1)) Hi (sh_lt _ _ _ Hx)) as H2.
  pose proof (H i j Hi Hj) as H3. pose proof (H i (sh nx j 1) Hi (sh_lt _ _ _ Hx)) as H4. pose proof (H (sh ny i 1) j (sh_lt _ _ _ Hy) Hj) as H5.
  unfold Rdiv. rewrite Rabs_mult, (Rabs_right (/ _)) by (apply Rle_ge, Rlt_le, ih2p).
  replace (8 * / h ^ 2 * d) with (8 * d * / h ^ 2) by ring. apply Rmult_le_compat_r; [apply Rlt_le, ih2p|]. rabs.
Qed.
Lemma bd_pos d f : bd d f -> 0 <= d.
Proof. intros H. eapply Rle_trans; [apply Rabs_pos|apply (H 0%nat 0%nat); assumption]. Qed.
Lemma gp : 0 <= g. Proof. unfold Rdiv. pose proof ih2p. lra. Qed.
Lemma lapi_bd n d f f' : bd d (fdif f f') -> bd (g ^ n * d) (fdif (lap_iter n ny nx h f) (lap_iter n ny nx h f')).
Proof.
  intros H. pose proof (bd_pos _ _ H) as Pd. induction n as [|n IH].
  - cbn [pow lap_iter]. now rewrite Rmult_1_l.
  - intros i j Hi Hj. cbn [lap_iter]. unfold fdif.
    replace (lap5 ny nx h (lap_iter n ny nx h f) i j - lap5 ny nx h (lap_iter n ny nx h f') i j) with
      (lap5 ny nx h (fdif (lap_iter n ny nx h f) (lap_iter n ny nx h f')) i j).
    + eapply Rle_trans; [apply (lap_bd _ _ IH i j Hi Hj)|]. change (g ^ Datatypes.S n) with (g * g ^ n). rewrite Rmult_assoc.
      apply Rmult_le_compat_r; [apply Rmult_le_pos; [apply pow_le, gp|exact Pd]|]. unfold Rdiv. pose proof ih2p. lra.
    + unfold lap5, fdif. cbn [nadd nsub nmul ndiv nofZ npow NumR]. field. lra.
Qed.
Lemma avg_bd d f j : bd d f -> (j < nx)%nat -> Rabs (yavg ny f j) <= d.
Proof.
  intros H Hj. unfold yavg. assert (Pn : 0 < INR ny) by (apply lt_0_INR; assumption).
  assert (K : forall m, (m <= ny)%nat -> Rabs (rsum m (fun i => f i j)) <= INR m * d).
  { induction m as [|m IH]; intros Hm; [cbn [rsum]; rewrite Rabs_R0; cbn; lra|].
    cbn [rsum]. apply Rle_trans with (1 := Rabs_triang _ _). rewrite S_INR. specialize (IH ltac:(lia)). pose proof (H m j ltac:(lia) Hj). lra. }
  specialize (K ny (Nat.le_refl _)). unfold Rdiv. rewrite Rabs_mult, (Rabs_right (/ _)) by (apply Rle_ge, Rlt_le, Rinv_0_lt_compat, Pn).
  apply Rmult_le_reg_r with (INR ny); [exact Pn|]. rewrite Rmult_assoc, Rinv_l by lra. lra.
Qed.
Lemma rsum_dif m (u v : nat -> R) : rsum m u - rsum m v = rsum m (fun i => u i - v i).
Proof. induction m as [|m IH]; cbn [rsum]; [ring|]. rewrite <- IH. ring. Qed.
Lemma dev_dif d f f' : bd d (fdif f f') -> bd (2 * d) (fdif (ydev ny f) (ydev ny f')).
Proof.
  intros H i j Hi Hj. unfold fdif, ydev.
  assert (E : yavg ny f j - yavg ny f' j = yavg ny (fdif f f') j).
  { unfold yavg, Rdiv. rewrite <- Rmult_minus_distr_r. now rewrite rsum_dif. }
  replace (f i j - yavg ny f j - (f' i j - yavg ny f' j)) with (fdif f f' i j - yavg ny (fdif f f') j) by (unfold fdif at 1; rewrite <- E; ring).
  pose proof (H i j Hi Hj). pose proof (avg_bd d _ j H Hj). rabs.
Qed.
Lemma cpl_dif d e phi phi' n n' : bd d (fdif phi phi') -> bd e (fdif n n') ->
  bd (zf * (d + e)) (fdif (coupling p ny phi n) (coupling p ny phi' n')).
Proof.
  intros H K i j Hi Hj. unfold fdif, coupling. destruct (pzon p).
  - pose proof (dev_dif _ _ _ H i j Hi Hj) as A. pose proof (dev_dif _ _ _ K i j Hi Hj) as B. unfold fdif in A, B. rabs.
  - pose proof (H i j Hi Hj) as A. pose proof (K i j Hi Hj) as B. unfold fdif in A, B. rabs.
Qed.
Lemma cdy_dif d phi phi' : bd d (fdif phi phi') -> bd (d / h) (fdif (cdy ny h phi) (cdy ny h phi')).
Proof.
  intros H i j Hi Hj. unfold fdif, cdy. cbn [nsub nmul ndiv nofZ NumR].
  pose proof (H (sh ny i (-1)) j (sh_lt _ _ _ Hy) Hj) as H1. pose proof (H (sh ny i 1) j (sh_lt _ _ _ Hy) Hj) as H2. unfold fdif in H1, H2.
  match goal with |- Rabs (?x / ?z - ?y / ?z) <= _ => replace (x / z - y / z) with ((x - y) / 2 * / h) by (field; lra) end.
  rewrite Rabs_mult, (Rabs_right (/ _)) by (apply Rle_ge, Rlt_le, Rinv_0_lt_compat, Hh).
  apply Rmult_le_compat_r; [apply Rlt_le, Rinv_0_lt_compat, Hh|]. rabs.
Qed.

(** the total change of the two time derivatives *)
Definition chg (dp d P' B : R) : R :=
  Rabs (pc1 p) * (zf * (dp + d)) + Rabs (ppb p) * (2 * (dp * B + P' * d) / h ^ 2) + Rabs (pkap p) * (dp / h) + Rabs (pnu p) * (g ^ pN p * d).
Lemma sgn_abs : Rabs ((-1) ^ (pN p + 1) * pnu p) = Rabs (pnu p).
Proof. rewrite Rabs_mult, <- RPow_abs. replace (Rabs (-1)) with 1 by (rewrite Rabs_left; lra). rewrite pow1. ring. Qed.
Lemma jac_chg dp d P' B phi phi' n n' i j : bd dp (fdif phi phi') -> bd d (fdif n n') -> bd P' phi' -> bd B n ->
  Rabs (jacobian ny nx h phi n i j - jacobian ny nx h phi' n' i j) <= 2 * (dp * B + P' * d) / h ^ 2.
Proof.
  intros H1 H2 H3 H4. rewrite jac_dif. apply Rle_trans with (1 := Rabs_triang _ _).
  pose proof (jac_bd _ _ _ _ i j H1 H4). pose proof (jac_bd _ _ _ _ i j H3 H2). unfold Rdiv in *. lra.
Qed.
Lemma hyp_chg d f f' : bd d (fdif f f') -> bd (Rabs (pnu p) * (g ^ pN p * d)) (fdif (hyper p ny nx h f) (hyper p ny nx h f')).
Proof.
  intros H i j Hi Hj. unfold fdif, hyper. rewrite <- Rmult_minus_distr_l. rewrite Rabs_mult, sgn_abs.
  apply Rmult_le_compat_l; [apply Rabs_pos|]. apply (lapi_bd _ _ _ _ H i j Hi Hj).
Qed.
Lemma rhs_chg dp d P' B phi phi' n n' o o' : bd dp (fdif phi phi') -> bd d (fdif n n') -> bd d (fdif o o') ->
  bd P' phi' -> bd B n -> bd B o ->
  bd (chg dp d P' B) (fdif (rhs_n p ny nx h phi n) (rhs_n p ny nx h phi' n')) /\
  bd (chg dp d P' B) (fdif (rhs_o p ny nx h phi n o) (rhs_o p ny nx h phi' n' o')).
Proof.
  intros Hp Hn Ho HP HB HO. pose proof (bd_pos _ _ Hp) as Pp.
  assert (Pk : 0 <= Rabs (pkap p) * (dp / h)).
  { apply Rmult_le_pos; [apply Rabs_pos|]. apply Rmult_le_pos; [exact Pp|apply Rlt_le, Rinv_0_lt_compat, Hh]. }
  split; intros i j Hi Hj; unfold fdif, rhs_n, rhs_o, chg.
  - pose proof (pr_bd (pc1 p) _ _ _ (Rle_refl _) (cpl_dif _ _ _ _ _ _ Hp Hn i j Hi Hj)) as A1.
    pose proof (pr_bd (ppb p) _ _ _ (Rle_refl _) (jac_chg dp d P' B phi phi' n n' i j Hp Hn HP HB)) as A2.
    pose proof (pr_bd (pkap p) _ _ _ (Rle_refl _) (cdy_dif _ _ _ Hp i j Hi Hj)) as A3.
    pose proof (hyp_chg _ _ _ Hn i j Hi Hj) as A4. unfold fdif in *. rewrite Rmult_minus_distr_l in A1, A2, A3.
    generalize dependent (hyper p ny nx h n i j). generalize dependent (hyper p ny nx h n' i j). intros. rabs.
  - pose proof (pr_bd (pc1 p) _ _ _ (Rle_refl _) (cpl_dif _ _ _ _ _ _ Hp Hn i j Hi Hj)) as A1.
    pose proof (pr_bd (ppb p) _ _ _ (Rle_refl _) (jac_chg dp d P' B phi phi' o o' i j Hp Ho HP HO)) as A2.
    pose proof (hyp_chg _ _ _ Ho i j Hi Hj) as A4. unfold fdif in *. rewrite Rmult_minus_distr_l in A1, A2.
    generalize dependent (hyper p ny nx h o i j). generalize dependent (hyper p ny nx h o' i j). intros. rabs.
Qed.

(** ** the system itself *)
Variables (Lam B : R).
Hypothesis HL : inv_bound ny nx h Lam.
Local Notation S := (invlap ny nx h).
Local Notation F := (hw_rhs p ny nx h).
Local Notation L := (lip p h Lam B).

Lemma inv_dif f f' i j : S f i j - S f' i j = S (fdif f f') i j.
Proof.
  assert (E : fdif f f' = fadd (fscale 1 f) (fscale (-1) f')) by (apply FunctionalExtensionality.functional_extensionality; intros a;
    apply FunctionalExtensionality.functional_extensionality; intros b; unfold fdif, fadd, fscale; ring).
  rewrite E, invlap_lin by (assumption || lra). ring.
Qed.
Lemma inv_dif_bd d f f' : bd d (fdif f f') -> bd (Lam * d) (fdif (S f) (S f')).
Proof. intros H i j Hi Hj. unfold fdif at 1. rewrite inv_dif. now apply HL. Qed.

Lemma F_lip d y z : sbdd ny nx B y -> sbdd ny nx B z -> within ny nx d y z -> within ny nx (L * d) (F y) (F z).
Proof.
  intros [Y1 Y2] [Z1 Z2] W. assert (Wn : bd d (fdif (fst y) (fst z))) by (intros i j Hi Hj; apply (W i j Hi Hj)).
  assert (Wo : bd d (fdif (snd y) (snd z))) by (intros i j Hi Hj; apply (W i j Hi Hj)).
  destruct (rhs_chg (Lam * d) d (Lam * B) B (S (snd y)) (S (snd z)) (fst y) (fst z) (snd y) (snd z)) as [A C]; auto.
  { now apply inv_dif_bd. }
  assert (E : chg (Lam * d) d (Lam * B) B = L * d) by (unfold chg, lip; field; lra). rewrite E in A, C.
  intros i j Hi Hj. split; [apply (A i j Hi Hj)|apply (C i j Hi Hj)].
Qed.
Lemma zero_cpl i j : coupling p ny (fconst 0) (fconst 0) i j = 0.
Proof. unfold coupling. destruct (pzon p); unfold fconst; ring. Qed.
Lemma zero_lap n i j : lap_iter n ny nx h (fconst 0) i j = 0.
Proof.
  revert i j. induction n as [|n IH]; intros i j; [reflexivity|]. cbn [lap_iter]. unfold lap5. cbn [nadd nsub nmul ndiv nofZ npow NumR].
  rewrite !IH. unfold Rdiv. ring.
Qed.
Lemma zero_rhs i j : rhs_n p ny nx h (fconst 0) (fconst 0) i j = 0 /\ rhs_o p ny nx h (fconst 0) (fconst 0) (fconst 0) i j = 0.
Proof.
  assert (J : jacobian ny nx h (fconst 0) (fconst 0) i j = 0) by (unfold jacobian, jac_pp, jac_px, jac_xp, fconst; field; lra).
  assert (D : cdy ny h (fconst 0) i j = 0) by (unfold cdy, fconst; cbn [nsub nmul ndiv nofZ NumR]; field; lra).
  unfold rhs_n, rhs_o, hyper. rewrite zero_cpl, zero_lap, J, D. split; ring.
Qed.
Lemma fdif0 b f : bd b f -> bd b (fdif f (fconst 0)).
Proof. intros H i j Hi Hj. unfold fdif, fconst. rewrite Rminus_0_r. auto. Qed.
Lemma rhs_size P phi n o : bd P phi -> bd B n -> bd B o ->
  bd (size_n p h P B) (rhs_n p ny nx h phi n) /\ bd (size_n p h P B) (rhs_o p ny nx h phi n o).
Proof.
  intros HP HB HO. assert (Z0 : bd 0 (fconst 0)) by (intros i j _ _; unfold fconst; rewrite Rabs_R0; lra).
  destruct (rhs_chg P B 0 B phi (fconst 0) n (fconst 0) o (fconst 0)) as [A C]; auto using fdif0.
  assert (E : chg P B 0 B = size_n p h P B) by (unfold chg, size_n, size_c; field; lra). rewrite E in A, C.
  split; intros i j Hi Hj; [specialize (A i j Hi Hj); rename A into K|specialize (C i j Hi Hj); rename C into K]; unfold fdif in K;
    destruct (zero_rhs i j) as [E1 E2]; [rewrite E1, Rminus_0_r in K|rewrite E2, Rminus_0_r in K]; exact K.
Qed.
Lemma F_size y : sbdd ny nx B y -> sbdd ny nx (size_n p h (Lam * B) B) (F y).
Proof. intros [H1 H2]. apply rhs_size; auto. Qed.
(** a potential off by d *)
Lemma rhs_phi d phi n o : bd d (fdif phi (S o)) -> bd B n -> bd B o ->
  within ny nx (phi_err p h d B) (rhs_n p ny nx h phi n, rhs_o p ny nx h phi n o) (F (n, o)).
Proof.
  intros Hd Hn Ho. assert (Z0 : forall f, bd 0 (fdif f f)) by (intros f i j _ _; unfold fdif; rewrite Rminus_diag_eq, Rabs_R0 by reflexivity; lra).
  destruct (rhs_chg d 0 (Lam * B) B phi (S o) n n o o) as [A C]; auto.
  assert (E : chg d 0 (Lam * B) B = phi_err p h d B) by (unfold chg, phi_err; field; lra). rewrite E in A, C.
  intros i j Hi Hj. split; [apply (A i j Hi Hj)|apply (C i j Hi Hj)].
Qed.
Lemma lip_pos : 0 <= Lam -> 0 <= B -> 0 <= L.
Proof.
  intros HLm HB. pose proof ih2p. unfold lip. assert (0 < / h) by (apply Rinv_0_lt_compat, Hh).
  repeat apply Rplus_le_le_0_compat; apply Rmult_le_pos; try apply Rabs_pos.
  - destruct (pzon p); lra.
  - unfold Rdiv. apply Rmult_le_pos; [|lra]. apply Rmult_le_pos; [lra|now apply Rmult_le_pos].
  - unfold Rdiv. apply Rmult_le_pos; lra.
  - apply pow_le, gp.
Qed.

(** ** the Runge-Kutta map *)
Lemma within_add a b y z u v : within ny nx a y z -> within ny nx b u v -> within ny nx (a + b) (sadd y u) (sadd z v).
Proof.
  intros H K i j Hi Hj. destruct (H i j Hi Hj) as [H1 H2], (K i j Hi Hj) as [K1 K2]. unfold sadd, fadd. cbn [fst snd]. split; rabs.
Qed.
Lemma within_scale c a y z : 0 <= c -> within ny nx a y z -> within ny nx (c * a) (sscale c y) (sscale c z).
Proof.
  intros Hc H i j Hi Hj. destruct (H i j Hi Hj) as [H1 H2]. unfold sscale, fscale. cbn [fst snd].
  rewrite <- !Rmult_minus_distr_l, !Rabs_mult, (Rabs_right c) by lra. split; apply Rmult_le_compat_l; assumption.
Qed.
Lemma sbdd_add a b y u : sbdd ny nx a y -> sbdd ny nx b u -> sbdd ny nx (a + b) (sadd y u).
Proof.
  intros [H1 H2] [K1 K2]. split; intros i j Hi Hj; unfold sadd, fadd; cbn [fst snd]; (eapply Rle_trans; [apply Rabs_triang|]); apply Rplus_le_compat; auto.
Qed.
Lemma sbdd_scale c a y : 0 <= c -> sbdd ny nx a y -> sbdd ny nx (c * a) (sscale c y).
Proof.
  intros Hc [H1 H2]. split; intros i j Hi Hj; unfold sscale, fscale; cbn [fst snd]; rewrite Rabs_mult, (Rabs_right c) by lra;
    apply Rmult_le_compat_l; auto.
Qed.
Lemma sbdd_mono a b y : a <= b -> sbdd ny nx a y -> sbdd ny nx b y.
Proof. intros H [H1 H2]. split; intros i j Hi Hj; (eapply Rle_trans; [|exact H]); auto. Qed.
Lemma within_mono a b y z : a <= b -> within ny nx a y z -> within ny nx b y z.
Proof. intros H W i j Hi Hj. destruct (W i j Hi Hj). split; lra. Qed.
Lemma within_sym a y z : within ny nx a y z -> within ny nx a z y.
Proof. intros W i j Hi Hj. destruct (W i j Hi Hj). split; rewrite Rabs_minus_sym; assumption. Qed.
Lemma within_trans a b y z u : within ny nx a y z -> within ny nx b z u -> within ny nx (a + b) y u.
Proof. intros W V i j Hi Hj. destruct (W i j Hi Hj), (V i j Hi Hj). split; rabs. Qed.
Lemma within_sbdd a b y z : within ny nx a y z -> sbdd ny nx b z -> sbdd ny nx (b + a) y.
Proof. intros W [H1 H2]. split; intros i j Hi Hj; destruct (W i j Hi Hj); [specialize (H1 i j Hi Hj)|specialize (H2 i j Hi Hj)]; rabs. Qed.

Variables (t K B0 : R).
Hypothesis Ht : 0 <= t.
Hypothesis HK : t * size_n p h (Lam * B) B <= K.
Hypothesis HB0 : B0 + K <= B.
Hypothesis HtL : t * L <= 1.
Hypothesis HL0 : 0 <= Lam.
Hypothesis PB : 0 <= B.

Definition st1 y := sadd y (sscale (t / 2) (F y)).
Definition st2 y := sadd y (sscale (t / 2) (F (st1 y))).
Definition st3 y := sadd y (sscale t (F (st2 y))).
Lemma size_pos : 0 <= size_n p h (Lam * B) B.
Proof.
  unfold size_n, size_c. pose proof ih2p. assert (0 < / h) by (apply Rinv_0_lt_compat, Hh).
  assert (0 <= Lam * B) by (now apply Rmult_le_pos).
  repeat apply Rplus_le_le_0_compat; apply Rmult_le_pos; try apply Rabs_pos.
  - destruct (pzon p); lra.
  - unfold Rdiv. apply Rmult_le_pos; [|lra]. apply Rmult_le_pos; [lra|now apply Rmult_le_pos].
  - unfold Rdiv. apply Rmult_le_pos; lra.
  - apply Rmult_le_pos; [apply pow_le, gp|assumption].
Qed.
Lemma K_pos : 0 <= K.
Proof. eapply Rle_trans; [|exact HK]. apply Rmult_le_pos; [exact Ht|exact size_pos]. Qed.
Lemma st_bd y u c : sbdd ny nx B0 y -> sbdd ny nx B u -> 0 <= c <= t -> sbdd ny nx (B0 + c * size_n p h (Lam * B) B) (sadd y (sscale c (F u))) /\
  sbdd ny nx B (sadd y (sscale c (F u))).
Proof.
  intros Hy0 Hu Hc. pose proof (sbdd_add _ _ _ _ Hy0 (sbdd_scale c _ _ (proj1 Hc) (F_size u Hu))) as H. split; [exact H|].
  eapply sbdd_mono; [|exact H].
  assert (c * size_n p h (Lam * B) B <= t * size_n p h (Lam * B) B) by (apply Rmult_le_compat_r; [exact size_pos|lra]). lra.
Qed.
Lemma sub_bd y : sbdd ny nx B0 y -> sbdd ny nx B y.
Proof. intros H. pose proof K_pos. eapply sbdd_mono; [|exact H]. lra. Qed.
Lemma st_all y : sbdd ny nx B0 y -> sbdd ny nx B y /\ sbdd ny nx B (st1 y) /\ sbdd ny nx B (st2 y) /\ sbdd ny nx B (st3 y).
Proof.
  intros H. pose proof (sub_bd y H) as H0.
  assert (H1 : sbdd ny nx B (st1 y)) by (apply st_bd; auto; lra).
  assert (H2 : sbdd ny nx B (st2 y)) by (apply st_bd; auto; lra).
  assert (H3 : sbdd ny nx B (st3 y)) by (apply st_bd; auto; lra). auto.
Qed.

(** two steps from nearby states *)
Lemma rk4_lip d y z : sbdd ny nx B0 y -> sbdd ny nx B0 z -> within ny nx d y z ->
  within ny nx ((1 + 2 * (t * L)) * d) (rk4 F t y) (rk4 F t z).
Proof.
  intros Hy0 Hz0 W. assert (Pd : 0 <= d) by (eapply Rle_trans; [apply Rabs_pos|apply (W 0%nat 0%nat); assumption]).
  destruct (st_all y Hy0) as (Y0 & Y1 & Y2 & Y3). destruct (st_all z Hz0) as (Z0 & Z1 & Z2 & Z3).
  pose proof (lip_pos HL0 PB) as PL. set (l := t * L) in *. assert (Pl : 0 <= l) by (now apply Rmult_le_pos).
  assert (St : forall c e u v, 0 <= c -> sbdd ny nx B u -> sbdd ny nx B v -> within ny nx e u v -> within ny nx (c * (L * e)) (sscale c (F u)) (sscale c (F v)))
    by (intros c e u v Hc Hu Hv We; apply within_scale; [exact Hc|now apply F_lip]).
  assert (W1 : within ny nx (d + t / 2 * (L * d)) (st1 y) (st1 z)) by (apply within_add; [exact W|apply St; auto; lra]).
  assert (W2 : within ny nx (d + t / 2 * (L * (d + t / 2 * (L * d)))) (st2 y) (st2 z)) by (apply within_add; [exact W|apply St; auto; lra]).
  assert (W3 : within ny nx (d + t * (L * (d + t / 2 * (L * (d + t / 2 * (L * d)))))) (st3 y) (st3 z)) by (apply within_add; [exact W|apply St; auto; lra]).
  pose proof (F_lip _ _ _ Y0 Z0 W) as V0. pose proof (F_lip _ _ _ Y1 Z1 W1) as V1. pose proof (F_lip _ _ _ Y2 Z2 W2) as V2. pose proof (F_lip _ _ _ Y3 Z3 W3) as V3.
  pose proof (within_add _ _ _ _ _ _ W (within_scale (t / 6) _ _ _ ltac:(lra)
    (within_add _ _ _ _ _ _ (within_add _ _ _ _ _ _ (within_add _ _ _ _ _ _ V0 (within_scale 2 _ _ _ ltac:(lra) V1))
      (within_scale 2 _ _ _ ltac:(lra) V2)) V3))) as R.
  eapply within_mono; [|exact R].
  replace (d + t / 6 * (L * d + 2 * (L * (d + t / 2 * (L * d))) + 2 * (L * (d + t / 2 * (L * (d + t / 2 * (L * d))))) +
     L * (d + t * (L * (d + t / 2 * (L * (d + t / 2 * (L * d))))))))
    with (d * (1 + l + l ^ 2 / 2 + l ^ 3 / 6 + l ^ 4 / 24)) by (unfold l; field).
  rewrite (Rmult_comm _ d). apply Rmult_le_compat_l; [exact Pd|]. nra.
Qed.
End B.

(** a bound of the inverse Laplacian exists *)
Lemma inv_bound_exists ny nx h : (0 < ny)%nat -> (0 < nx)%nat -> 0 < h -> exists Lam, 0 <= Lam /\ inv_bound ny nx h Lam.
Proof.
  intros Hy Hx Hh. assert (Hn : h <> 0) by lra.
  set (A := fun (u : IX -> R) (k : IX) => invlap ny nx h (fun a c => u (true, (a, c))) (fst (snd k)) (snd (snd k))).
  assert (A1 : forall u v, A (vadd IX u v) = vadd IX (A u) (A v)).
  { intros u v. apply FunctionalExtensionality.functional_extensionality. intros k. unfold A, vadd.
    rewrite <- (Rmult_1_l (invlap _ _ _ (fun a c => u _) _ _)), <- (Rmult_1_l (invlap _ _ _ (fun a c => v _) _ _)), <- (invlap_lin ny nx h Hy Hx Hn).
    apply invlap_ext. intros a c _ _. unfold fadd, fscale. ring. }
  assert (A2 : forall c u, A (vscale IX c u) = vscale IX c (A u)).
  { intros c u. apply FunctionalExtensionality.functional_extensionality. intros k. unfold A, vscale.
    transitivity (c * invlap ny nx h (fun a c0 => u (true, (a, c0))) (fst (snd k)) (snd (snd k)) + 0 * invlap ny nx h (fconst 0) (fst (snd k)) (snd (snd k))); [|ring].
    rewrite <- (invlap_lin ny nx h Hy Hx Hn). apply invlap_ext. intros a e _ _. unfold fadd, fscale. ring. }
  assert (A3 : forall u v, (forall j, In j (gridix ny nx) -> u j = v j) -> forall j, In j (gridix ny nx) -> A u j = A v j).
  { intros u v H j _. unfold A. apply invlap_ext. intros a c Ha Hc. apply H. now apply in_gridix. }
  pose proof (lin_bd IX (gridix ny nx) IXdec (gridix_nodup ny nx) A A1 A2 A3) as L.
  eexists. split; [|intros f b Hf i j Hi Hj].
  - apply rsum_l_pos. intros j. apply nrm_pos.
  - specialize (L (fun k => f (fst (snd k)) (snd (snd k)))).
    eapply Rle_trans; [apply (nrm_ub IX (gridix ny nx) (A (fun k => f (fst (snd k)) (snd (snd k)))) (true, (i, j))); now apply in_gridix|].
    eapply Rle_trans; [exact L|]. apply Rmult_le_compat_l; [apply rsum_l_pos; intros; apply nrm_pos|].
    apply nrm_le; [apply (bd_pos ny nx Hy Hx b f Hf)|]. intros [w [a c]] Hin. apply in_gridix in Hin as [Ha Hc]. now apply Hf.
Qed.
