(** Property C143: which cells the operators look at. *)
From Coq Require Import List Arith ZArith Lia Bool Reals Lra Psatz.
From Verif Require Import Num NdArray NdFacts ModelGradients ModelArakawa ModelPoisson Spec GradFacts GradProps SumFacts LapFacts ArakawaFacts ArakawaProps Cplx DftFacts SpecFourier
  ModelHW SpecHW HWFacts ModelBackend RunHWWit SpecReach PropGradients PropLinear.
Import ListNotations.
Local Open Scope nat_scope.

Section G.
Context {A : Type} {N : Num A}.
Lemma reach_lap ny nx dx (f g : nat -> nat -> A) m : 0 < ny -> 0 < nx -> forall i j, i < ny -> j < nx ->
  (forall i' j', near ny nx (Z.of_nat m) i j i' j' -> f i' j' = g i' j') -> lap_iter m ny nx dx f i j = lap_iter m ny nx dx g i j.
Proof.
  intros Hy Hx. induction m as [|m IH]; intros i j Hi Hj E.
  - cbn [lap_iter]. apply E. exists 0%Z, 0%Z. rewrite !sh_0 by assumption. repeat split; lia.
  - cbn [lap_iter]. unfold lap5.
    assert (K : forall a b, (Z.abs a + Z.abs b <= 1)%Z -> lap_iter m ny nx dx f (sh ny i a) (sh nx j b) = lap_iter m ny nx dx g (sh ny i a) (sh nx j b)).
    { intros a b Q. apply IH; [now apply sh_lt|now apply sh_lt|]. intros i' j' (c & d & R & -> & ->). apply E. exists (a + c)%Z, (b + d)%Z.
      rewrite !sh_sh by assumption. split; [lia|]. split; reflexivity. }
    pose proof (K 0%Z 0%Z ltac:(lia)) as K0. pose proof (K (-1)%Z 0%Z ltac:(lia)) as K1. pose proof (K 1%Z 0%Z ltac:(lia)) as K2.
    pose proof (K 0%Z (-1)%Z ltac:(lia)) as K3. pose proof (K 0%Z 1%Z ltac:(lia)) as K4. rewrite (sh_0 nx j Hj) in K0, K1, K2. rewrite (sh_0 ny i Hi) in K0, K3, K4.
    rewrite K0, K1, K2, K3, K4. reflexivity.
Qed.
Lemma reach_ara ny nx dx (f g f' g' : nat -> nat -> A) i j : (forall i' j', around ny nx i j i' j' -> f i' j' = f' i' j' /\ g i' j' = g' i' j') ->
  ara ny nx dx f g i j = ara ny nx dx f' g' i j.
Proof.
  intros E. unfold ara, nb_kernel, P.
  assert (K : forall a b, (-1 <= a <= 1)%Z -> (-1 <= b <= 1)%Z -> (a <> 0 \/ b <> 0)%Z -> f (sh ny i a) (sh nx j b) = f' (sh ny i a) (sh nx j b) /\ g (sh ny i a) (sh nx j b) = g' (sh ny i a) (sh nx j b)).
  { intros a b Ha Hb Hn. apply E. exists a, b. auto. }
  destruct (K 0 1 ltac:(lia) ltac:(lia) ltac:(lia))%Z as [-> ->]. destruct (K 0 (-1) ltac:(lia) ltac:(lia) ltac:(lia))%Z as [-> ->].
  destruct (K 1 0 ltac:(lia) ltac:(lia) ltac:(lia))%Z as [-> ->]. destruct (K (-1) 0 ltac:(lia) ltac:(lia) ltac:(lia))%Z as [-> ->].
  destruct (K 1 1 ltac:(lia) ltac:(lia) ltac:(lia))%Z as [-> ->]. destruct (K (-1) 1 ltac:(lia) ltac:(lia) ltac:(lia))%Z as [-> ->].
  destruct (K 1 (-1) ltac:(lia) ltac:(lia) ltac:(lia))%Z as [-> ->]. destruct (K (-1) (-1) ltac:(lia) ltac:(lia) ltac:(lia))%Z as [-> ->]. reflexivity.
Qed.
End G.

(** The N-fold Laplacian at a cell is the same, bit for bit in every
    arithmetic, for fields that agree up to N cells away. *)
Theorem C143_laplace : forall (A : Type) (N : Num A) ny nx (dx : A) (n : Z) (f g : nat -> nat -> A), 0 < ny -> 0 < nx -> (0 <= n)%Z ->
  exists u v, nb_periodic_laplace_N (Ok (grid ny nx f)) dx n = Ok (grid ny nx u) /\ nb_periodic_laplace_N (Ok (grid ny nx g)) dx n = Ok (grid ny nx v) /\
    np_periodic_laplace_N (Ok (grid ny nx f)) dx n = Ok (grid ny nx u) /\ np_periodic_laplace_N (Ok (grid ny nx g)) dx n = Ok (grid ny nx v) /\
    forall i j, i < ny -> j < nx -> (forall i' j', near ny nx n i j i' j' -> f i' j' = g i' j') -> u i j = v i j.
Proof.
  intros A N ny nx dx n f g Hy Hx Hn. exists (lap_iter (Z.to_nat n) ny nx dx f), (lap_iter (Z.to_nat n) ny nx dx g).
  rewrite <- !C01_laplace_N_same_bits by (apply wf_build || reflexivity || assumption). rewrite !C01_laplace_N_value by assumption.
  do 4 (split; [reflexivity|]). intros i j Hi Hj E. apply reach_lap; [assumption..|]. now rewrite Z2Nat.id.
Qed.
Print Assumptions C143_laplace.
(** The distance cannot be smaller: the value N cells from a single cell is
    1 / dx^(2 N), on every grid with more than 2 N rows. *)
Definition corner : nat -> nat -> R := fun i j => match i, j with O, O => 1%R | _, _ => 0%R end.
Lemma lap_zero ny nx dx m i j : lap_iter m ny nx dx (fun _ _ => 0%R) i j = 0%R.
Proof. revert i j. induction m as [|m IH]; intros i j; cbn [lap_iter]; [reflexivity|]. rewrite lap5_R, !IH. unfold Rdiv. ring. Qed.
Lemma lap_far ny nx dx m i j : 0 < ny -> 0 < nx -> i < ny -> j < nx -> (Z.of_nat m < Z.of_nat i)%Z -> (Z.of_nat i + Z.of_nat m < Z.of_nat ny)%Z ->
  lap_iter m ny nx dx corner i j = 0%R.
Proof.
  intros Hy Hx Hi Hj L U. rewrite <- (lap_zero ny nx dx m i j). apply reach_lap; [assumption..|]. intros i' j' (a & b & Q & -> & ->).
  assert (E : sh ny i a <> 0).
  { unfold sh, pidx. rewrite Z.mod_small by lia. lia. }
  unfold corner. destruct (sh ny i a); [contradiction|reflexivity].
Qed.
Lemma lap_peak ny nx dx m : dx <> 0%R -> 0 < nx -> 2 * m < ny -> lap_iter m ny nx dx corner m 0 = (/ dx ^ (2 * m))%R.
Proof.
  intros Hd Hx. induction m as [|m IH]; intros Hm; [cbn; field|]. cbn [lap_iter]. rewrite lap5_R.
  assert (S1 : sh ny (S m) (-1) = m) by (unfold sh; replace (Z.of_nat (S m) + -1)%Z with (Z.of_nat m) by lia; apply pidx_small; lia).
  assert (S2 : sh ny (S m) 1 = S (S m)) by (unfold sh; replace (Z.of_nat (S m) + 1)%Z with (Z.of_nat (S (S m))) by lia; apply pidx_small; lia).
  rewrite S1, IH by lia. rewrite S2. rewrite !(lap_far ny nx dx m) by (try apply sh_lt; lia).
  replace (2 * S m) with (2 * m + 2) by lia. rewrite pow_add. field. split; [exact Hd|]. apply pow_nonzero, Hd.
Qed.
Theorem C143_laplace_exact : forall ny nx (dx : R) (n : nat), dx <> 0%R -> 0 < nx -> 2 * n < ny ->
  exists u v, nb_periodic_laplace_N (Ok (grid ny nx corner)) dx (Z.of_nat n) = Ok (grid ny nx u) /\
    nb_periodic_laplace_N (Ok (grid ny nx (fun _ _ => 0%R))) dx (Z.of_nat n) = Ok (grid ny nx v) /\
    u n 0 = (/ dx ^ (2 * n))%R /\ v n 0 = 0%R /\ (forall i j, i <> 0 \/ j <> 0 -> corner i j = 0%R) /\ near ny nx (Z.of_nat n) n 0 0 0.
Proof.
  intros ny nx dx n Hd Hx Hn. rewrite !C01_laplace_N_value by lia. rewrite Nat2Z.id. do 2 eexists. split; [reflexivity|]. split; [reflexivity|].
  split; [now apply lap_peak|]. split; [apply lap_zero|]. split.
  - intros [|i] [|j] Q; try reflexivity. destruct Q; contradiction.
  - exists (- Z.of_nat n)%Z, 0%Z. split; [lia|]. split; unfold sh.
    + replace (Z.of_nat n + - Z.of_nat n)%Z with (Z.of_nat 0) by lia. rewrite pidx_small; lia.
    + replace (Z.of_nat 0 + 0)%Z with (Z.of_nat 0) by lia. rewrite pidx_small; lia.
Qed.
Print Assumptions C143_laplace_exact.
(** The bracket at a cell looks at the eight cells around it and not at the
    cell itself, bit for bit in every arithmetic. *)
Theorem C143_bracket : forall (A : Type) (N : Num A) ny nx (dx : A) (f g f' g' : nat -> nat -> A), 0 < ny -> 0 < nx ->
  exists u v, np_periodic_arakawa_vec (Ok (grid ny nx f)) (Ok (grid ny nx g)) dx = Ok (grid ny nx u) /\
    np_periodic_arakawa_vec (Ok (grid ny nx f')) (Ok (grid ny nx g')) dx = Ok (grid ny nx v) /\
    nb_periodic_arakawa_stencil (Ok (grid ny nx f)) (Ok (grid ny nx g)) dx = Ok (grid ny nx u) /\
    nb_periodic_arakawa_stencil (Ok (grid ny nx f')) (Ok (grid ny nx g')) dx = Ok (grid ny nx v) /\
    forall i j, (forall i' j', around ny nx i j i' j' -> f i' j' = f' i' j' /\ g i' j' = g' i' j') -> u i j = v i j.
Proof.
  intros A N ny nx dx f g f' g' Hy Hx. exists (ara ny nx dx f g), (ara ny nx dx f' g').
  split; [now apply np_periodic_arakawa_vec_grid|]. split; [now apply np_periodic_arakawa_vec_grid|].
  split; [rewrite (proj1 (c07_bits A N (grid ny nx f) (grid ny nx g) dx (wf_build _ _) (wf_build _ _) eq_refl eq_refl)); now apply np_periodic_arakawa_vec_grid|].
  split; [rewrite (proj1 (c07_bits A N (grid ny nx f') (grid ny nx g') dx (wf_build _ _) (wf_build _ _) eq_refl eq_refl)); now apply np_periodic_arakawa_vec_grid|].
  intros i j E. now apply reach_ara.
Qed.
Print Assumptions C143_bracket.
(** The gradient looks at the two cells beside it. *)
Theorem C143_gradient : forall (A : Type) (N : Num A) ny nx (dx : A) (f g : nat -> nat -> A) (axis : Z), 0 < ny -> 0 < nx -> (axis = 0 \/ axis = 1)%Z ->
  exists u v, np_periodic_gradient (Ok (grid ny nx f)) dx axis = Ok (Some (grid ny nx u)) /\ np_periodic_gradient (Ok (grid ny nx g)) dx axis = Ok (Some (grid ny nx v)) /\
    forall i j, (forall i' j', beside ny nx axis i j i' j' -> f i' j' = g i' j') -> u i j = v i j.
Proof.
  intros A N ny nx dx f g axis Hy Hx Ha. rewrite !C02_value by assumption. do 2 eexists. split; [reflexivity|]. split; [reflexivity|].
  intros i j E. destruct Ha as [-> | ->]; cbn [Z.eqb]; unfold cdy, cdx.
  - rewrite (E (sh ny i 1) j), (E (sh ny i (-1)) j); [reflexivity| |]; [exists (-1)%Z|exists 1%Z]; auto.
  - rewrite (E i (sh nx j 1)), (E i (sh nx j (-1))); [reflexivity| |]; [exists (-1)%Z|exists 1%Z]; auto.
Qed.
Print Assumptions C143_gradient.
(** The potential has no such distance: the vorticity of one corner of a 4 x 4
    grid changes the potential of the opposite cell, four cells away. *)
Local Open Scope R_scope.
Lemma w4_even k : wn 4 (2 * Z.of_nat k) = RtoC ((-1) ^ k).
Proof.
  rewrite w4. rewrite mult_IZR, <- INR_IZR_INZ. replace (2 * INR k * (PI / 2)) with (INR k * PI) by field.
  induction k as [|k IH]; [cbn; rewrite Rmult_0_l, cos_0, sin_0; reflexivity|]. rewrite S_INR. replace ((INR k + 1) * PI) with (INR k * PI + PI) by ring.
  rewrite neg_cos, neg_sin. pose proof (f_equal re IH) as I1. pose proof (f_equal im IH) as I2. cbn [re im RtoC] in I1, I2. rewrite I1, I2. apply C_eq; cbn; ring.
Qed.
Lemma dft_corner k l : dft2 4 4 (fun i j => RtoC (corner i j)) k l = C1.
Proof.
  unfold dft2. cbn [csum Z.of_nat]. rewrite !Z.mul_0_r. cbn [Z.opp]. rewrite w4_0. cbn [corner].
  apply C_eq; cbn; ring.
Qed.
Lemma corner_opposite : invlap 4 4 1 corner 2 2 = 87 / 160 / PI ^ 2.
Proof.
  unfold invlap, idft2.
  transitivity (/ (INR 4 * INR 4) * rsum 4 (fun k => rsum 4 (fun l => if ((k =? 0)%nat && (l =? 0)%nat)%bool then 0 else / lap_symbol 4 4 1 k l * (-1) ^ k * (-1) ^ l))).
  - assert (E : forall k l, Cmul (if ((k =? 0)%nat && (l =? 0)%nat)%bool then C0 else Cscal (/ lap_symbol 4 4 1 k l) (dft2 4 4 (fun i j => RtoC (corner i j)) (Z.of_nat k) (Z.of_nat l)))
       (Cmul (wn 4 (Z.of_nat k * Z.of_nat 2)) (wn 4 (Z.of_nat l * Z.of_nat 2)))
       = RtoC (if ((k =? 0)%nat && (l =? 0)%nat)%bool then 0 else / lap_symbol 4 4 1 k l * (-1) ^ k * (-1) ^ l)).
    { intros k l. rewrite dft_corner. rewrite !(Z.mul_comm _ (Z.of_nat 2)). change (Z.of_nat 2) with 2%Z. rewrite !w4_even. destruct (_ && _)%bool; apply C_eq; cbn; ring. }
    cbn [csum rsum]. rewrite !E. cbn [re Cscal Cadd RtoC C0]. ring.
  - assert (L : forall k l, lap_symbol 4 4 1 k l = - (PI ^ 2 / 4 * IZR (sfreq 4 k * sfreq 4 k + sfreq 4 l * sfreq 4 l))).
    { intros k l. unfold lap_symbol. rewrite plus_IZR, !mult_IZR. cbn [INR]. field. }
    assert (P : PI ^ 2 <> 0) by apply pow_nonzero, PI_neq0. set (q := PI ^ 2) in *. clearbody q. cbn [rsum Nat.eqb andb]. rewrite !L. clear L.
    repeat match goal with |- context [IZR (?a * ?b + ?c * ?d)] => let z := eval vm_compute in (a * b + c * d)%Z in change (IZR (a * b + c * d)) with (IZR z) end.
    cbn [INR]. field. exact P.
Qed.
Theorem C143_potential_refuted : exists u v, get_phi (poisson_solver np_backend) (Ok (grid 4 4 corner)) 1 = Ok (grid 4 4 u) /\ get_phi (poisson_solver np_backend) (Ok (grid 4 4 (fun _ _ => 0))) 1 = Ok (grid 4 4 v) /\
  (forall i j, i <> 0%nat \/ j <> 0%nat -> corner i j = 0) /\ ~ near 4 4 3 2 2 0 0 /\ u 2%nat 2%nat <> v 2%nat 2%nat.
Proof.
  assert (H4 : (0 < 4)%nat) by lia. assert (H1 : (1 : R) <> 0) by lra.
  pose proof (act_phi _ _ _ _ _ (backend_acts 4 4 np_backend 1 1%nat H4 H4 H1 (or_introl eq_refl))) as G.
  rewrite !G. do 2 eexists. split; [reflexivity|]. split; [reflexivity|]. split; [|split].
  - intros [|i] [|j] Q; try reflexivity. destruct Q; contradiction.
  - intros (a & b & Q & A & B). unfold sh, pidx in A, B. change (Z.of_nat 2) with 2%Z in A, B. change (Z.of_nat 4) with 4%Z in A, B.
    pose proof (Z.div_mod (2 + a) 4 ltac:(lia)) as D1. pose proof (Z.div_mod (2 + b) 4 ltac:(lia)) as D2.
    pose proof (Z.mod_pos_bound (2 + a) 4 ltac:(lia)). pose proof (Z.mod_pos_bound (2 + b) 4 ltac:(lia)). lia.
  - rewrite corner_opposite. change (fun _ _ : nat => 0) with (fconst 0). rewrite (invlap_const 4 4 1 0 2 2 H4 H4 H1 ltac:(lia) ltac:(lia)). pose proof PI_RGT_0. assert (0 < 87 / 160 / PI ^ 2) by (apply Rdiv_lt_0_compat; [lra|now apply pow_lt]). lra.
Qed.
Print Assumptions C143_potential_refuted.
(** a value far away has no influence, one nearby does: 3-fold Laplacian of an
    impulse on a 9 x 1 grid, at 3 and at 4 cells *)
Example C143_case : lap_iter 3 9 1 1 corner 3 0 = 1 /\ lap_iter 3 9 1 1 corner 4 0 = 0 /\ near 9 1 3 3 0 0 0 /\ around 4 4 0 0 3 3 /\ beside 4 4 0 0 0 3 0.
Proof.
  split; [rewrite lap_peak by (lra || lia); rewrite pow1; field|]. split; [apply lap_far; lia|]. split; [exists (-3)%Z, 0%Z; repeat split; lia|].
  split; [exists (-1)%Z, (-1)%Z; repeat split; lia|exists (-1)%Z; split; [now right|left; repeat split]].
Qed.
