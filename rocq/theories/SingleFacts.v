(** Facts about the single precision solver. *)
From Coq Require Import List Arith ZArith Lia Bool Reals Lra Psatz.
From Flocq Require Import Core Relative.
From Verif Require Import Num NdArray NdFacts Spec ModelPoisson GradFacts SumFacts Cplx DftFacts SpecFourier PoissonFacts PoissonProps SpecHW SpecPlasma SpecConv HWFacts
  DiagProps SpecWave WaveFacts NormFacts SymbolFacts StepFacts SpecTrip TripFacts RoundFacts ImageFacts ModelSingle SpecSingle RhsFacts.
Import ListNotations.
Local Open Scope R_scope.
Local Notation fe := (FLT_exp (-149) 24).
Local Instance Hp24 : Prec_gt_0 24 := eq_refl _.

Lemma round32_err r : Rabs (round32 r - r) <= / 2 ^ 24 * Rabs r + / 2 ^ 150.
Proof.
  destruct (error_N_FLT radix2 (-149) 24 eq_refl (fun x => negb (Z.even x)) r) as (eps & et & H1 & H2 & _ & H3).
  unfold round32. rewrite H3. replace (r * (1 + eps) + et - r) with (eps * r + et) by ring.
  apply Rle_trans with (1 := Rabs_triang _ _). rewrite Rabs_mult.
  assert (E1 : / 2 ^ 24 = / 2 * bpow radix2 (- (24) + 1)).
  { rewrite pow_bpow, <- bpow_opp. change (/ 2) with (bpow radix2 (-1)). rewrite <- bpow_plus. reflexivity. }
  assert (E2 : / 2 ^ 150 = / 2 * bpow radix2 (-149)).
  { rewrite pow_bpow, <- bpow_opp. change (/ 2) with (bpow radix2 (-1)). rewrite <- bpow_plus. reflexivity. }
  rewrite E1, E2. apply Rplus_le_compat; [|exact H2]. apply Rmult_le_compat_r; [apply Rabs_pos|exact H1].
Qed.
Lemma single_format x : generic_format radix2 fe x <-> is_single x.
Proof.
  split.
  - intros G. apply FLT_format_generic in G; [|reflexivity]. destruct G as [[m e] E1 E2 E3]. cbn [Fnum Fexp] in *.
    exists m, (Z.to_nat (e + 149)). split; [exact E2|]. rewrite E1. unfold F2R. cbn [Fnum Fexp]. rewrite !pow_bpow, Z2Nat.id by lia.
    unfold Rdiv. rewrite <- bpow_opp, Rmult_assoc, <- bpow_plus. do 2 f_equal. lia.
  - intros (m & e & Hm & ->). apply generic_format_FLT. exists (Float radix2 m (Z.of_nat e - 149)); cbn [Fnum Fexp].
    + unfold F2R. cbn [Fnum Fexp]. rewrite !pow_bpow. unfold Rdiv. rewrite <- bpow_opp, Rmult_assoc, <- bpow_plus. do 2 f_equal.
    + exact Hm.
    + lia.
Qed.
Lemma round32_nearest x : nearest_single x (round32 x).
Proof.
  split.
  - apply single_format. apply generic_format_round; [apply FLT_exp_valid; exact eq_refl|apply valid_rnd_N].
  - intros z Hz. apply single_format in Hz. destruct (round_N_pt radix2 fe (fun x => negb (Z.even x)) x) as [_ H].
    rewrite (Rabs_minus_sym x (round32 x)), (Rabs_minus_sym x z). apply (H z Hz).
Qed.
Lemma fits32_true x : fits32 x = true <-> Rabs x <= 2 ^ 127.
Proof. unfold fits32. destruct (Rle_dec (Rabs x) (2 ^ 127)); split; intros; (assumption || discriminate || contradiction || reflexivity). Qed.
Lemma astype32_grid ny nx f : in_range32 ny nx f -> astype32 (Ok (grid ny nx f)) = Ok (grid ny nx (fun i j => round32 (f i j))).
Proof.
  intros H. unfold astype32. cbn [bind].
  replace (forallb fits32 (data (grid ny nx f))) with true.
  - unfold cast, grid, stack, build. cbn [bind shape data]. now rewrite map_map.
  - symmetry. apply forallb_forall. intros x Hx. apply data_grid in Hx. destruct Hx as (i & j & Hi & Hj & ->). apply fits32_true. now apply H.
Qed.
Section S.
Variables (ny nx : nat).
Hypothesis Hy : (0 < ny)%nat.
Hypothesis Hx : (0 < nx)%nat.
Lemma single_double f dx t u : in_range32 ny nx f ->
  np_fourier_poisson_double (Ok (grid ny nx (fun i j => round32 (f i j)))) dx t = Ok (grid ny nx u) -> in_range32 ny nx u ->
  np_fourier_poisson_single (Ok (grid ny nx f)) dx t = Ok (grid ny nx (fun i j => round32 (u i j))).
Proof.
  intros Hf E Hu. unfold np_fourier_poisson_single. rewrite astype32_grid by assumption. cbn [bind].
  change (mul_ _ _) with (np_fourier_poisson_double (Ok (grid ny nx (fun i j => round32 (f i j)))) dx t). rewrite E. now apply astype32_grid.
Qed.
Lemma nm_round f : nm ny nx (fun i j => round32 (f i j) - f i j) <= / 2 ^ 24 * nm ny nx f + / 2 ^ 150.
Proof.
  assert (P1 : 0 < / 2 ^ 24) by (apply Rinv_0_lt_compat, pow_lt; lra). assert (P2 : 0 < / 2 ^ 150) by (apply Rinv_0_lt_compat, pow_lt; lra).
  set (c := / 2 ^ 24) in *. set (e := / 2 ^ 150) in *.
  apply Rle_trans with (nm ny nx (fadd (fscale c (fun i j => Rabs (f i j))) (fconst e))).
  - rewrite <- (Rmult_1_l (nm ny nx (fadd _ _))). apply nm_mul; try assumption; [lra|]. intros i j _ _. rewrite Rmult_1_l.
    unfold fadd, fscale, fconst. rewrite (Rabs_pos_eq (c * _ + e)) by (pose proof (Rabs_pos (f i j)); nra). apply round32_err.
  - eapply Rle_trans; [apply nm_add; assumption|]. rewrite nm_scale, nm_const, !Rabs_pos_eq by (assumption || lra). apply Rplus_le_compat_r. apply Rmult_le_compat_l; [lra|].
    right. unfold nm. f_equal. unfold ip, inner. f_equal. apply gsum_ext. intros i j _ _. rewrite <- Rabs_mult. apply Rabs_pos_eq, Rle_0_sqr.
Qed.
Lemma single_err f h v : 0 < h -> in_range32 ny nx f ->
  in_range32 ny nx (invlap ny nx h (fun i j => round32 (f i j))) ->
  np_fourier_poisson_double (Ok (grid ny nx f)) h 1 = Ok (grid ny nx v) -> exists g,
  np_fourier_poisson_single (Ok (grid ny nx f)) h 1 = Ok (grid ny nx g) /\
  rms ny nx (fun i j => g i j - v i j) <= / 2 ^ 24 * rms ny nx v + (1 + / 2 ^ 24) * / gap ny nx h * (/ 2 ^ 24 * rms ny nx f + / 2 ^ 150) + / 2 ^ 150.
Proof.
  intros Hh Hf Hu Ev. set (fr := fun i j => round32 (f i j)) in *. set (u := invlap ny nx h fr) in *.
  exists (fun i j => round32 (u i j)). split.
  - apply single_double; try assumption. now apply np_solver_invlap.
  - rewrite np_solver_invlap in Ev by assumption. assert (Q : grid ny nx (invlap ny nx h f) = grid ny nx v) by congruence.
    pose proof (grid_inj ny nx _ _ Q) as A. rewrite !rms_nm.
    rewrite (nm_ext ny nx v (invlap ny nx h f)) by (intros i j Hi Hj; symmetry; now apply A).
    pose proof (nm_round u) as R1. pose proof (nm_round f) as R2.
    assert (D : nm ny nx (fsub u (invlap ny nx h f)) <= / gap ny nx h * (/ 2 ^ 24 * nm ny nx f + / 2 ^ 150)).
    { rewrite (nm_ext ny nx (fsub u (invlap ny nx h f)) (invlap ny nx h (fsub fr f))).
      - eapply Rle_trans; [apply invlap_nm; assumption|]. apply Rmult_le_compat_l; [left; apply Rinv_0_lt_compat; now apply gap_pos|]. exact R2.
      - intros i j _ _. unfold fsub, u. rewrite (invlap_ext ny nx h (fun i j => fr i j - f i j) (fadd (fscale 1 fr) (fscale (-1) f))) by (intros a b _ _; unfold fadd, fscale; ring).
        rewrite invlap_lin by (assumption || lra). ring. }
    assert (U : nm ny nx u <= nm ny nx (invlap ny nx h f) + nm ny nx (fsub u (invlap ny nx h f))).
    { rewrite (nm_ext ny nx u (fadd (invlap ny nx h f) (fsub u (invlap ny nx h f)))) at 1 by (intros i j _ _; unfold fadd, fsub; ring). now apply nm_add. }
    rewrite (nm_ext ny nx (fun i j => round32 (u i j) - v i j) (fadd (fun i j => round32 (u i j) - u i j) (fsub u (invlap ny nx h f))))
      by (intros i j Hi Hj; unfold fadd, fsub; rewrite (A i j Hi Hj); ring).
    eapply Rle_trans; [apply nm_add; assumption|].
    assert (P1 : 0 < / 2 ^ 24) by (apply Rinv_0_lt_compat, pow_lt; lra).
    set (c := / 2 ^ 24) in *. set (e := / 2 ^ 150) in *. set (D0 := / gap ny nx h * (c * nm ny nx f + e)) in *.
    replace ((1 + c) * / gap ny nx h * (c * nm ny nx f + e)) with ((1 + c) * D0) by (unfold D0; ring).
    set (V := nm ny nx (invlap ny nx h f)) in *. set (N1 := nm ny nx u) in *. set (N2 := nm ny nx (fsub u _)) in *. nra.
Qed.
End S.

(** ** rounding explicit numbers *)
Lemma round32_val x (e m : Z) : bpow radix2 (e - 1) <= x < bpow radix2 e -> (-125 <= e)%Z -> Rabs (x * bpow radix2 (24 - e) - IZR m) < / 2 ->
  round32 x = IZR m * bpow radix2 (e - 24).
Proof.
  intros H He Hm. assert (P : 0 < x) by (pose proof (bpow_gt_0 radix2 (e - 1)); lra).
  assert (M : Raux.mag radix2 x = e :> Z) by (apply Raux.mag_unique; rewrite Rabs_pos_eq by lra; exact H).
  unfold round32, round, scaled_mantissa, cexp. rewrite M. unfold FLT_exp. rewrite Z.max_l by lia. unfold F2R. cbn [Fnum Fexp].
  replace (- (e - 24))%Z with (24 - e)%Z by lia. f_equal. f_equal. apply Znearest_imp. exact Hm.
Qed.
(** ** three cells in a row *)
Definition c3 : R := 1 + 3 / 4 * / 2 ^ 24.
Definition h3 : R := 2 * PI / 3 * sqrt c3.
Definition f3 : field := fun _ j => match j with 0%nat => 1 | 1%nat => 2 | _ => -3 end.
Lemma c3_pos : 0 < / 2 ^ 24 /\ 1 < c3.
Proof. assert (0 < / 2 ^ 24) by (apply Rinv_0_lt_compat, pow_lt; lra). unfold c3. split; lra. Qed.
Lemma h3_pos : 0 < h3.
Proof. destruct c3_pos. pose proof PI_RGT_0. unfold h3. apply Rmult_lt_0_compat; [lra|apply sqrt_lt_R0; lra]. Qed.
Lemma imu3 a b : (a < 1)%nat -> (b < 3)%nat -> imu 1 3 h3 a b = - c3 * nodc a b.
Proof.
  intros Ha Hb. destruct a as [|a]; [|lia]. unfold imu, nodc. destruct (is00 0 b) eqn:E; [ring|]. apply is00_false in E.
  rewrite mu_eq by (lia || apply h3_pos). unfold theta.
  assert (S : IZR (sfreq 3 b) ^ 2 = 1). { destruct b as [|[|[|b]]]; try lia; cbn; ring. }
  change (sfreq 1 0) with 0%Z. change (INR 1) with 1. replace (INR 3) with 3 by (cbn; ring).
  replace (PI * 0 / 1) with 0 by field. replace ((PI * IZR (sfreq 3 b) / 3) ^ 2) with (PI ^ 2 / 9 * IZR (sfreq 3 b) ^ 2) by field. rewrite S.
  unfold h3. rewrite Rpow_mult_distr, pow2_sqrt by (destruct c3_pos; lra). pose proof PI_RGT_0. destruct c3_pos. field. split; lra.
Qed.
Lemma f3_mean : gmean 1 3 f3 = 0.
Proof. unfold gmean, gsum, f3. cbn. field. Qed.
Lemma invlap3 : agree 1 3 (invlap 1 3 h3 f3) (fscale (- c3) f3).
Proof.
  intros i j Hi Hj. rewrite (invlap_imu 1 3 h3 ltac:(lia) ltac:(lia) h3_pos f3 i j Hi Hj).
  rewrite (rmult_ext 1 3 (imu 1 3 h3) (fun a b => (- c3) * nodc a b) f3 f3) by (auto; intros; now apply imu3).
  rewrite rmult_scale. rewrite <- (demean_rm 1 3 ltac:(lia) ltac:(lia) f3 i j Hi Hj). unfold demean, fscale. rewrite f3_mean. ring.
Qed.
Lemma p24 : bpow radix2 24 = 2 ^ 24. Proof. now rewrite pow_bpow. Qed.
Lemma r_c : round32 c3 = 1.
Proof.
  destruct c3_pos as [P C]. pose proof (pow_lt 2 24 ltac:(lra)) as Q.
  rewrite (round32_val c3 1 (2 ^ 23)).
  - change (bpow radix2 (1 - 24)) with (/ IZR (2 ^ 23)). field. apply IZR_neq. lia.
  - unfold c3. cbn [bpow Z.sub Z.add Z.opp Z.pos_sub]. cbn. lra.
  - lia.
  - change (bpow radix2 (24 - 1)) with (IZR (2 ^ 23)). unfold c3. apply Rabs_def1; cbn; lra.
Qed.
Lemma r_2c : round32 (2 * c3) = 2.
Proof.
  rewrite (round32_val (2 * c3) 2 (2 ^ 23)).
  - change (bpow radix2 (2 - 24)) with (/ IZR (2 ^ 22)). cbn. lra.
  - unfold c3. cbn. lra.
  - lia.
  - change (bpow radix2 (24 - 2)) with (IZR (2 ^ 22)). unfold c3. apply Rabs_def1; cbn; lra.
Qed.
Lemma r_3c : round32 (3 * c3) = 3 + / 2 ^ 22.
Proof.
  rewrite (round32_val (3 * c3) 2 (3 * 2 ^ 22 + 1)).
  - change (bpow radix2 (2 - 24)) with (/ IZR (2 ^ 22)). cbn. lra.
  - unfold c3. cbn. lra.
  - lia.
  - change (bpow radix2 (24 - 2)) with (IZR (2 ^ 22)). unfold c3. apply Rabs_def1; cbn; lra.
Qed.
Lemma r_opp x : round32 (- x) = - round32 x.
Proof. unfold round32. apply round_NE_opp. Qed.
Lemma r_int m : (Z.abs m < 2 ^ 24)%Z -> round32 (IZR m) = IZR m.
Proof.
  intros H. unfold round32. apply round_generic; [apply valid_rnd_N|]. apply single_format. exists m, 149%nat. split; [exact H|]. assert (2 ^ 149 <> 0) by (apply Rgt_not_eq, pow_lt; lra). generalize dependent (2 ^ 149). intros. field. assumption.
Qed.
Lemma single3 : exists g v,
  np_fourier_poisson_single (Ok (grid 1 3 f3)) h3 1 = Ok (grid 1 3 g) /\ np_fourier_poisson_double (Ok (grid 1 3 f3)) h3 1 = Ok (grid 1 3 v) /\
  gmean 1 3 v = 0 /\ gmean 1 3 g = / (3 * 2 ^ 22).
Proof.
  assert (B : 4 <= 2 ^ 127). { apply Rle_trans with (2 ^ 2); [lra|]. apply Rle_pow; [lra|lia]. } destruct c3_pos as [P C].
  assert (C2 : c3 < 4 / 3) by (unfold c3; cbn; lra).
  assert (F : forall i j, (i < 1)%nat -> (j < 3)%nat -> round32 (f3 i j) = f3 i j).
  { intros i j _ Hj. destruct j as [|[|[|j]]]; [| | |lia]; unfold f3; apply r_int; lia. }
  exists (fun i j => round32 (fscale (- c3) f3 i j)), (fscale (- c3) f3).
  assert (D : np_fourier_poisson_double (Ok (grid 1 3 f3)) h3 1 = Ok (grid 1 3 (fscale (- c3) f3))).
  { rewrite np_solver_invlap by (lia || apply h3_pos). f_equal. apply grid_ext. intros i j Hi Hj. now apply invlap3. }
  split; [|split; [exact D|split]].
  - apply single_double.
    + intros i j _ Hj. destruct j as [|[|[|j]]]; [| | |lia]; unfold f3; apply Rabs_le; lra.
    + rewrite (grid_ext 1 3 _ f3) by (intros; now apply F). exact D.
    + intros i j _ Hj. destruct j as [|[|[|j]]]; [| | |lia]; unfold fscale, f3; apply Rabs_le; lra.
  - unfold gmean, gsum, fscale, f3. cbn. field.
  - unfold gmean, gsum. cbn [rsum]. unfold fscale, f3.
    replace (- c3 * 1) with (- c3) by ring. replace (- c3 * 2) with (- (2 * c3)) by ring. replace (- c3 * -3) with (3 * c3) by ring.
    rewrite !r_opp, r_c, r_2c, r_3c. cbn. field.
Qed.
