(** Concrete runs: on a 2 x 2 grid, starting from constant fields. *)
From Coq Require Import Arith ZArith Bool Reals String List Lia Lra FunctionalExtensionality.
Import List.
From Verif Require Import Num NdArray NdFacts Spec GradFacts SumFacts LapFacts Cplx DftFacts SpecFourier PoissonFacts SpecHW SpecPlasma SpecDiag
  ModelGradients ModelPoisson ModelProperties ModelHW ModelBackend HWFacts StepFacts RhsFacts ModelSpectral DiagFacts DiagProps
  ModelIO ModelRun ModelRunHW SpecIO SpecRun SpecRunHW IOFacts PropsFacts RunFull Run2Props RunTop RunTop2 RunHWFacts RunHWProps RunHWCont RunHWSplit.
Import ListNotations.
Local Open Scope R_scope.
Local Open Scope string_scope.
#[local] Existing Instance TimeR.

Lemma invlap_const ny nx dx a i j : (0 < ny)%nat -> (0 < nx)%nat -> dx <> 0 -> (i < ny)%nat -> (j < nx)%nat ->
  invlap ny nx dx (fconst a) i j = 0.
Proof.
  intros Hy Hx Hd Hi Hj. rewrite <- invlap_centered by assumption.
  assert (E : rmult ny nx (inv_sym ny nx 0 1) (centered ny nx (fconst a)) i j = 0); [|rewrite E; ring].
  transitivity (rmult ny nx (inv_sym ny nx 0 1) (fadd (fscale 0 (fconst 0)) (fscale 0 (fconst 0))) i j).
  - apply rmult_ext; auto. intros k l _ _. unfold centered, gmean, fadd, fscale, fconst. rewrite gsum_const.
    field. split; apply not_0_INR; lia.
  - rewrite rmult_lin. ring.
Qed.

(** the parameters: only the adiabatic coupling, with or without zonal part *)
Definition pc (z : bool) : par := mkPar 1 1 0 0 0 z.
Definition kst (n o : R) : field * field := (fconst n, fconst o).
Definition sagr (ny nx : nat) (x y : field * field) : Prop := agree ny nx (fst x) (fst y) /\ agree ny nx (snd x) (snd y).

Section Const.
Variables (ny nx : nat) (dx : R).
Hypothesis Hy : (0 < ny)%nat.
Hypothesis Hx : (0 < nx)%nat.
Hypothesis Hd : dx <> 0.

(** rows of constants *)
Lemma ydev_agree f a i j : agree ny nx f (fconst a) -> (i < ny)%nat -> (j < nx)%nat -> ydev ny f i j = 0.
Proof using Hy Hx.
  intros H Hi Hj. unfold ydev, yavg. rewrite (H i j Hi Hj).
  assert (E : rsum ny (fun i => f i j) = rsum ny (fun _ => a)) by (apply rsum_ext; intros; now apply H).
  rewrite E, rsum_const. unfold fconst. field. apply not_0_INR. lia.
Qed.
Lemma rhs_const z y n o : sagr ny nx y (kst n o) -> sagr ny nx (hw_rhs (pc z) ny nx dx y) (kst (if z then 0 else - n) (if z then 0 else - n)).
Proof using Hy Hx Hd.
  intros [Hn Ho].
  assert (Hp : agree ny nx (invlap ny nx dx (snd y)) (fconst 0)).
  { intros i j Hi Hj. rewrite (invlap_ext ny nx dx (snd y) (fconst o) i j Ho). now apply invlap_const. }
  assert (Hc : agree ny nx (coupling (pc z) ny (invlap ny nx dx (snd y)) (fst y)) (fconst (if z then 0 else - n))).
  { intros i j Hi Hj. unfold coupling, pc, pzon. destruct z.
    - rewrite (ydev_agree _ 0) by assumption. rewrite (ydev_agree _ n) by assumption. unfold fconst. ring.
    - rewrite (Hp i j Hi Hj), (Hn i j Hi Hj). cbn. unfold fconst. ring. }
  split; intros i j Hi Hj; unfold hw_rhs, rhs_n, rhs_o, hyper; cbn [fst snd pc pc1 ppb pkap pnu pN]; rewrite (Hc i j Hi Hj); cbn; unfold fconst; ring.
Qed.
Lemma sagr_sadd x y n o n' o' : sagr ny nx x (kst n o) -> sagr ny nx y (kst n' o') -> sagr ny nx (sadd x y) (kst (n + n') (o + o')).
Proof.
  intros [A B] [C D]. split; intros i j Hi Hj; cbn; unfold fadd.
  - now rewrite (A i j Hi Hj), (C i j Hi Hj).
  - now rewrite (B i j Hi Hj), (D i j Hi Hj).
Qed.
Lemma sagr_sscale c x n o : sagr ny nx x (kst n o) -> sagr ny nx (sscale c x) (kst (c * n) (c * o)).
Proof.
  intros [A B]. split; intros i j Hi Hj; cbn; unfold fscale.
  - now rewrite (A i j Hi Hj).
  - now rewrite (B i j Hi Hj).
Qed.
Lemma sagr_eq x n o n' o' : sagr ny nx x (kst n o) -> n = n' -> o = o' -> sagr ny nx x (kst n' o').
Proof. now intros H -> ->. Qed.

(** one step: with the zonal part removed from the coupling nothing happens;
    otherwise the density decays *)
Lemma rk4_zonal y n o : sagr ny nx y (kst n o) -> sagr ny nx (rk4 (hw_rhs (pc true) ny nx dx) 1 y) (kst n o).
Proof using Hy Hx Hd.
  intros H. unfold rk4, rk4_from.
  pose proof (rhs_const true y n o H) as K1. set (k1 := hw_rhs (pc true) ny nx dx y) in *.
  pose proof (rhs_const true _ _ _ (sagr_sadd _ _ _ _ _ _ H (sagr_sscale (1/2) _ _ _ K1))) as K2. set (k2 := hw_rhs _ ny nx dx (sadd y (sscale (1/2) k1))) in *.
  pose proof (rhs_const true _ _ _ (sagr_sadd _ _ _ _ _ _ H (sagr_sscale (1/2) _ _ _ K2))) as K3. set (k3 := hw_rhs _ ny nx dx (sadd y (sscale (1/2) k2))) in *.
  pose proof (rhs_const true _ _ _ (sagr_sadd _ _ _ _ _ _ H (sagr_sscale 1 _ _ _ K3))) as K4. set (k4 := hw_rhs _ ny nx dx (sadd y (sscale 1 k3))) in *.
  cbv zeta. eapply sagr_eq.
  - apply sagr_sadd; [exact H|]. apply sagr_sscale. apply sagr_sadd; [|exact K4]. apply sagr_sadd; [|apply sagr_sscale; exact K3].
    apply sagr_sadd; [exact K1|]. apply sagr_sscale. exact K2.
  - cbv beta iota. lra.
  - cbv beta iota. lra.
Qed.
Lemma rk4_plain y n o : sagr ny nx y (kst n o) -> sagr ny nx (rk4 (hw_rhs (pc false) ny nx dx) 1 y) (kst (3/8 * n) (o - 5/8 * n)).
Proof using Hy Hx Hd.
  intros H. unfold rk4, rk4_from.
  pose proof (rhs_const false y n o H) as K1. set (k1 := hw_rhs (pc false) ny nx dx y) in *.
  pose proof (rhs_const false _ _ _ (sagr_sadd _ _ _ _ _ _ H (sagr_sscale (1/2) _ _ _ K1))) as K2. set (k2 := hw_rhs _ ny nx dx (sadd y (sscale (1/2) k1))) in *.
  pose proof (rhs_const false _ _ _ (sagr_sadd _ _ _ _ _ _ H (sagr_sscale (1/2) _ _ _ K2))) as K3. set (k3 := hw_rhs _ ny nx dx (sadd y (sscale (1/2) k2))) in *.
  pose proof (rhs_const false _ _ _ (sagr_sadd _ _ _ _ _ _ H (sagr_sscale 1 _ _ _ K3))) as K4. set (k4 := hw_rhs _ ny nx dx (sadd y (sscale 1 k3))) in *.
  cbv zeta. eapply sagr_eq.
  - apply sagr_sadd; [exact H|]. apply sagr_sscale. apply sagr_sadd; [|exact K4]. apply sagr_sadd; [|apply sagr_sscale; exact K3].
    apply sagr_sadd; [exact K1|]. apply sagr_sscale. exact K2.
  - cbv beta iota. lra.
  - cbv beta iota. lra.
Qed.
End Const.

(** rounding to four digits leaves whole numbers alone *)
Lemma round4_INR j : t_round4 (INR j) = INR j.
Proof.
  cbn. rewrite INR_IZR_INZ. rewrite <- mult_IZR. unfold R_round_even.
  assert (E : Int_part (IZR (Z.of_nat j * 10000)) = (Z.of_nat j * 10000)%Z).
  { destruct (base_Int_part (IZR (Z.of_nat j * 10000))) as [B1 B2]. set (m := (Z.of_nat j * 10000)%Z) in *.
    apply le_IZR in B1. assert (m < Int_part (IZR m) + 1)%Z by (apply lt_IZR; rewrite plus_IZR; lra). lia. }
  rewrite E. destruct (Rlt_dec _ _) as [_|N].
  - rewrite mult_IZR. field.
  - exfalso. apply N. lra.
Qed.

(** the call: grid_pts = 2, k0 = 1, step_size = 1, every step saved through a
    buffer of one frame, no down-sampling, all eight properties *)
Definition wit_props : list string :=
  ["gamma_n"; "gamma_n_spectral"; "gamma_c"; "energy"; "thermal_energy"; "kinetic_energy"; "enstrophy"; "enstrophy_phi"].
Definition wit_cfg (phys : physics (T := R)) (T : R) : cfg (arr R) R :=
  mkCfg 1 T phys (domain_dx 1 2) 1 2 2 2 2 true 0 true 1 1 None true false false wit_props.
Definition wit1 : cfg (arr R) R := wit_cfg (physics_params (domain_dx 1 2) 1 1 0 1 0 0) 2.
Definition wit2 (z : bool) : cfg (arr R) R := wit_cfg (physics_params2 (domain_dx 1 2) 1 1 0 1 0 0 z) 2.
Definition idf (f : field) : field := f.

Lemma wit_dx : domain_dx 1 2 <> 0.
Proof. unfold domain_dx. pose proof PI_RGT_0. cbn. apply Rgt_not_eq. unfold Rdiv. apply Rmult_lt_0_compat; [apply Rmult_lt_0_compat|]; lra. Qed.
Lemma wit_fits k : In k wit_props -> prop_fits k 2 2.
Proof.
  intros H. unfold prop_fits. cbn in H. repeat (destruct H as [<-|H]; [cbn; tauto|]). destruct H.
Qed.
Lemma wit_setup z phys T : hw_setup np_backend (pc z) 2 2 2 2 1 idf (wit_cfg phys T).
Proof.
  constructor; cbn; try lia; try lra; try reflexivity.
  - now left.
  - repeat constructor; cbn; intuition discriminate.
  - exact wit_fits.
Qed.

Notation Yw z := (hw_states (pc z) 2 2 (domain_dx 1 2) 1 (kst 1 1)).
Lemma wit_state_plain : sagr 2 2 (Yw false 1) (kst (3/8) (3/8)).
Proof.
  unfold hw_states. cbn [iter_step].
  eapply sagr_eq; [apply (rk4_plain 2 2 (domain_dx 1 2) ltac:(lia) ltac:(lia) wit_dx (kst 1 1) 1 1); split; intros i j _ _; reflexivity|lra|lra].
Qed.
Lemma wit_state_zonal k : sagr 2 2 (Yw true k) (kst 1 1).
Proof.
  unfold hw_states. assert (H : forall y, sagr 2 2 y (kst 1 1) -> sagr 2 2 (iter_step (rk4 (hw_rhs (pc true) 2 2 (domain_dx 1 2)) 1) k y) (kst 1 1)).
  { induction k as [|k IH]; intros y Hy; [exact Hy|]. cbn [iter_step]. apply IH.
    apply rk4_zonal; auto. exact wit_dx. }
  apply H. split; intros i j _ _; reflexivity.
Qed.
Lemma wit_nonzero z : nonzero_on 2 2 (fst (Yw z 1)) /\ nonzero_on 2 2 (snd (Yw z 1)).
Proof.
  destruct z; [destruct (wit_state_zonal 1) as [A B]|destruct wit_state_plain as [A B]];
    (split; exists 0%nat, 0%nat; (split; [lia|]); (split; [lia|]); [rewrite (A 0%nat 0%nat ltac:(lia) ltac:(lia))|rewrite (B 0%nat 0%nat ltac:(lia) ltac:(lia))]; cbn; unfold fconst; lra).
Qed.
Lemma wit_times j : (j < 1)%nat -> t_round4 (INR j * 1) < 1.
Proof. intros H. replace j with 0%nat by lia. rewrite Rmult_1_r, round4_INR. cbn. lra. Qed.
Lemma wit_times2 j : (j < 1 + 1)%nat -> t_round4 (INR j * 1) < 2.
Proof. intros H. rewrite Rmult_1_r, round4_INR. replace 2 with (INR 2) by (cbn; ring). apply lt_INR. lia. Qed.
Lemma wit_end n T : T = INR n -> T <= t_round4 (INR n * 1).
Proof. intros ->. rewrite Rmult_1_r, round4_INR. lra. Qed.

Notation SW := (hw_sim np_backend (fun x => x) 2 2 2 2).
Notation PW := (plasma0 (grid 2 2 (fconst 1)) (grid 2 2 (fconst 1)) (grid 2 2 (fconst 1))).

(** a zonal run2 done in two parts is not the run done in one *)
Lemma zonal_lost : exists f g h,
  result_of (run2 SW (with_end (wit2 true) 1) 2 PW) None = Ok tt /\ disk_of (run2 SW (with_end (wit2 true) 1) 2 PW) None = Some f /\
  result_of (run2 SW (wit2 true) 2 PW) (Some f) = Ok tt /\ disk_of (run2 SW (wit2 true) 2 PW) (Some f) = Some g /\
  result_of (run2 SW (wit2 true) 3 PW) None = Ok tt /\ disk_of (run2 SW (wit2 true) 3 PW) None = Some h /\
  dget (dsets h) "density" = Some (Rows [RFrame (grid 2 2 (fconst 1)); RFrame (grid 2 2 (fconst 1)); RFrame (grid 2 2 (fconst 1))]) /\
  dget (dsets g) "density" = Some (Rows [RFrame (grid 2 2 (fconst 1)); RFrame (grid 2 2 (fconst 1)); RFrame (grid 2 2 (fconst (3/8)))]).
Proof.
  destruct (split2_any np_backend (pc true) 2 2 2 2 1 idf (wit2 true) (fun x => x) (wit_setup true _ _) eq_refl eq_refl eq_refl eq_refl
    ltac:(cbn; lra) 1 1 (le_n 1) eq_refl ltac:(rewrite its_eq by (cbn; (reflexivity || lra)); reflexivity) eq_refl (kst 1 1) (fconst 1)
    (proj1 (wit_nonzero true)) (proj2 (wit_nonzero true)) 1 2 2 eq_refl wit_fits wit_times (wit_end 1 1 ltac:(cbn; ring))
    wit_times2 (wit_end (1 + 1) 2 ltac:(cbn; ring)) (le_n 2) (le_n 2) PW) as (f & g & Rf & Df & Rg & Dg & (G1 & _) & _).
  destruct (hw_run2_fresh np_backend (pc true) 2 2 2 2 1 idf (wit2 true) (fun x => x) (wit_setup true _ _)
    (physics_params2 (domain_dx 1 2) 1 1 0 1 0 0 true) (hw_of_params2 np_backend (pc true) (domain_dx 1 2) 1 ltac:(lra)) eq_refl wit_fits
    (kst 1 1) (fconst 1) None 2 3 eq_refl (params2_nodup _ _ _ _ _ _ _ _) (or_introl eq_refl)) as (h & Rh & Dh & Ah & (H1 & _) & _).
  { eexists. repeat split. }
  { exact wit_times2. }
  { apply (wit_end 2). cbn. ring. }
  { lia. }
  exists f, g, h. do 6 (split; [assumption|]).
  rewrite !(its_eq (wit2 true)) in * by (cbn; (reflexivity || lra)).
  change (c_rec (wit2 true)) with 0 in *. change (c_step (wit2 true)) with 1 in *. change (c_dx (wit2 true)) with (domain_dx 1 2) in *.
  destruct (Rlt_dec 0 (INR 2 * 1)) as [_|N]; [|exfalso; apply N; cbn; lra].
  change (0%nat :: snap_its (wit2 true) 2)%list with [0; 1; 2]%nat in *.
  change (0%nat :: snap_its (wit2 true) 1)%list with [0; 1]%nat in *.
  split.
  - rewrite H1. cbn [map hw_frame f_n]. do 2 f_equal.
    repeat (apply (f_equal2 cons); [f_equal; apply grid_ext; intros i j Hi Hj; unfold idf; now rewrite (proj1 (wit_state_zonal _) i j Hi Hj)|]). reflexivity.
  - rewrite G1. rewrite (cont_its_eq (wit2 true) eq_refl ltac:(cbn; lra)).
    change (snap_its (wit2 true) 1) with [1]%nat. cbn [map app hw_frame cont_frame f_n]. do 2 f_equal.
    do 2 (apply (f_equal2 cons); [f_equal; apply grid_ext; intros i j Hi Hj; unfold idf; now rewrite (proj1 (wit_state_zonal _) i j Hi Hj)|]).
    apply (f_equal2 cons); [|reflexivity]. f_equal. apply grid_ext. intros i j Hi Hj. unfold idf.
    change (no_zonal (pc true)) with (pc false).
    pose proof (rk4_plain 2 2 (domain_dx 1 2) ltac:(lia) ltac:(lia) wit_dx _ 1 1 (wit_state_zonal 1)) as [A _].
    change (hw_states (pc false) 2 2 (domain_dx 1 2) 1 (Yw true 1) 1) with (rk4 (hw_rhs (pc false) 2 2 (domain_dx 1 2)) 1 (Yw true 1)).
    rewrite (A i j Hi Hj). cbn. unfold fconst. lra.
Qed.

Lemma trunc_IZR z : (0 <= z)%Z -> R_trunc (IZR z) = z.
Proof.
  intros Hz. unfold R_trunc. destruct (Rle_dec 0 (IZR z)) as [_|N]; [|exfalso; apply N; now apply IZR_le].
  destruct (base_Int_part (IZR z)) as [B1 B2]. apply le_IZR in B1.
  assert (z < Int_part (IZR z) + 1)%Z by (apply lt_IZR; rewrite plus_IZR; lra). lia.
Qed.
Lemma trunc_1 : R_trunc (1 / 1) = 1%Z.
Proof. replace (1 / 1) with (IZR 1) by (cbn; field). now apply trunc_IZR. Qed.
Lemma trunc_2 : R_trunc (2 / 1) = 2%Z.
Proof. replace (2 / 1) with (IZR 2) by (cbn; field). now apply trunc_IZR. Qed.
Lemma trunc_21 : R_trunc ((2 - INR 1 * 1) / 1) = 1%Z.
Proof. replace ((2 - INR 1 * 1) / 1) with (IZR 1) by (cbn; field). now apply trunc_IZR. Qed.

(** run in two parts: the clock starts again *)
Lemma clock_restarts : exists f g h,
  disk_of (run SW (with_end wit1 1) PW) None = Some f /\
  result_of (run SW wit1 PW) (Some f) = Ok tt /\ disk_of (run SW wit1 PW) (Some f) = Some g /\
  disk_of (run SW wit1 PW) None = Some h /\
  dget (dsets h) "time" = Some (Rows [RNum 0; RNum 1; RNum 2]) /\
  dget (dsets g) "time" = Some (Rows [RNum 0; RNum 1; RNum 1]).
Proof.
  destruct (split1_same np_backend (pc false) 2 2 2 2 1 idf wit1 (fun x => x) (wit_setup false _ _) eq_refl eq_refl eq_refl eq_refl
    ltac:(cbn; lra) 1 1 (le_n 1) eq_refl ltac:(rewrite its_eq by (cbn; (reflexivity || lra)); reflexivity) eq_refl (kst 1 1) (fconst 1)
    (proj1 (wit_nonzero false)) (proj2 (wit_nonzero false)) eq_refl eq_refl ltac:(cbn [c_step wit1 wit_cfg]; now rewrite trunc_1) PW) as (f & g & h & Df & Rg & Dg & Rh & Dh & _ & Th & Tg).
  { cbn [c_end c_step wit1 wit_cfg]. now rewrite trunc_2, trunc_21. }
  exists f, g, h. do 4 (split; [assumption|]).
  cbn [c_end c_step wit1 wit_cfg] in Th, Tg. rewrite trunc_21 in Th, Tg.
  change (0%nat :: snap_its wit1 (1 + Z.to_nat 1))%list with [0; 1; 2]%nat in Th.
  change (0%nat :: snap_its wit1 1 ++ snap_its wit1 (Z.to_nat 1))%list with [0; 1; 1]%nat in Tg.
  split; [rewrite Th|rewrite Tg]; cbn [map]; do 2 f_equal; repeat (apply (f_equal2 cons); [f_equal; cbn; ring|]); reflexivity.
Qed.

(** the first recorded potential is the noise, not the potential of omega *)
Lemma first_potential : exists g, disk_of (run SW wit1 PW) None = Some g /\
  exists rest, dget (dsets g) "omega" = Some (Rows (RFrame (grid 2 2 (fconst 1)) :: rest)) /\
  exists rest', dget (dsets g) "phi" = Some (Rows (RFrame (grid 2 2 (fconst 1)) :: rest')) /\
  agree 2 2 (invlap 2 2 (domain_dx 1 2) (fconst 1)) (fconst 0).
Proof.
  destruct (hw_run_fresh np_backend (pc false) 2 2 2 2 1 idf wit1 (fun x => x) (wit_setup false _ _)
    (physics_params (domain_dx 1 2) 1 1 0 1 0 0) (hw_of_params np_backend (pc false) (domain_dx 1 2) 1 ltac:(lra)) eq_refl
    (kst 1 1) (fconst 1) None eq_refl (params_nodup _ _ _ _ _ _ _) (or_introl eq_refl)) as (h & Rh & Dh & Ah & (H1 & H2 & H3 & _) & _).
  { eexists. repeat split. }
  exists h. split; [exact Dh|]. rewrite (its_eq wit1) in * by (cbn; (reflexivity || lra)).
  eexists. split; [rewrite H2; reflexivity|]. eexists. split; [rewrite H3; reflexivity|].
  intros i j Hi Hj. apply invlap_const; try assumption; try lia. exact wit_dx.
Qed.

(** a buffer of 100 frames, 3 recorded: continuing is refused *)
Definition wit_short : cfg (arr R) R :=
  mkCfg 1 2 (physics_params (domain_dx 1 2) 1 1 0 1 0 0) (domain_dx 1 2) 1 2 2 2 2 true 0 true 100 1 None true false false wit_props.
Lemma wit_short_setup : hw_setup np_backend (pc false) 2 2 2 2 1 idf wit_short /\
  (length (recorded_its wit_short (Z.to_nat (R_trunc (c_end wit_short / c_step wit_short)))) = 3)%nat.
Proof.
  split.
  - constructor; cbn; try lia; try lra; try reflexivity.
    + now left.
    + repeat constructor; cbn; intuition discriminate.
    + exact wit_fits.
  - cbn [c_end c_step wit_short]. rewrite trunc_2, its_eq by (cbn; (reflexivity || lra)). reflexivity.
Qed.
