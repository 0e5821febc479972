(** Property C144: the bracket combines pairs of modes. *)
From Coq Require Import List Arith ZArith Lia Bool Reals Lra Psatz String.
From Verif Require Import Num NdArray NdFacts ModelArakawa Spec GradFacts SumFacts Cplx SpecFourier DftFacts ModelHW ModelBackend SpecHW SpecPlasma HWFacts StepFacts RhsFacts HWProps ArakawaFacts
  BalanceWit SpecZonal ZonalFacts SpecLinear LinearFacts SpecTriad TriadFacts PropAdvect PropScale PropLinear PropReach.
Import ListNotations.
Local Open Scope R_scope.

(** The bracket has no part in a mode to which no two modes of its arguments
    add up. *)
Theorem C144_triads ny nx dx f g : (0 < ny)%nat -> (0 < nx)%nat -> dx <> 0 ->
  exists J, np_periodic_arakawa_vec (Ok (grid ny nx f)) (Ok (grid ny nx g)) dx = Ok (grid ny nx J) /\
    forall k l, no_pair ny nx k l f g -> coefficient ny nx k l J = C0.
Proof.
  intros Hy Hx Hd. exists (jacobian ny nx dx f g). split.
  - rewrite np_periodic_arakawa_vec_grid by assumption. f_equal. apply grid_ext. intros i j _ _. symmetry. now apply jacobian_ara.
  - intros k l Np. now apply jac_zero.
Qed.
Print Assumptions C144_triads.
(** Wave numbers up to a and c give wave numbers up to a + c. *)
Lemma sfreq_rest n k k' (a c : Z) : (k < n)%nat -> (k' < n)%nat -> (Z.abs (sfreq n k') <= a)%Z -> (Z.abs (sfreq n (rest_y n k k')) <= c)%Z -> (Z.abs (sfreq n k) <= a + c)%Z.
Proof.
  intros Hk Hk'. assert (Hr : (rest_y n k k' < n)%nat) by (unfold rest_y; apply NdFacts.pidx_lt; lia).
  assert (E : (Z.of_nat (rest_y n k k') = Z.of_nat k - Z.of_nat k' \/ Z.of_nat (rest_y n k k') = Z.of_nat k - Z.of_nat k' + Z.of_nat n)%Z).
  { unfold rest_y. rewrite NdFacts.pidx_mod by lia. destruct (Z_lt_le_dec (Z.of_nat k - Z.of_nat k') 0) as [N|N].
    - right. rewrite <- (Z_mod_plus_full _ 1). rewrite Z.mod_small; lia.
    - left. rewrite Z.mod_small; lia. }
  unfold sfreq. destruct (Nat.ltb_spec (2 * k') n), (Nat.ltb_spec (2 * rest_y n k k') n), (Nat.ltb_spec (2 * k) n); intros; lia.
Qed.
Theorem C144_band ny nx dx f g a b c d : (0 < ny)%nat -> (0 < nx)%nat -> dx <> 0 ->
  only_modes ny nx (band ny nx a b) f -> only_modes ny nx (band ny nx c d) g ->
  exists J, np_periodic_arakawa_vec (Ok (grid ny nx f)) (Ok (grid ny nx g)) dx = Ok (grid ny nx J) /\ only_modes ny nx (band ny nx (a + c) (b + d)) J.
Proof.
  intros Hy Hx Hd F G. destruct (C144_triads ny nx dx f g Hy Hx Hd) as (J & E & T). exists J. split; [exact E|].
  intros k l Hk Hl N. apply T. intros k' l' Hk' Hl'. destruct (band ny nx a b k' l') eqn:B1; [right|left; now apply F].
  apply G; [now apply rest_lt..|]. destruct (band ny nx c d _ _) eqn:B2; [|reflexivity]. exfalso.
  unfold band in *. apply andb_true_iff in B1, B2. destruct B1 as [P1 P2], B2 as [P3 P4]. apply Z.leb_le in P1, P2, P3, P4.
  pose proof (sfreq_rest ny k k' a c Hk Hk' P1 P3). pose proof (sfreq_rest nx l l' b d Hl Hl' P2 P4).
  apply andb_false_iff in N. destruct N as [N|N]; apply Z.leb_gt in N; lia.
Qed.
Print Assumptions C144_band.
(** Fields with modes in a set closed under sums keep to it, for any number of
    steps, with the bracket and every other term. *)
Theorem C144_sets ny nx dx : (0 < ny)%nat -> (0 < nx)%nat -> dx <> 0 -> forall H, closed_set ny nx H -> forall b dx0 test, backend_ok ny nx b ->
  forall step p pl n o phi t dt m, step = rk4_step \/ step = euler_step ->
  plasma_ok test ny nx pl n o phi t -> agree ny nx phi (invlap ny nx dx o) -> only_modes ny nx H n -> only_modes ny nx H o ->
  exists pl' n' o' phi', snd (steps (fun pl => step (hw_of b p dx0 test) pl dt dx) m pl) = Ok pl' /\ plasma_ok test ny nx pl' n' o' phi' (t + INR m * dt) /\
    only_modes ny nx H n' /\ only_modes ny nx H o' /\ only_modes ny nx H phi'.
Proof. exact (c144 ny nx dx). Qed.
Print Assumptions C144_sets.

(** A set that is not closed is left: modes with k = 0 or l = 0. *)
Definition axes (k l : nat) : bool := ((k =? 0)%nat || (l =? 0)%nat)%bool.
Lemma coef11 f : re (coefficient 4 4 1 1 f) = f 0%nat 0%nat + f 1%nat 3%nat + f 2%nat 2%nat + f 3%nat 1%nat - f 0%nat 2%nat - f 1%nat 1%nat - f 2%nat 0%nat - f 3%nat 3%nat.
Proof.
  unfold coefficient, dft2. cbn [csum Z.of_nat Z.mul Pos.of_succ_nat Pos.succ Pos.mul Z.opp]. rewrite w4_0, w4_1, w4_2, w4_3. cbn. ring.
Qed.
Lemma wm4 : wn 4 (-4) = mkC 1 0. Proof. rewrite (wn_eqm 4 (-4) 0); [apply w4_0|lia|reflexivity]. Qed.
Lemma wm6 : wn 4 (-6) = mkC (-1) 0. Proof. rewrite (wn_eqm 4 (-6) (-2)); [apply w4_2|lia|reflexivity]. Qed.
Lemma wm9 : wn 4 (-9) = mkC 0 (-1). Proof. rewrite (wn_eqm 4 (-9) (-1)); [apply w4_1|lia|reflexivity]. Qed.
Ltac modes4 := unfold coefficient, dft2; cbn [csum Z.of_nat Z.mul Pos.of_succ_nat Pos.succ Pos.mul Pos.add Z.opp]; rewrite ?w4_0, ?w4_1, ?w4_2, ?w4_3, ?wm4, ?wm6, ?wm9; apply C_eq; cbn; ring.
Lemma row0_axes : only_modes 4 4 axes row0.
Proof.
  intros [|[|[|[|k]]]] [|[|[|[|l]]]] Hk Hl E; try (exfalso; lia); try discriminate E; unfold row0; modes4.
Qed.
Lemma flow4_axes : only_modes 4 4 axes flow4.
Proof.
  intros [|[|[|[|k]]]] [|[|[|[|l]]]] Hk Hl E; try (exfalso; lia); try discriminate E; unfold flow4, co4; modes4.
Qed.
Theorem C144_open_set_refuted : exists p pl n o phi pl' n' o' phi',
  plasma_ok true 4 4 pl n o phi 0 /\ agree 4 4 phi (invlap 4 4 1 o) /\ only_modes 4 4 axes n /\ only_modes 4 4 axes o /\
  snd (steps (fun pl => euler_step (hw_of np_backend p 1 true) pl 1 1) 1 pl) = Ok pl' /\ plasma_ok true 4 4 pl' n' o' phi' 1 /\
  axes 1 1 = false /\ coefficient 4 4 1 1 n' <> C0.
Proof.
  set (p := mkPar 1 0 0 1 0 false). set (phi := invlap 4 4 1 flow4).
  assert (Hy : (0 < 4)%nat) by lia. assert (H1 : (1 : R) <> 0) by lra. assert (Hb : backend_ok 4 4 np_backend) by now left.
  destruct (traj 4 4 1 Hy Hy H1 np_backend 1 true Hb true p (pl0 4 4 row0 flow4 phi 0) row0 flow4 phi 0 1 1 (pl0_ok _ _ _ _ _ _ _) (fun _ _ _ _ => eq_refl))
    as (pl' & phi' & S1 & Q1 & _).
  replace (0 + INR 1 * 1) with 1 in Q1 by (cbn; ring). cbn [iter_step spec_of] in Q1.
  eexists p, _, row0, flow4, phi, pl', _, _, phi'.
  split; [apply pl0_ok|]. split; [intros i j _ _; reflexivity|]. split; [exact row0_axes|]. split; [exact flow4_axes|]. split; [exact S1|]. split; [exact Q1|]. split; [reflexivity|].
  set (J := jacobian 4 4 1 phi row0).
  assert (E1 : forall i j, fst (euler (hw_rhs p 4 4 1) 1 (row0, flow4)) i j = row0 i j - J i j).
  { intros i j. change (row0 i j + 1 * (0 * coupling p 4 phi row0 i j - 1 * J i j - 0 * cdy 4 1 phi i j + (-1) ^ 2 * 0 * lap_iter 1 4 4 1 row0 i j) = row0 i j - J i j). ring. }
  set (c := 4 / PI ^ 2). assert (Q : 0 < c) by (apply Rdiv_lt_0_compat; [lra|apply pow_lt, PI_RGT_0]).
  assert (K : forall i j, (i < 4)%nat -> (j < 4)%nat -> J i j = jacobian 4 4 1 (fun _ j => - c * co4 j) row0 i j).
  { intros i j Hi Hj. apply (jac_ext 4 4 1 Hy Hy H1 _ row0 (fun _ j => - c * co4 j) row0 flow_value (fun _ _ _ _ => eq_refl) i j). }
  intros E. apply (f_equal re) in E. rewrite coef11 in E. rewrite !E1 in E. rewrite !K in E by lia.
  unfold jacobian, jac_pp, jac_px, jac_xp in E.
  change (sh 4 0 1) with 1%nat in E. change (sh 4 1 1) with 2%nat in E. change (sh 4 2 1) with 3%nat in E. change (sh 4 3 1) with 0%nat in E.
  change (sh 4 0 (-1)) with 3%nat in E. change (sh 4 1 (-1)) with 0%nat in E. change (sh 4 2 (-1)) with 1%nat in E. change (sh 4 3 (-1)) with 2%nat in E.
  change (sh 4 0 0) with 0%nat in E. change (sh 4 1 0) with 1%nat in E. change (sh 4 2 0) with 2%nat in E. change (sh 4 3 0) with 3%nat in E.
  cbn [co4 row0 re C0] in E. lra.
Qed.
Print Assumptions C144_open_set_refuted.
(** two opposite cells: modes with k + l even, a closed set that is not made
    of copies along the axes *)
Definition even_sum (k l : nat) : bool := Nat.even (k + l).
Definition two_cells : field := fun i j => match i, j with O, O => 1 | 2%nat, 2%nat => 1 | _, _ => 0 end.
Example C144_case : closed_set 4 4 even_sum /\ only_modes 4 4 even_sum two_cells /\ coefficient 4 4 1 1 two_cells = mkC 2 0 /\
  only_modes 4 4 (band 4 4 0 1) flow4 /\ plasma_ok true 4 4 (pl0 4 4 two_cells two_cells (invlap 4 4 1 two_cells) 0) two_cells two_cells (invlap 4 4 1 two_cells) 0.
Proof.
  split.
  { intros [|[|[|[|k]]]] [|[|[|[|l]]]] [|[|[|[|k']]]] [|[|[|[|l']]]] Hk Hl Hk' Hl' A B; try (exfalso; lia); try reflexivity; try discriminate A; vm_compute in B; discriminate B. }
  split.
  { intros [|[|[|[|k]]]] [|[|[|[|l]]]] Hk Hl E; try (exfalso; lia); try discriminate E; unfold two_cells; modes4. }
  split; [unfold two_cells; modes4|]. split; [|apply pl0_ok].
  intros [|[|[|[|k]]]] [|[|[|[|l]]]] Hk Hl E; try (exfalso; lia); try discriminate E; unfold flow4, co4; modes4.
Qed.
