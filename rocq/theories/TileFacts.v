(** Repeated fields stay repeated: the spectral inverse, the stencils, the
    averages, the system, the steps. *)
From Coq Require Import List Arith ZArith Lia Bool Reals Lra Psatz String.
From Verif Require Import Num NdArray NdFacts Spec GradFacts SumFacts LapFacts Cplx SpecFourier DftFacts ModelHW ModelBackend
  SpecHW SpecPlasma HWFacts StepFacts RhsFacts HWProps SymFacts SpecZonal ZonalFacts SpecTile.
Import ListNotations.
Local Open Scope R_scope.

Lemma pidx_mod a n z : (0 < a)%nat -> (0 < n)%nat -> (pidx (a * n) z mod n)%nat = pidx n z.
Proof.
  intros Ha Hn. unfold pidx. apply Nat2Z.inj. rewrite Nat2Z.inj_mod.
  rewrite !Z2Nat.id by (apply Z.mod_pos_bound; nia). rewrite Nat2Z.inj_mul, (Z.mul_comm (Z.of_nat a)).
  rewrite Z.rem_mul_r by lia. rewrite Z.mul_comm, Z.mod_add by lia. apply Z.mod_mod. lia.
Qed.
Lemma pidx_eqm n y z : (0 < n)%nat -> (y mod Z.of_nat n = z mod Z.of_nat n)%Z -> pidx n y = pidx n z.
Proof. intros Hn E. unfold pidx. now rewrite E. Qed.
Lemma sh_tile a n i k : (0 < a)%nat -> (0 < n)%nat -> (sh (a * n) i k mod n)%nat = sh n (i mod n) k.
Proof.
  intros Ha Hn. unfold sh. rewrite pidx_mod by assumption. apply pidx_eqm; [assumption|].
  rewrite Nat2Z.inj_mod. rewrite Z.add_mod_idemp_l by lia. reflexivity.
Qed.
(** sums with terms at the multiples of a only *)
Lemma csum_split n r f : csum (n + r) f = Cadd (csum n f) (csum r (fun i => f (n + i)%nat)).
Proof.
  induction r as [|r IH]; cbn [csum]; [rewrite Nat.add_0_r; ring|].
  rewrite Nat.add_succ_r. cbn [csum]. rewrite IH. ring.
Qed.
Lemma csum_mult a n f : (0 < a)%nat -> (forall k, (k mod a <> 0)%nat -> f k = C0) -> csum (a * n) f = csum n (fun k => f (a * k)%nat).
Proof.
  intros Ha H. induction n as [|n IH]; [now rewrite Nat.mul_0_r|].
  rewrite Nat.mul_succ_r, csum_split, IH. cbn [csum]. f_equal.
  rewrite (csum_single a 0); [now rewrite Nat.add_0_r|lia|]. intros i Hi Hi0. apply H.
  rewrite Nat.mul_comm, Nat.add_comm, Nat.mod_add by lia. rewrite Nat.mod_small; lia.
Qed.
Lemma rsum_split n r f : rsum (n + r) f = rsum n f + rsum r (fun i => f (n + i)%nat).
Proof.
  induction r as [|r IH]; cbn [rsum]; [rewrite Nat.add_0_r; ring|].
  rewrite Nat.add_succ_r. cbn [rsum]. rewrite IH. ring.
Qed.
Lemma rsum_tile a n f : (0 < n)%nat -> rsum (a * n) (fun i => f (i mod n)%nat) = INR a * rsum n f.
Proof.
  intros Hn. induction a as [|a IH]; [cbn; ring|].
  replace (S a * n)%nat with (a * n + n)%nat by lia. rewrite rsum_split, IH, S_INR.
  rewrite (rsum_ext n (fun i => f ((a * n + i) mod n)%nat) f); [ring|].
  intros i Hi. rewrite Nat.add_comm, Nat.mod_add by lia. now rewrite Nat.mod_small.
Qed.
Lemma wn_tile a n k i : (0 < a)%nat -> (0 < n)%nat ->
  wn (a * n) (Z.of_nat (a * k) * Z.of_nat i) = wn n (Z.of_nat k * Z.of_nat (i mod n)).
Proof.
  intros Ha Hn. transitivity (wn n (Z.of_nat k * Z.of_nat i)).
  - unfold wn. f_equal. rewrite Nat2Z.inj_mul, !mult_IZR, mult_INR, <- !INR_IZR_INZ.
    pose proof (INR_pos _ Ha). pose proof (INR_pos _ Hn). field. lra.
  - apply wn_eqm; [assumption|]. rewrite Nat2Z.inj_mod. rewrite Z.mul_mod_idemp_r by lia. reflexivity.
Qed.

Section T.
Variables (ny nx a b : nat) (dx : R).
Hypothesis Hy : (0 < ny)%nat.
Hypothesis Hx : (0 < nx)%nat.
Hypothesis Ha : (0 < a)%nat.
Hypothesis Hb : (0 < b)%nat.
Hypothesis Hd : dx <> 0.
Local Notation NY := (a * ny)%nat.
Local Notation NX := (b * nx)%nat.
Local Notation tl := (tile ny nx).
Local Notation AG := (agree NY NX).
Local Notation SAG := (sagree NY NX).

Definition spr (F : nat -> nat -> C) (K L : nat) : C :=
  if ((K mod a =? 0) && (L mod b =? 0))%nat then Cscal (INR a * INR b) (F (K / a)%nat (L / b)%nat) else C0.
Lemma spr_mult F k l : spr F (a * k) (b * l) = Cscal (INR a * INR b) (F k l).
Proof.
  unfold spr. rewrite (Nat.mul_comm a), (Nat.mul_comm b), !Nat.mod_mul, !Nat.div_mul by lia. reflexivity.
Qed.
Lemma spr_off_y F K L : (K mod a <> 0)%nat -> spr F K L = C0.
Proof. intros H. unfold spr. apply Nat.eqb_neq in H. now rewrite H. Qed.
Lemma spr_off_x F K L : (L mod b <> 0)%nat -> spr F K L = C0.
Proof. intros H. unfold spr. apply Nat.eqb_neq in H. rewrite H. now rewrite andb_false_r. Qed.
Lemma C0_mul z : Cmul C0 z = C0.
Proof. ring. Qed.
Lemma idft_spr F i j : idft2 NY NX (spr F) i j = idft2 ny nx F (i mod ny) (j mod nx).
Proof.
  unfold idft2. rewrite csum_mult; [|assumption|].
  2:{ intros k Hk. transitivity (csum NX (fun _ => C0)); [|apply csum_zero]. apply csum_ext. intros l _. rewrite spr_off_y by assumption. apply C0_mul. }
  transitivity (Cscal (/ (INR NY * INR NX)) (csum ny (fun k => csum nx (fun l => Cscal (INR a * INR b)
    (Cmul (F k l) (Cmul (wn ny (Z.of_nat k * Z.of_nat (i mod ny))) (wn nx (Z.of_nat l * Z.of_nat (j mod nx))))))))).
  - f_equal. apply csum_ext. intros k _. rewrite csum_mult; [|assumption|].
    2:{ intros l Hl. rewrite spr_off_x by assumption. apply C0_mul. }
    apply csum_ext. intros l _. rewrite spr_mult, !wn_tile by assumption. apply Cscal_mul.
  - erewrite csum_ext by (intros; apply csum_scal). rewrite csum_scal, Cscal_Cscal. f_equal.
    rewrite !mult_INR. pose proof (INR_pos _ Ha). pose proof (INR_pos _ Hb). pose proof (INR_pos _ Hx). pose proof (INR_pos _ Hy). field. lra.
Qed.
Lemma dft_tile f K L : (K < NY)%nat -> (L < NX)%nat ->
  dft2 NY NX (fun i j => RtoC (tl f i j)) (Z.of_nat K) (Z.of_nat L)
  = spr (fun k l => dft2 ny nx (fun i j => RtoC (f i j)) (Z.of_nat k) (Z.of_nat l)) K L.
Proof.
  intros HK HL. set (F := fun k l => dft2 ny nx (fun i j => RtoC (f i j)) (Z.of_nat k) (Z.of_nat l)).
  rewrite (dft2_ext NY NX _ (idft2 NY NX (spr F))).
  - now apply dft2_idft2.
  - intros i j _ _. rewrite idft_spr. unfold F. rewrite idft2_dft2; [reflexivity|apply Nat.mod_upper_bound; lia..].
Qed.
Lemma sfreq_tile c n k : (0 < c)%nat -> sfreq (c * n) (c * k) = (Z.of_nat c * sfreq n k)%Z.
Proof.
  intros Hc. unfold sfreq. destruct (Nat.ltb_spec (2 * (c * k)) (c * n)), (Nat.ltb_spec (2 * k) n); try nia.
Qed.
Lemma symbol_tile k l : lap_symbol NY NX dx (a * k) (b * l) = lap_symbol ny nx dx k l.
Proof.
  unfold lap_symbol. rewrite !sfreq_tile, !mult_IZR, !mult_INR, <- !INR_IZR_INZ by assumption.
  pose proof (INR_pos _ Ha). pose proof (INR_pos _ Hb). pose proof (INR_pos _ Hx). pose proof (INR_pos _ Hy). field. repeat split; lra.
Qed.
Lemma tile_invlap f i j : invlap NY NX dx (tl f) i j = tl (invlap ny nx dx f) i j.
Proof.
  unfold tile at 2. unfold invlap. f_equal. rewrite <- idft_spr. apply idft2_ext. intros K L HK HL. rewrite dft_tile by assumption.
  destruct (Nat.eq_dec (K mod a) 0) as [EK|EK]; [destruct (Nat.eq_dec (L mod b) 0) as [EL|EL]|].
  - apply Nat.mod_divides in EK; [|lia]. apply Nat.mod_divides in EL; [|lia]. destruct EK as [k ->], EL as [l ->].
    rewrite !spr_mult. rewrite symbol_tile.
    destruct (Nat.eqb_spec k 0) as [->|E1]; [destruct (Nat.eqb_spec l 0) as [->|E2]|].
    + rewrite !Nat.mul_0_r. cbn. unfold Cscal, C0. cbn. f_equal; ring.
    + replace (b * l =? 0)%nat with false by (symmetry; apply Nat.eqb_neq; nia). rewrite andb_false_r. cbn [andb]. rewrite !Cscal_Cscal. f_equal. ring.
    + replace (a * k =? 0)%nat with false by (symmetry; apply Nat.eqb_neq; nia). cbn [andb]. rewrite !Cscal_Cscal. f_equal. ring.
  - rewrite !spr_off_x by assumption. destruct (_ && _)%bool; [reflexivity|]. unfold Cscal, C0. cbn. f_equal; ring.
  - rewrite !spr_off_y by assumption. destruct (_ && _)%bool; [reflexivity|]. unfold Cscal, C0. cbn. f_equal; ring.
Qed.
Lemma tile_lap m f i j : lap_iter m NY NX dx (tl f) i j = tl (lap_iter m ny nx dx f) i j.
Proof.
  revert i j. induction m as [|m IH]; intros i j; [reflexivity|]. cbn [lap_iter]. unfold tile at 2. unfold lap5. rewrite !IH. unfold tile.
  now rewrite !sh_tile by assumption.
Qed.
Lemma tile_cdy f i j : cdy NY dx (tl f) i j = tl (cdy ny dx f) i j.
Proof. unfold tile at 2. unfold cdy, tile. now rewrite !sh_tile by assumption. Qed.
Lemma tile_jac f g i j : jacobian NY NX dx (tl f) (tl g) i j = tl (jacobian ny nx dx f g) i j.
Proof. unfold tile at 3. unfold jacobian, jac_pp, jac_px, jac_xp, tile. now rewrite !sh_tile by assumption. Qed.
Lemma tile_yavg f j : yavg NY (tl f) j = yavg ny f (j mod nx).
Proof.
  unfold yavg, tile. rewrite (rsum_tile a ny (fun i => f i (j mod nx)%nat)) by assumption. rewrite mult_INR.
  pose proof (INR_pos _ Ha). pose proof (INR_pos _ Hy). field. lra.
Qed.
Definition stile (y : state) : state := (tl (fst y), tl (snd y)).
Lemma tile_rhs p y : SAG (hw_rhs p NY NX dx (stile y)) (stile (hw_rhs p ny nx dx y)).
Proof.
  assert (HY : (0 < NY)%nat) by nia. assert (HX : (0 < NX)%nat) by nia.
  assert (I : AG (invlap NY NX dx (tl (snd y))) (tl (invlap ny nx dx (snd y)))) by (intros i j _ _; apply tile_invlap).
  split; cbn [hw_rhs stile fst snd].
  - eapply agree_trans; [apply (rhs_n_ext p NY NX dx HY HX Hd _ _ _ _ I (fun i j _ _ => eq_refl))|].
    intros i j _ _. unfold rhs_n, hyper, coupling, ydev. rewrite tile_jac, tile_cdy, tile_lap, !tile_yavg. reflexivity.
  - eapply agree_trans; [apply (rhs_o_ext p NY NX dx HY HX Hd _ _ _ _ _ _ I (fun i j _ _ => eq_refl) (fun i j _ _ => eq_refl))|].
    intros i j _ _. unfold rhs_o, hyper, coupling, ydev. rewrite tile_jac, tile_lap, !tile_yavg. reflexivity.
Qed.
Lemma tile_step e p dt y z : SAG z (stile y) ->
  SAG (spec_of e (hw_rhs p NY NX dx) dt z) (stile (spec_of e (hw_rhs p ny nx dx) dt y)).
Proof.
  assert (HY : (0 < NY)%nat) by nia. assert (HX : (0 < NX)%nat) by nia.
  set (F := hw_rhs p ny nx dx). set (G := hw_rhs p NY NX dx).
  assert (FG : forall y z, SAG z (stile y) -> SAG (G z) (stile (F y))).
  { intros u v B. eapply sagree_trans; [apply hw_rhs_ext; [assumption..|exact B]|]. apply tile_rhs. }
  assert (S2 : forall c k l, SAG k (stile l) -> SAG (sscale c k) (stile (sscale c l))).
  { intros c k l [B1 B2]. split; intros i j Hi Hj; cbn [sscale stile fst snd] in *; unfold fscale;
      [rewrite (B1 i j Hi Hj)|rewrite (B2 i j Hi Hj)]; reflexivity. }
  assert (S1 : forall c x k l, SAG x (stile c) -> SAG k (stile l) -> SAG (sadd x k) (stile (sadd c l))).
  { intros c x k l [B1 B2] [C1 C2]. split; intros i j Hi Hj; cbn [sadd stile fst snd] in *; unfold fadd;
      [rewrite (B1 i j Hi Hj), (C1 i j Hi Hj)|rewrite (B2 i j Hi Hj), (C2 i j Hi Hj)]; reflexivity. }
  intros B. destruct e; cbn [spec_of].
  - unfold euler. apply S1; [exact B|]. apply S2. now apply FG.
  - unfold rk4, rk4_from. cbv zeta. repeat first [exact B|apply S1|apply S2|apply FG].
Qed.
Lemma tile_steps e p dt m : forall y z, SAG z (stile y) ->
  SAG (iter_step (spec_of e (hw_rhs p NY NX dx) dt) m z) (stile (iter_step (spec_of e (hw_rhs p ny nx dx) dt) m y)).
Proof. induction m as [|m IH]; intros y z B; cbn [iter_step]; [exact B|]. apply IH. now apply tile_step. Qed.
Lemma tile_gmean f : gmean NY NX (tl f) = gmean ny nx f.
Proof.
  unfold gmean, gsum, tile. erewrite rsum_ext by (intros i _; apply (rsum_tile b nx (fun j => f (i mod ny)%nat j)); assumption).
  rewrite (rsum_tile a ny (fun i => INR b * rsum nx (fun j => f i j))) by assumption. rewrite rsum_scal, !mult_INR.
  pose proof (INR_pos _ Ha). pose proof (INR_pos _ Hb). pose proof (INR_pos _ Hx). pose proof (INR_pos _ Hy). field. lra.
Qed.
Variables (bk : backend R) (dx0 : R) (test : bool).
Hypothesis Hbk : backend_ok ny nx bk.
Hypothesis HBK : backend_ok NY NX bk.
Lemma c138 step p pl PL n o phi t t2 dt m : step = rk4_step \/ step = euler_step ->
  plasma_ok test ny nx pl n o phi t -> agree ny nx phi (invlap ny nx dx o) -> plasma_ok test NY NX PL (tl n) (tl o) (tl phi) t2 ->
  exists pl' PL' n' o' phi',
    snd (steps (fun pl => step (hw_of bk p dx0 test) pl dt dx) m pl) = Ok pl' /\ plasma_ok test ny nx pl' n' o' phi' (t + INR m * dt) /\
    snd (steps (fun pl => step (hw_of bk p dx0 test) pl dt dx) m PL) = Ok PL' /\
    plasma_ok test NY NX PL' (tl n') (tl o') (tl phi') (t2 + INR m * dt).
Proof.
  assert (HY : (0 < NY)%nat) by nia. assert (HX : (0 < NX)%nat) by nia.
  intros Hs P A P2. destruct (code_e step Hs) as [e ->].
  assert (A2 : AG (tl phi) (invlap NY NX dx (tl o))).
  { intros i j Hi Hj. rewrite tile_invlap. unfold tile. apply A; apply Nat.mod_upper_bound; lia. }
  destruct (traj ny nx dx Hy Hx Hd bk dx0 test Hbk e p pl n o phi t dt m P A) as (pl' & phi' & S1 & Q1 & B1).
  destruct (traj NY NX dx HY HX Hd bk dx0 test HBK e p PL (tl n) (tl o) (tl phi) t2 dt m P2 A2) as (PL' & phi2 & S2 & Q2 & B2).
  destruct (tile_steps e p dt m (n, o) (tl n, tl o) (sagree_refl _ _ _)) as [En Eo].
  set (y := iter_step (spec_of e (hw_rhs p ny nx dx) dt) m (n, o)) in *.
  set (z := iter_step (spec_of e (hw_rhs p NY NX dx) dt) m (tl n, tl o)) in *.
  exists pl', PL', (fst y), (snd y), phi'. split; [exact S1|]. split; [exact Q1|]. split; [exact S2|].
  apply (plasma_ok_ext test NY NX _ _ _ _ _ _ _ _ Q2 En Eo).
  intros i j Hi Hj. rewrite (B2 i j Hi Hj), (invlap_ext NY NX dx _ _ i j Eo). cbn [stile snd]. rewrite tile_invlap. unfold tile. symmetry. apply B1; apply Nat.mod_upper_bound; lia.
Qed.
End T.
