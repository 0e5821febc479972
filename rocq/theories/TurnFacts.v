(** Turns and reflections of the system. *)
From Coq Require Import List Arith ZArith Lia Bool Reals Lra Psatz String.
From Verif Require Import Num NdArray NdFacts Spec GradFacts SumFacts LapFacts Cplx SpecFourier DftFacts PoissonFacts ModelHW ModelBackend
  SpecHW SpecPlasma HWFacts StepFacts RhsFacts HWProps SymFacts SpecZonal ZonalFacts SpecTurn.
Import ListNotations.
Local Open Scope R_scope.

(** T carries the system p on ny x nx to the system q on my x mx *)
Record symm (ny nx my mx : nat) (dx : R) (p q : par) (T : field -> field) : Prop := mkSymm {
  T_add : forall f g i j, T (fadd f g) i j = fadd (T f) (T g) i j;
  T_scale : forall c f i j, T (fscale c f) i j = fscale c (T f) i j;
  T_ext : forall f g, agree ny nx f g -> agree my mx (T f) (T g);
  T_inv : forall o, agree my mx (invlap my mx dx (T o)) (T (invlap ny nx dx o));
  T_n : forall phi n, agree my mx (rhs_n q my mx dx (T phi) (T n)) (T (rhs_n p ny nx dx phi n));
  T_o : forall phi n o, agree my mx (rhs_o q my mx dx (T phi) (T n) (T o)) (T (rhs_o p ny nx dx phi n o)) }.

Lemma symm_comp ny nx my mx ky kx dx p q r S T : symm ny nx my mx dx p q T -> symm my mx ky kx dx q r S ->
  symm ny nx ky kx dx p r (fun f => S (T f)).
Proof.
  intros A B.
  assert (E : forall f g, agree my mx f g -> agree ky kx (S f) (S g)) by apply B.
  split.
  - intros f g i j. rewrite <- (T_add _ _ _ _ _ _ _ _ B). 
    replace (T (fadd f g)) with (fadd (T f) (T g)); [reflexivity|].
    do 2 (apply FunctionalExtensionality.functional_extensionality; intros ?). symmetry. apply A.
  - intros c f i j. rewrite <- (T_scale _ _ _ _ _ _ _ _ B).
    replace (T (fscale c f)) with (fscale c (T f)); [reflexivity|].
    do 2 (apply FunctionalExtensionality.functional_extensionality; intros ?). symmetry. apply A.
  - intros f g H. apply E. now apply A.
  - intros o. eapply agree_trans; [apply B|]. apply E. apply A.
  - intros phi n. eapply agree_trans; [apply B|]. apply E. apply A.
  - intros phi n o. eapply agree_trans; [apply B|]. apply E. apply A.
Qed.

Section G.
Variables (ny nx my mx : nat) (dx : R) (p q : par) (T : field -> field).
Hypothesis Hy : (0 < ny)%nat.
Hypothesis Hx : (0 < nx)%nat.
Hypothesis Ky : (0 < my)%nat.
Hypothesis Kx : (0 < mx)%nat.
Hypothesis Hd : dx <> 0.
Hypothesis Sy : symm ny nx my mx dx p q T.
Local Notation SAG := (sagree my mx).
Definition sT (y : state) : state := (T (fst y), T (snd y)).
Lemma turn_rhs y z : SAG z (sT y) -> SAG (hw_rhs q my mx dx z) (sT (hw_rhs p ny nx dx y)).
Proof.
  intros B. eapply sagree_trans; [apply hw_rhs_ext; [assumption..|exact B]|]. pose proof (T_inv _ _ _ _ _ _ _ _ Sy (snd y)) as I.
  split; cbn [hw_rhs sT fst snd].
  - eapply agree_trans; [apply (rhs_n_ext q my mx dx Ky Kx Hd _ _ _ _ I (fun i j _ _ => eq_refl))|]. apply Sy.
  - eapply agree_trans; [apply (rhs_o_ext q my mx dx Ky Kx Hd _ _ _ _ _ _ I (fun i j _ _ => eq_refl) (fun i j _ _ => eq_refl))|]. apply Sy.
Qed.
Lemma turn_step e dt y z : SAG z (sT y) -> SAG (spec_of e (hw_rhs q my mx dx) dt z) (sT (spec_of e (hw_rhs p ny nx dx) dt y)).
Proof.
  set (F := hw_rhs p ny nx dx). set (G := hw_rhs q my mx dx).
  assert (FG : forall y z, SAG z (sT y) -> SAG (G z) (sT (F y))) by (intros; now apply turn_rhs).
  assert (S2 : forall c k l, SAG k (sT l) -> SAG (sscale c k) (sT (sscale c l))).
  { intros c k l [B1 B2]. split; intros i j Hi Hj; cbn [sscale sT fst snd] in *; rewrite (T_scale _ _ _ _ _ _ _ _ Sy); unfold fscale;
      [rewrite (B1 i j Hi Hj)|rewrite (B2 i j Hi Hj)]; reflexivity. }
  assert (S1 : forall c x k l, SAG x (sT c) -> SAG k (sT l) -> SAG (sadd x k) (sT (sadd c l))).
  { intros c x k l [B1 B2] [C1 C2]. split; intros i j Hi Hj; cbn [sadd sT fst snd] in *; rewrite (T_add _ _ _ _ _ _ _ _ Sy); unfold fadd;
      [rewrite (B1 i j Hi Hj), (C1 i j Hi Hj)|rewrite (B2 i j Hi Hj), (C2 i j Hi Hj)]; reflexivity. }
  intros B. destruct e; cbn [spec_of].
  - unfold euler. apply S1; [exact B|]. apply S2. now apply FG.
  - unfold rk4, rk4_from. cbv zeta. repeat first [exact B|apply S1|apply S2|apply FG].
Qed.
Lemma turn_steps e dt m : forall y z, SAG z (sT y) ->
  SAG (iter_step (spec_of e (hw_rhs q my mx dx) dt) m z) (sT (iter_step (spec_of e (hw_rhs p ny nx dx) dt) m y)).
Proof. induction m as [|m IH]; intros y z B; cbn [iter_step]; [exact B|]. apply IH. now apply turn_step. Qed.
Variables (bk : backend R) (dx0 : R) (test : bool).
Hypothesis Hbk : backend_ok ny nx bk.
Hypothesis HBK : backend_ok my mx bk.
(** U is T up to what lies outside the grid *)
Variable U : field -> field.
Hypothesis HU : forall f i j, U f i j = T f i j.
Lemma turn_run step pl PL n o phi t t2 dt m : step = rk4_step \/ step = euler_step ->
  plasma_ok test ny nx pl n o phi t -> agree ny nx phi (invlap ny nx dx o) -> plasma_ok test my mx PL (U n) (U o) (U phi) t2 ->
  exists pl' PL' n' o' phi',
    snd (steps (fun pl => step (hw_of bk p dx0 test) pl dt dx) m pl) = Ok pl' /\ plasma_ok test ny nx pl' n' o' phi' (t + INR m * dt) /\
    snd (steps (fun pl => step (hw_of bk q dx0 test) pl dt dx) m PL) = Ok PL' /\
    plasma_ok test my mx PL' (U n') (U o') (U phi') (t2 + INR m * dt).
Proof.
  intros Hs P A P2. destruct (code_e step Hs) as [e ->].
  assert (UT : forall f, U f = T f) by (intros f; do 2 (apply FunctionalExtensionality.functional_extensionality; intros ?); apply HU).
  rewrite !UT in P2.
  assert (A2 : agree my mx (T phi) (invlap my mx dx (T o))).
  { intros i j Hi Hj. rewrite (T_inv _ _ _ _ _ _ _ _ Sy o i j Hi Hj). now apply (T_ext _ _ _ _ _ _ _ _ Sy _ _ A). }
  destruct (traj ny nx dx Hy Hx Hd bk dx0 test Hbk e p pl n o phi t dt m P A) as (pl' & phi' & S1 & Q1 & B1).
  destruct (traj my mx dx Ky Kx Hd bk dx0 test HBK e q PL (T n) (T o) (T phi) t2 dt m P2 A2) as (PL' & phi2 & S2 & Q2 & B2).
  destruct (turn_steps e dt m (n, o) (T n, T o) (sagree_refl _ _ _)) as [En Eo].
  set (y := iter_step (spec_of e (hw_rhs p ny nx dx) dt) m (n, o)) in *.
  set (z := iter_step (spec_of e (hw_rhs q my mx dx) dt) m (T n, T o)) in *.
  exists pl', PL', (fst y), (snd y), phi'. rewrite !UT. split; [exact S1|]. split; [exact Q1|]. split; [exact S2|].
  apply (plasma_ok_ext test my mx _ _ _ _ _ _ _ _ Q2 En Eo).
  intros i j Hi Hj. rewrite (B2 i j Hi Hj), (invlap_ext my mx dx _ _ i j Eo). cbn [sT snd].
  rewrite (T_inv _ _ _ _ _ _ _ _ Sy _ i j Hi Hj). symmetry. now apply (T_ext _ _ _ _ _ _ _ _ Sy _ _ B1).
Qed.
End G.

(** *** the reflections *)
Lemma symm_mirror ny nx dx p : (0 < ny)%nat -> (0 < nx)%nat -> dx <> 0 -> symm ny nx ny nx dx p p (fun f => fopp (mirror nx f)).
Proof.
  intros Hy Hx Hd. split.
  - intros f g i j. unfold fopp, mirror, fadd. ring.
  - intros c f i j. unfold fopp, mirror, fscale. ring.
  - intros f g H. now apply mirror_ext.
  - intros o. now apply mirror_inv.
  - intros. now apply rhs_n_mirror.
  - intros. now apply rhs_o_mirror.
Qed.
Section Tr.
Variables (ny nx : nat) (dx : R).
Hypothesis Hy : (0 < ny)%nat.
Hypothesis Hx : (0 < nx)%nat.
Hypothesis Hd : dx <> 0.
Lemma invlap_transposed o i j : invlap nx ny dx (transposed o) i j = transposed (invlap ny nx dx o) i j.
Proof.
  unfold transposed at 2. unfold invlap. f_equal. unfold idft2. rewrite csum_swap, (Rmult_comm (INR nx)). f_equal.
  apply csum_ext. intros k Hk. apply csum_ext. intros l Hl.
  assert (D : dft2 nx ny (fun i j => RtoC (transposed o i j)) (Z.of_nat l) (Z.of_nat k) = dft2 ny nx (fun i j => RtoC (o i j)) (Z.of_nat k) (Z.of_nat l)).
  { unfold dft2. rewrite csum_swap. apply csum_ext. intros u Hu. apply csum_ext. intros v Hv. unfold transposed. ring. }
  rewrite D. rewrite (andb_comm (l =? 0)%nat).
  replace (lap_symbol nx ny dx l k) with (lap_symbol ny nx dx k l) by (unfold lap_symbol; ring). ring.
Qed.
Lemma lap_transposed m f i j : lap_iter m nx ny dx (transposed f) i j = transposed (lap_iter m ny nx dx f) i j.
Proof.
  revert i j. induction m as [|m IH]; intros i j; [reflexivity|]. cbn [lap_iter]. unfold transposed at 2. rewrite !lap5_R, !IH. unfold transposed, Rdiv. ring.
Qed.
Lemma jac_transposed f g i j : jacobian nx ny dx (transposed f) (transposed g) i j = - transposed (jacobian ny nx dx f g) i j.
Proof. unfold transposed, jacobian, jac_pp, jac_px, jac_xp, Rdiv. ring. Qed.
End Tr.
Lemma lap_opp ny nx dx m f i j : lap_iter m ny nx dx (fopp f) i j = - lap_iter m ny nx dx f i j.
Proof. revert i j. induction m as [|m IH]; intros i j; [reflexivity|]. cbn [lap_iter]. rewrite !lap5_R, !IH. unfold Rdiv. ring. Qed.
Lemma jac_opp2 ny nx dx f g i j : jacobian ny nx dx (fopp f) (fopp g) i j = jacobian ny nx dx f g i j.
Proof. unfold fopp, jacobian, jac_pp, jac_px, jac_xp, Rdiv. ring. Qed.
Lemma invlap_opp ny nx dx o : (0 < ny)%nat -> (0 < nx)%nat -> dx <> 0 -> agree ny nx (invlap ny nx dx (fopp o)) (fopp (invlap ny nx dx o)).
Proof.
  intros Hy Hx Hd i j Hi Hj. rewrite (invlap_ext ny nx dx _ (fadd (fscale (-1) o) (fscale 0 o))) by (intros ? ? _ _; unfold fadd, fscale, fopp; ring).
  rewrite invlap_lin by assumption. unfold fopp. ring.
Qed.
Lemma symm_transposed ny nx dx p : (0 < ny)%nat -> (0 < nx)%nat -> dx <> 0 -> pkap p = 0 -> pzon p = false ->
  symm ny nx nx ny dx p p (fun f => fopp (transposed f)).
Proof.
  intros Hy Hx Hd K Z. split.
  - intros f g i j. unfold fopp, transposed, fadd. ring.
  - intros c f i j. unfold fopp, transposed, fscale. ring.
  - intros f g H i j Hi Hj. unfold fopp, transposed. now rewrite H.
  - intros o. eapply agree_trans; [now apply invlap_opp|]. intros i j _ _. unfold fopp. now rewrite invlap_transposed.
  - intros phi n i j _ _. unfold rhs_n, hyper, coupling. rewrite Z, K, jac_opp2, lap_opp, jac_transposed, lap_transposed. unfold fopp, transposed, rhs_n, hyper, coupling. ring.
  - intros phi n o i j _ _. unfold rhs_o, hyper, coupling. rewrite Z, jac_opp2, lap_opp, jac_transposed, lap_transposed. unfold fopp, transposed, rhs_o, hyper, coupling. ring.
Qed.
Section My.
Variables (ny nx : nat) (dx : R).
Hypothesis Hy : (0 < ny)%nat.
Hypothesis Hx : (0 < nx)%nat.
Hypothesis Hd : dx <> 0.
Local Notation M := (fun f : field => fopp (mirror_y ny f)).
Lemma lap_mirror_y m f i j : lap_iter m ny nx dx (mirror_y ny f) i j = mirror_y ny (lap_iter m ny nx dx f) i j.
Proof.
  revert i j. induction m as [|m IH]; intros i j; [reflexivity|]. cbn [lap_iter]. unfold mirror_y at 2. rewrite !lap5_R, !IH. unfold mirror_y.
  rewrite !(sh_mirror nx ny Hx Hy). cbn [Z.opp]. unfold Rdiv. ring.
Qed.
Lemma jac_mirror_y f g i j : jacobian ny nx dx (mirror_y ny f) (mirror_y ny g) i j = - mirror_y ny (jacobian ny nx dx f g) i j.
Proof. unfold mirror_y, jacobian, jac_pp, jac_px, jac_xp. rewrite !(sh_mirror nx ny Hx Hy). cbn [Z.opp]. unfold Rdiv. ring. Qed.
Lemma cdy_mirror_y f i j : cdy ny dx (mirror_y ny f) i j = - mirror_y ny (cdy ny dx f) i j.
Proof. unfold mirror_y. rewrite !cdy_R, !(sh_mirror nx ny Hx Hy). cbn [Z.opp]. unfold Rdiv. ring. Qed.
Lemma yavg_mirror_y f j : yavg ny (mirror_y ny f) j = yavg ny f j.
Proof. unfold yavg, mirror_y. now rewrite (rsum_neg ny (fun i => f i j)). Qed.
Lemma yavg_opp f j : yavg ny (fopp f) j = - yavg ny f j.
Proof. unfold yavg, fopp. rewrite rsum_opp. unfold Rdiv. ring. Qed.
Lemma symm_mirror_y p : symm ny nx ny nx dx p (with_kappa p (- pkap p)) M.
Proof.
  split.
  - intros f g i j. unfold fopp, mirror_y, fadd. ring.
  - intros c f i j. unfold fopp, mirror_y, fscale. ring.
  - intros f g H i j Hi Hj. unfold fopp, mirror_y. rewrite H; [reflexivity|now apply pidx_lt|assumption].
  - intros o i j Hi Hj. rewrite invlap_opp by assumption. unfold fopp. f_equal.
    change (mirror_y ny o) with (transposed (mirror ny (transposed o))). rewrite invlap_transposed by assumption. unfold transposed at 1.
    pose proof (mirror_inv nx ny dx Hx Hy Hd (transposed o) j i Hj Hi) as E. cbv beta in E. rewrite (invlap_opp nx ny dx (mirror ny (transposed o)) Hx Hy Hd j i Hj Hi) in E. unfold fopp in E.
    apply (f_equal Ropp) in E. rewrite !Ropp_involutive in E. rewrite E. unfold mirror, mirror_y. now rewrite invlap_transposed.
  - intros phi n i j _ _. unfold rhs_n, hyper, coupling, ydev. cbn [with_kappa pN pc1 pnu ppb pkap pzon].
    assert (E : cdy ny dx (fopp (mirror_y ny phi)) i j = - cdy ny dx (mirror_y ny phi) i j) by (rewrite !cdy_R; unfold fopp, Rdiv; ring).
    rewrite jac_opp2, lap_opp, E, !yavg_opp, jac_mirror_y, lap_mirror_y, cdy_mirror_y, !yavg_mirror_y. unfold fopp, mirror_y, rhs_n, hyper, coupling, ydev. destruct (pzon p); ring.
  - intros phi n o i j _ _. unfold rhs_o, hyper, coupling, ydev. cbn [with_kappa pN pc1 pnu ppb pkap pzon].
    rewrite jac_opp2, lap_opp, !yavg_opp, jac_mirror_y, lap_mirror_y, !yavg_mirror_y. unfold fopp, mirror_y, rhs_o, hyper, coupling, ydev. destruct (pzon p); ring.
Qed.
End My.
