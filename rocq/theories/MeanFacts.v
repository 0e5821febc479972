(** Constants added to the fields evolve by themselves. *)
From Coq Require Import List Arith ZArith Lia Bool Reals Lra Psatz String.
From Verif Require Import Num NdArray NdFacts Spec GradFacts SumFacts LapFacts Cplx SpecFourier DftFacts PoissonFacts ModelHW ModelBackend
  SpecHW SpecPlasma HWFacts StepFacts RhsFacts HWProps SymFacts RunHWWit SpecZonal ZonalFacts SpecMean.
Import ListNotations.
Local Open Scope R_scope.

Section M.
Variables (ny nx : nat) (dx : R).
Hypothesis Hy : (0 < ny)%nat.
Hypothesis Hx : (0 < nx)%nat.
Hypothesis Hd : dx <> 0.
Local Notation ag := (agree ny nx).
Local Notation sag := (sagree ny nx).

Lemma mc_invlap c f : ag (invlap ny nx dx (plus_const c f)) (invlap ny nx dx f).
Proof.
  intros i j Hi Hj. rewrite (invlap_ext ny nx dx _ (fadd (fscale 1 f) (fscale c (fconst 1)))) by (intros ? ? _ _; unfold plus_const, fadd, fscale, fconst; ring).
  rewrite invlap_lin by assumption. rewrite (invlap_const ny nx dx 1 i j) by assumption. ring.
Qed.
Lemma mc_jac c f g i j : jacobian ny nx dx f (plus_const c g) i j = jacobian ny nx dx f g i j.
Proof. unfold jacobian, jac_pp, jac_px, jac_xp, plus_const, Rdiv. ring. Qed.
Lemma mc_lap m c f i j : (1 <= m)%nat -> lap_iter m ny nx dx (plus_const c f) i j = lap_iter m ny nx dx f i j.
Proof.
  intros Hm. destruct m as [|m]; [lia|]. clear Hm. revert i j. induction m as [|m IH]; intros i j.
  - cbn [lap_iter]. rewrite !lap5_R. unfold plus_const, Rdiv. ring.
  - change (lap5 ny nx dx (lap_iter (S m) ny nx dx (plus_const c f)) i j = lap5 ny nx dx (lap_iter (S m) ny nx dx f) i j). rewrite !lap5_R, !IH. reflexivity.
Qed.
Lemma mc_yavg c f j : yavg ny (plus_const c f) j = yavg ny f j + c.
Proof.
  unfold yavg, plus_const. rewrite (rsum_add ny (fun i => f i j) (fun _ => c)), rsum_const.
  assert (INR ny <> 0) by (apply not_0_INR; lia). field. assumption.
Qed.
Definition scon (k : R * R) (y : state) : state := (plus_const (fst k) (fst y), plus_const (snd k) (snd y)).
Definition L (p : par) (k : R * R) : R * R := (- mean_rate p * fst k, - mean_rate p * fst k).
Lemma mc_rhs p k y : (1 <= pN p)%nat -> sag (hw_rhs p ny nx dx (scon k y)) (scon (L p k) (hw_rhs p ny nx dx y)).
Proof.
  intros HN. pose proof (mc_invlap (snd k) (snd y)) as I. split; cbn [hw_rhs scon fst snd].
  - eapply agree_trans; [apply (rhs_n_ext p ny nx dx Hy Hx Hd _ _ _ _ I (fun i j _ _ => eq_refl))|].
    intros i j Hi Hj. unfold rhs_n, hyper, coupling, ydev. rewrite mc_jac, mc_lap, mc_yavg by assumption. unfold L, mean_rate. cbn [fst snd]. unfold plus_const. destruct (pzon p); ring.
  - eapply agree_trans; [apply (rhs_o_ext p ny nx dx Hy Hx Hd _ _ _ _ _ _ I (fun i j _ _ => eq_refl) (fun i j _ _ => eq_refl))|].
    intros i j Hi Hj. unfold rhs_o, hyper, coupling, ydev. rewrite mc_jac, mc_lap, mc_yavg by assumption. unfold L, mean_rate. cbn [fst snd]. unfold plus_const. destruct (pzon p); ring.
Qed.
Definition rel (k : R * R) (y z : state) : Prop := sag z (scon k y).
Definition dec (e : bool) (z : R) : R := if e then decay1 z else decay4 z.
Definition K1 (e : bool) (p : par) (dt : R) (k : R * R) : R * R :=
  let c := fst k * dec e (mean_rate p * dt) in (c, snd k + (c - fst k)).
Definition ka (k l : R * R) : R * R := (fst k + fst l, snd k + snd l).
Definition ks (c : R) (k : R * R) : R * R := (c * fst k, c * snd k).
Lemma mc_step e p dt k y z : (1 <= pN p)%nat -> rel k y z ->
  rel (K1 e p dt k) (spec_of e (hw_rhs p ny nx dx) dt y) (spec_of e (hw_rhs p ny nx dx) dt z).
Proof.
  intros HN. set (F := hw_rhs p ny nx dx).
  assert (FG : forall k y z, rel k y z -> rel (L p k) (F y) (F z)).
  { intros k0 u v B. unfold rel. eapply sagree_trans; [apply hw_rhs_ext; [assumption..|exact B]|]. now apply mc_rhs. }
  assert (S2 : forall c k l x, rel k l x -> rel (ks c k) (sscale c l) (sscale c x)).
  { intros c k0 l x [B1 B2]. split; intros i j Hi Hj; cbn [sscale scon ks fst snd] in *; unfold fscale, plus_const in *;
      [rewrite (B1 i j Hi Hj)|rewrite (B2 i j Hi Hj)]; ring. }
  assert (S1 : forall k l x x' u u', rel k x x' -> rel l u u' -> rel (ka k l) (sadd x u) (sadd x' u')).
  { intros k0 l x x' u u' [B1 B2] [C1 C2]. split; intros i j Hi Hj; cbn [sadd scon ka fst snd] in *; unfold fadd, plus_const in *;
      [rewrite (B1 i j Hi Hj), (C1 i j Hi Hj)|rewrite (B2 i j Hi Hj), (C2 i j Hi Hj)]; ring. }
  assert (X : forall k k' y z, k = k' -> rel k y z -> rel k' y z) by (now intros; subst).
  intros B. destruct e; cbn [spec_of].
  - unfold euler. eapply X; [|apply S1; [exact B|apply S2, FG, B]].
    unfold K1, ka, ks, L, dec, decay1. cbn [fst snd]. f_equal; ring.
  - unfold rk4, rk4_from. cbv zeta. pose proof (FG _ _ _ B) as Q1.
    pose proof (FG _ _ _ (S1 _ _ _ _ _ _ B (S2 (dt / 2) _ _ _ Q1))) as Q2.
    pose proof (FG _ _ _ (S1 _ _ _ _ _ _ B (S2 (dt / 2) _ _ _ Q2))) as Q3.
    pose proof (FG _ _ _ (S1 _ _ _ _ _ _ B (S2 dt _ _ _ Q3))) as Q4.
    eapply X; [|apply S1; [exact B|apply S2, S1; [apply S1; [apply S1; [exact Q1|apply S2, Q2]|apply S2, Q3]|exact Q4]]].
    unfold K1, ka, ks, L, dec, decay4. cbn [fst snd]. f_equal; field.
Qed.
Lemma mc_steps e p dt m : (1 <= pN p)%nat -> forall c d y z, rel (c, d) y z ->
  rel (c * dec e (mean_rate p * dt) ^ m, d + (c * dec e (mean_rate p * dt) ^ m - c))
    (iter_step (spec_of e (hw_rhs p ny nx dx) dt) m y) (iter_step (spec_of e (hw_rhs p ny nx dx) dt) m z).
Proof.
  intros HN. induction m as [|m IH]; intros c d y z B; cbn [iter_step pow].
  - replace (c * 1, d + (c * 1 - c)) with (c, d) by (f_equal; ring). exact B.
  - pose proof (IH _ _ _ _ (mc_step e p dt _ _ _ HN B)) as Q. cbn [fst snd K1] in Q.
    match goal with |- rel ?k _ _ => match type of Q with rel ?k' _ _ => replace k with k'; [exact Q|f_equal; ring] end end.
Qed.
(** the means themselves *)
Lemma gsum_invlap o : gsum ny nx (invlap ny nx dx o) = 0.
Proof.
  rewrite (gsum_ext ny nx _ (fun i j => dx ^ 2 * rmult ny nx (inv_sym ny nx 0 1) o i j)) by (intros; now apply invlap_rmult).
  rewrite gsum_scal, gsum_rmult by assumption. replace (inv_sym ny nx 0 1 0 0) with 0 by reflexivity. ring.
Qed.
Definition mk (y : state) : R * R := (gmean ny nx (fst y), gmean ny nx (snd y)).
Lemma mk_rhs p y : (1 <= pN p)%nat -> mk (hw_rhs p ny nx dx y) = L p (mk y).
Proof.
  intros HN. unfold mk, L. cbn [hw_rhs fst snd]. unfold gmean. rewrite gsum_rhs_n, gsum_rhs_o by assumption.
  assert (E : pc1 p * gsum ny nx (coupling p ny (invlap ny nx dx (snd y)) (fst y)) = - mean_rate p * gsum ny nx (fst y)).
  { unfold mean_rate. destruct (pzon p) eqn:Z; [rewrite gsum_coupling_zonal by assumption; ring|]. unfold coupling. rewrite Z, gsum_sub, gsum_invlap. 
    change (gsum ny nx (fun i j => fst y i j)) with (gsum ny nx (fst y)). ring. }
  rewrite E. unfold Rdiv. f_equal; ring.
Qed.
Lemma mk_step e p dt y : (1 <= pN p)%nat -> mk (spec_of e (hw_rhs p ny nx dx) dt y) = K1 e p dt (mk y).
Proof.
  intros HN. set (F := hw_rhs p ny nx dx). assert (FL : forall y, mk (F y) = L p (mk y)) by (intros; now apply mk_rhs).
  assert (A : forall x y, mk (sadd x y) = ka (mk x) (mk y)) by (intros; unfold mk, ka; cbn [sadd fst snd]; now rewrite !gmean_add).
  assert (S : forall c x, mk (sscale c x) = ks c (mk x)) by (intros; unfold mk, ks; cbn [sscale fst snd]; now rewrite !gmean_scale).
  destruct e; cbn [spec_of]; unfold euler, rk4, rk4_from; cbv zeta; repeat (rewrite ?A, ?S, ?FL);
    unfold K1, ka, ks, L, dec, decay1, decay4; cbn [fst snd]; f_equal; field.
Qed.
Lemma mk_steps e p dt m : (1 <= pN p)%nat -> forall y,
  mk (iter_step (spec_of e (hw_rhs p ny nx dx) dt) m y) =
  (fst (mk y) * dec e (mean_rate p * dt) ^ m, snd (mk y) - fst (mk y) + fst (mk y) * dec e (mean_rate p * dt) ^ m).
Proof.
  intros HN. induction m as [|m IH]; intros y; cbn [iter_step pow].
  - destruct (mk y) as [u v]. cbn [fst snd]. f_equal; ring.
  - rewrite IH, mk_step by assumption. unfold K1. cbn [fst snd]. f_equal; ring.
Qed.
Variables (b : backend R) (dx0 : R) (test : bool).
Hypothesis Hb : backend_ok ny nx b.
Lemma c140 step p pl pl2 n o phi t t2 dt m c d q : (1 <= pN p)%nat ->
  step = rk4_step /\ q = decay4 (mean_rate p * dt) \/ step = euler_step /\ q = decay1 (mean_rate p * dt) ->
  plasma_ok test ny nx pl n o phi t -> ag phi (invlap ny nx dx o) -> plasma_ok test ny nx pl2 (plus_const c n) (plus_const d o) phi t2 ->
  exists pl' pl2' n' o' phi',
    snd (steps (fun pl => step (hw_of b p dx0 test) pl dt dx) m pl) = Ok pl' /\ plasma_ok test ny nx pl' n' o' phi' (t + INR m * dt) /\
    snd (steps (fun pl => step (hw_of b p dx0 test) pl dt dx) m pl2) = Ok pl2' /\
    plasma_ok test ny nx pl2' (plus_const (c * q ^ m) n') (plus_const (d - c + c * q ^ m) o') phi' (t2 + INR m * dt).
Proof.
  intros HN Hs P A P2.
  assert (exists e, step = code_of e /\ q = dec e (mean_rate p * dt)) as (e & -> & ->).
  { destruct Hs as [[-> ->]|[-> ->]]; [exists false|exists true]; split; reflexivity. }
  assert (A2 : ag phi (invlap ny nx dx (plus_const d o))).
  { intros i j Hi Hj. rewrite mc_invlap by assumption. now apply A. }
  destruct (traj ny nx dx Hy Hx Hd b dx0 test Hb e p pl n o phi t dt m P A) as (pl' & phi' & S1 & Q1 & B1).
  destruct (traj ny nx dx Hy Hx Hd b dx0 test Hb e p pl2 (plus_const c n) (plus_const d o) phi t2 dt m P2 A2) as (pl2' & phi2 & S2 & Q2 & B2).
  assert (E0 : rel (c, d) (n, o) (plus_const c n, plus_const d o)) by (split; intros ? ? _ _; reflexivity).
  destruct (mc_steps e p dt m HN _ _ _ _ E0) as [En Eo].
  set (y := iter_step (spec_of e (hw_rhs p ny nx dx) dt) m (n, o)) in *.
  set (z := iter_step (spec_of e (hw_rhs p ny nx dx) dt) m (plus_const c n, plus_const d o)) in *.
  exists pl', pl2', (fst y), (snd y), phi'. split; [exact S1|]. split; [exact Q1|]. split; [exact S2|].
  cbn [scon fst snd] in En, Eo.
  apply (plasma_ok_ext test ny nx _ _ _ _ _ _ _ _ Q2 En).
  - intros i j Hi Hj. rewrite (Eo i j Hi Hj). unfold plus_const. ring.
  - intros i j Hi Hj. rewrite (B2 i j Hi Hj), (invlap_ext ny nx dx _ _ i j Eo). rewrite mc_invlap by assumption. symmetry. now apply B1.
Qed.
Lemma c140_mean step p pl n o phi t dt m q : (1 <= pN p)%nat ->
  step = rk4_step /\ q = decay4 (mean_rate p * dt) \/ step = euler_step /\ q = decay1 (mean_rate p * dt) ->
  plasma_ok test ny nx pl n o phi t -> ag phi (invlap ny nx dx o) ->
  exists pl' n' o' phi', snd (steps (fun pl => step (hw_of b p dx0 test) pl dt dx) m pl) = Ok pl' /\ plasma_ok test ny nx pl' n' o' phi' (t + INR m * dt) /\
    gmean ny nx n' = gmean ny nx n * q ^ m /\ gmean ny nx o' = gmean ny nx o - gmean ny nx n + gmean ny nx n * q ^ m /\ gmean ny nx phi' = 0.
Proof.
  intros HN Hs P A.
  assert (exists e, step = code_of e /\ q = dec e (mean_rate p * dt)) as (e & -> & ->).
  { destruct Hs as [[-> ->]|[-> ->]]; [exists false|exists true]; split; reflexivity. }
  destruct (traj ny nx dx Hy Hx Hd b dx0 test Hb e p pl n o phi t dt m P A) as (pl' & phi' & S1 & Q1 & B1).
  pose proof (mk_steps e p dt m HN (n, o)) as E. unfold mk in E. cbn [fst snd] in E. injection E as E1 E2.
  eexists pl', _, _, phi'. split; [exact S1|]. split; [exact Q1|]. split; [exact E1|]. split; [exact E2|].
  unfold gmean. rewrite (gsum_ext ny nx phi' _ B1), gsum_invlap. unfold Rdiv. ring.
Qed.
Lemma gmean_plus c f : gmean ny nx (plus_const c f) = gmean ny nx f + c.
Proof.
  unfold gmean, gsum, plus_const. rewrite (rsum_ext ny _ (fun i => rsum nx (fun j => f i j) + INR nx * c)).
  - rewrite rsum_add, rsum_const. assert (INR ny <> 0) by (apply not_0_INR; lia). assert (INR nx <> 0) by (apply not_0_INR; lia). field. split; assumption.
  - intros i _. now rewrite rsum_add, rsum_const.
Qed.
End M.
