(** Without the bracket the system is linear and does not couple modes. *)
From Coq Require Import List Arith ZArith Lia Bool Reals Lra Psatz String.
From Verif Require Import Num NdArray NdFacts Spec GradFacts SumFacts LapFacts Cplx SpecFourier DftFacts PoissonFacts ModelHW ModelBackend
  SpecHW SpecPlasma HWFacts StepFacts RhsFacts HWProps SymFacts SpecZonal ZonalFacts SpecLinear.
Import ListNotations.
Local Open Scope R_scope.

Section L.
Variables (ny nx : nat) (dx : R).
Hypothesis Hy : (0 < ny)%nat.
Hypothesis Hx : (0 < nx)%nat.
Hypothesis Hd : dx <> 0.
Local Notation ag := (agree ny nx).
Local Notation sag := (sagree ny nx).
Definition scomb (a b : R) (y z : state) : state := (combined a b (fst y) (fst z), combined a b (snd y) (snd z)).

Lemma li_cdy a b f g i j : cdy ny dx (combined a b f g) i j = a * cdy ny dx f i j + b * cdy ny dx g i j.
Proof. rewrite !cdy_R. unfold combined, Rdiv. ring. Qed.
Lemma li_rhs p a b y z : ppb p = 0 -> sag (hw_rhs p ny nx dx (scomb a b y z)) (scomb a b (hw_rhs p ny nx dx y) (hw_rhs p ny nx dx z)).
Proof.
  intros B.
  assert (I : ag (invlap ny nx dx (combined a b (snd y) (snd z))) (combined a b (invlap ny nx dx (snd y)) (invlap ny nx dx (snd z)))).
  { intros i j _ _. apply (invlap_lin ny nx dx Hy Hx Hd a b (snd y) (snd z) i j). }
  assert (Hh : forall f g i j, hyper p ny nx dx (combined a b f g) i j = a * hyper p ny nx dx f i j + b * hyper p ny nx dx g i j) by (intros f g; apply (hyper_lin p ny nx dx a b f g)).
  assert (Hv : forall f g i j, ydev ny (combined a b f g) i j = a * ydev ny f i j + b * ydev ny g i j) by (intros f g; apply (ydev_lin ny a b f g)).
  split; cbn [hw_rhs scomb fst snd].
  - eapply agree_trans; [apply (rhs_n_ext p ny nx dx Hy Hx Hd _ _ _ _ I (fun i j _ _ => eq_refl))|].
    intros i j Hi Hj. unfold rhs_n, coupling. rewrite Hh, li_cdy, !Hv, B. unfold combined, rhs_n, coupling. rewrite ?B. destruct (pzon p); ring.
  - eapply agree_trans; [apply (rhs_o_ext p ny nx dx Hy Hx Hd _ _ _ _ _ _ I (fun i j _ _ => eq_refl) (fun i j _ _ => eq_refl))|].
    intros i j Hi Hj. unfold rhs_o, coupling. rewrite Hh, !Hv, B. unfold combined, rhs_o, coupling. rewrite ?B. destruct (pzon p); ring.
Qed.
Definition rel (a b : R) (y z w : state) : Prop := sag w (scomb a b y z).
Lemma li_step e p a b dt y z w : ppb p = 0 -> rel a b y z w ->
  rel a b (spec_of e (hw_rhs p ny nx dx) dt y) (spec_of e (hw_rhs p ny nx dx) dt z) (spec_of e (hw_rhs p ny nx dx) dt w).
Proof.
  intros B. set (F := hw_rhs p ny nx dx).
  assert (FG : forall y z w, rel a b y z w -> rel a b (F y) (F z) (F w)).
  { intros u v x Q. unfold rel. eapply sagree_trans; [apply hw_rhs_ext; [assumption..|exact Q]|]. now apply li_rhs. }
  assert (S2 : forall c y z w, rel a b y z w -> rel a b (sscale c y) (sscale c z) (sscale c w)).
  { intros c u v x [B1 B2]. split; intros i j Hi Hj; cbn [sscale scomb fst snd] in *; unfold fscale, combined in *;
      [rewrite (B1 i j Hi Hj)|rewrite (B2 i j Hi Hj)]; ring. }
  assert (S1 : forall y z w y' z' w', rel a b y z w -> rel a b y' z' w' -> rel a b (sadd y y') (sadd z z') (sadd w w')).
  { intros u v x u' v' x' [B1 B2] [C1 C2]. split; intros i j Hi Hj; cbn [sadd scomb fst snd] in *; unfold fadd, combined in *;
      [rewrite (B1 i j Hi Hj), (C1 i j Hi Hj)|rewrite (B2 i j Hi Hj), (C2 i j Hi Hj)]; ring. }
  intros Q. destruct e; cbn [spec_of]; unfold euler, rk4, rk4_from; cbv zeta; repeat first [exact Q|apply S1|apply S2|apply FG].
Qed.
Lemma li_steps e p a b dt m : ppb p = 0 -> forall y z w, rel a b y z w ->
  rel a b (iter_step (spec_of e (hw_rhs p ny nx dx) dt) m y) (iter_step (spec_of e (hw_rhs p ny nx dx) dt) m z) (iter_step (spec_of e (hw_rhs p ny nx dx) dt) m w).
Proof. intros B. induction m as [|m IH]; intros y z w Q; cbn [iter_step]; [exact Q|]. apply IH. now apply li_step. Qed.

(** *** modes *)
Section Mode.
Variables (k l : nat).
Hypothesis Hk : (k < ny)%nat.
Hypothesis Hl : (l < nx)%nat.
Local Notation co := (coefficient ny nx k l).
Definition zc (f : field) : Prop := co f = C0.
Lemma zc_ext f g : ag f g -> zc f -> zc g.
Proof. intros E Q. unfold zc in *. rewrite <- Q. unfold coefficient. apply dft2_ext. intros i j Hi Hj. now rewrite E. Qed.
Lemma co_lin a b f g : co (combined a b f g) = Cadd (Cscal a (co f)) (Cscal b (co g)).
Proof.
  unfold coefficient. rewrite !Cscal_RtoC, <- dft2_lin. apply dft2_ext. intros i j _ _. unfold combined. apply C_eq; cbn; ring.
Qed.
Lemma zc_lin a b f g : zc f -> zc g -> zc (combined a b f g).
Proof. intros A B. unfold zc in *. rewrite co_lin, A, B. apply C_eq; cbn; ring. Qed.
Lemma zc_sh sy sx f : zc f -> zc (fun i j => f (sh ny i sy) (sh nx j sx)).
Proof. intros A. unfold zc, coefficient in *. rewrite (dft2_shift ny nx (fun i j => RtoC (f i j))) by assumption. rewrite A. ring. Qed.
Lemma zc_zero : zc (fun _ _ => 0).
Proof.
  unfold zc, coefficient, dft2. transitivity (csum ny (fun _ => C0)); [|apply csum_zero]. apply csum_ext. intros i _.
  transitivity (csum nx (fun _ => C0)); [|apply csum_zero]. apply csum_ext. intros j _. apply C_eq; cbn; ring.
Qed.
Lemma zc_shy s f : zc f -> zc (fun i j => f (sh ny i s) j).
Proof. intros A. apply (zc_ext (fun i j => f (sh ny i s) (sh nx j 0))); [|now apply zc_sh]. intros i j Hi Hj. now rewrite sh_0. Qed.
Lemma zc_shx s f : zc f -> zc (fun i j => f i (sh nx j s)).
Proof. intros A. apply (zc_ext (fun i j => f (sh ny i 0) (sh nx j s))); [|now apply zc_sh]. intros i j Hi Hj. now rewrite sh_0. Qed.
Lemma zc_lap5 f : zc f -> zc (lap5 ny nx dx f).
Proof.
  intros A. pose proof (zc_shy 1 f A) as A1. pose proof (zc_shy (-1) f A) as A2. pose proof (zc_shx 1 f A) as A3. pose proof (zc_shx (-1) f A) as A4.
  pose proof (zc_lin 1 1 _ _ (zc_lin 1 1 _ _ A1 A2) (zc_lin 1 1 _ _ A3 A4)) as Q. pose proof (zc_lin (/ dx ^ 2) (- 4 / dx ^ 2) _ _ Q A) as W.
  eapply zc_ext; [|exact W]. intros i j _ _. rewrite lap5_R. unfold combined. cbv beta. field. exact Hd.
Qed.
Lemma zc_lap m f : zc f -> zc (lap_iter m ny nx dx f).
Proof. induction m as [|m IH]; intros A; cbn [lap_iter]; [exact A|]. apply zc_lap5. now apply IH. Qed.
Lemma zc_cdy f : zc f -> zc (cdy ny dx f).
Proof.
  intros A. pose proof (zc_lin (/ (2 * dx)) (- / (2 * dx)) _ _ (zc_shy 1 f A) (zc_shy (-1) f A)) as W.
  eapply zc_ext; [|exact W]. intros i j _ _. rewrite cdy_R. unfold combined. cbv beta. field. exact Hd.
Qed.
Lemma zc_rsum m (f : nat -> field) : (forall s, zc (f s)) -> zc (fun i j => rsum m (fun s => f s i j)).
Proof.
  intros A. induction m as [|m IH]; cbn [rsum]; [apply zc_zero|].
  eapply zc_ext; [|exact (zc_lin 1 1 _ _ IH (A m))]. intros i j _ _. unfold combined. ring.
Qed.
Lemma zc_ydev f : zc f -> zc (ydev ny f).
Proof.
  intros A. pose proof (zc_rsum ny (fun s i j => f (sh ny i (Z.of_nat s)) j) (fun s => zc_shy (Z.of_nat s) f A)) as Q.
  eapply zc_ext; [|exact (zc_lin 1 (- / INR ny) _ _ A Q)]. intros i j _ _. unfold combined, ydev, yavg. cbv beta.
  assert (E : rsum ny (fun s => f (sh ny i (Z.of_nat s)) j) = rsum ny (fun s => f s j)).
  { rewrite <- (rsum_shift ny (Z.of_nat i) (fun s => f s j)) by assumption. apply rsum_ext. intros s _. unfold sh. now rewrite Z.add_comm. }
  rewrite E. unfold Rdiv. ring.
Qed.
Lemma zc_invlap f : zc f -> zc (invlap ny nx dx f).
Proof.
  intros A. set (m := inv_sym ny nx 0 1). 
  assert (M : zc (rmult ny nx m f)).
  { unfold zc, coefficient. rewrite (dft2_ext ny nx _ (mult ny nx m (cfield f))).
    - rewrite dft2_mult by assumption. unfold zc, coefficient in A. unfold cfield. rewrite A. apply C_eq; cbn; ring.
    - intros i j _ _. symmetry. apply rmult_cfield; [assumption..|]. apply inv_sym_even. }
  eapply zc_ext; [|exact (zc_lin (dx ^ 2) 0 _ _ M M)]. intros i j _ _. unfold combined. rewrite invlap_rmult by assumption. fold m. ring.
Qed.
Lemma zc_coupling p f g : zc f -> zc g -> zc (coupling p ny f g).
Proof.
  intros A B. destruct (pzon p) eqn:Z.
  - eapply zc_ext; [|exact (zc_lin 1 (-1) _ _ (zc_ydev f A) (zc_ydev g B))]. intros i j _ _. unfold coupling, combined. rewrite Z. ring.
  - eapply zc_ext; [|exact (zc_lin 1 (-1) _ _ A B)]. intros i j _ _. unfold coupling, combined. rewrite Z. ring.
Qed.
Definition szc (y : state) : Prop := zc (fst y) /\ zc (snd y).
Lemma zc_rhs p y : ppb p = 0 -> szc y -> szc (hw_rhs p ny nx dx y).
Proof.
  intros B [A1 A2]. pose proof (zc_invlap _ A2) as A3. pose proof (zc_coupling p _ _ A3 A1) as A4.
  split; cbn [hw_rhs fst snd].
  - pose proof (zc_lin (pc1 p) (- pkap p) _ _ A4 (zc_cdy _ A3)) as Q. pose proof (zc_lin 1 ((-1) ^ (pN p + 1) * pnu p) _ _ Q (zc_lap (pN p) _ A1)) as W.
    eapply zc_ext; [|exact W]. intros i j _ _. unfold rhs_n, hyper, combined. rewrite B. ring.
  - pose proof (zc_lin (pc1 p) ((-1) ^ (pN p + 1) * pnu p) _ _ A4 (zc_lap (pN p) _ A2)) as W.
    eapply zc_ext; [|exact W]. intros i j _ _. unfold rhs_o, hyper, combined. rewrite B. ring.
Qed.
Lemma zc_add y z : szc y -> szc z -> szc (sadd y z).
Proof. intros [A B] [C D]. split; [eapply zc_ext; [|exact (zc_lin 1 1 _ _ A C)]|eapply zc_ext; [|exact (zc_lin 1 1 _ _ B D)]]; intros i j _ _; unfold combined, sadd, fadd; cbn [fst snd]; ring. Qed.
Lemma zc_scale c y : szc y -> szc (sscale c y).
Proof. intros [A B]. split; [eapply zc_ext; [|exact (zc_lin c 0 _ _ A A)]|eapply zc_ext; [|exact (zc_lin c 0 _ _ B B)]]; intros i j _ _; unfold combined, sscale, fscale; cbn [fst snd]; ring. Qed.
Lemma zc_step e p dt y : ppb p = 0 -> szc y -> szc (spec_of e (hw_rhs p ny nx dx) dt y).
Proof.
  intros B A. assert (F : forall y, szc y -> szc (hw_rhs p ny nx dx y)) by (intros; now apply zc_rhs).
  destruct e; cbn [spec_of]; unfold euler, rk4, rk4_from; cbv zeta; repeat first [exact A|apply zc_add|apply zc_scale|apply F].
Qed.
Lemma zc_steps e p dt m : ppb p = 0 -> forall y, szc y -> szc (iter_step (spec_of e (hw_rhs p ny nx dx) dt) m y).
Proof. intros B. induction m as [|m IH]; intros y A; cbn [iter_step]; [exact A|]. apply IH. now apply zc_step. Qed.
Lemma co_steps e p dt m y z : ppb p = 0 -> co (fst y) = co (fst z) -> co (snd y) = co (snd z) ->
  let y' := iter_step (spec_of e (hw_rhs p ny nx dx) dt) m y in let z' := iter_step (spec_of e (hw_rhs p ny nx dx) dt) m z in
  co (fst y') = co (fst z') /\ co (snd y') = co (snd z') /\ co (invlap ny nx dx (snd y')) = co (invlap ny nx dx (snd z')).
Proof.
  intros B E1 E2 y' z'.
  assert (D : forall f g, co (combined 1 (-1) f g) = C0 <-> co f = co g).
  { intros f g. rewrite co_lin. split; intros Q.
    - pose proof (f_equal re Q) as Q1. pose proof (f_equal im Q) as Q2. cbn in Q1, Q2. apply C_eq; lra.
    - rewrite Q. apply C_eq; cbn; ring. }
  assert (Q0 : rel 1 (-1) y z (scomb 1 (-1) y z)) by (split; intros ? ? _ _; reflexivity).
  destruct (li_steps e p 1 (-1) dt m B _ _ _ Q0) as [R1 R2]. fold y' z' in R1, R2. cbn [scomb fst snd] in R1, R2.
  assert (A : szc (scomb 1 (-1) y z)) by (split; cbn [scomb fst snd]; apply D; assumption).
  destruct (zc_steps e p dt m B _ A) as [A1 A2].
  pose proof (zc_ext _ _ R1 A1) as W1. pose proof (zc_ext _ _ R2 A2) as W2. pose proof (zc_invlap _ W2) as W3.
  split; [now apply D|]. split; [now apply D|]. apply D. apply (zc_ext _ _ (fun i j _ _ => invlap_lin ny nx dx Hy Hx Hd 1 (-1) (snd y') (snd z') i j) W3).
Qed.
End Mode.

Variables (b : backend R) (dx0 : R) (test : bool).
Hypothesis Hb : backend_ok ny nx b.
Lemma c141_super step p u v pl1 pl2 pl3 n o phi n2 o2 phi2 t t2 t3 dt m : step = rk4_step \/ step = euler_step -> ppb p = 0 ->
  plasma_ok test ny nx pl1 n o phi t -> ag phi (invlap ny nx dx o) -> plasma_ok test ny nx pl2 n2 o2 phi2 t2 -> ag phi2 (invlap ny nx dx o2) ->
  plasma_ok test ny nx pl3 (combined u v n n2) (combined u v o o2) (combined u v phi phi2) t3 ->
  exists pl1' pl2' pl3' n' o' phi' n2' o2' phi2',
    snd (steps (fun pl => step (hw_of b p dx0 test) pl dt dx) m pl1) = Ok pl1' /\ plasma_ok test ny nx pl1' n' o' phi' (t + INR m * dt) /\
    snd (steps (fun pl => step (hw_of b p dx0 test) pl dt dx) m pl2) = Ok pl2' /\ plasma_ok test ny nx pl2' n2' o2' phi2' (t2 + INR m * dt) /\
    snd (steps (fun pl => step (hw_of b p dx0 test) pl dt dx) m pl3) = Ok pl3' /\
    plasma_ok test ny nx pl3' (combined u v n' n2') (combined u v o' o2') (combined u v phi' phi2') (t3 + INR m * dt).
Proof.
  intros Hs B P A P2 A2 P3. destruct (code_e step Hs) as [e ->].
  assert (A3 : ag (combined u v phi phi2) (invlap ny nx dx (combined u v o o2))).
  { intros i j Hi Hj. rewrite (invlap_lin ny nx dx Hy Hx Hd u v o o2 i j : invlap ny nx dx (combined u v o o2) i j = _). unfold combined. now rewrite A, A2. }
  destruct (traj ny nx dx Hy Hx Hd b dx0 test Hb e p pl1 n o phi t dt m P A) as (pl1' & phi' & S1 & Q1 & B1).
  destruct (traj ny nx dx Hy Hx Hd b dx0 test Hb e p pl2 n2 o2 phi2 t2 dt m P2 A2) as (pl2' & phi2' & S2 & Q2 & B2).
  destruct (traj ny nx dx Hy Hx Hd b dx0 test Hb e p pl3 _ _ _ t3 dt m P3 A3) as (pl3' & phi3' & S3 & Q3 & B3).
  assert (Q0 : rel u v (n, o) (n2, o2) (combined u v n n2, combined u v o o2)) by (split; intros ? ? _ _; reflexivity).
  destruct (li_steps e p u v dt m B _ _ _ Q0) as [En Eo].
  set (y := iter_step (spec_of e (hw_rhs p ny nx dx) dt) m (n, o)) in *. set (z := iter_step (spec_of e (hw_rhs p ny nx dx) dt) m (n2, o2)) in *.
  exists pl1', pl2', pl3', (fst y), (snd y), phi', (fst z), (snd z), phi2'. do 5 (split; [assumption|]).
  apply (plasma_ok_ext test ny nx _ _ _ _ _ _ _ _ Q3 En Eo).
  intros i j Hi Hj. rewrite (B3 i j Hi Hj), (invlap_ext ny nx dx _ _ i j Eo). cbn [scomb snd].
  rewrite (invlap_lin ny nx dx Hy Hx Hd u v (snd y) (snd z) i j : invlap ny nx dx (combined u v (snd y) (snd z)) i j = _). unfold combined. now rewrite B1, B2.
Qed.
Lemma c141_modes step p k l pl1 pl2 n o phi n2 o2 phi2 t t2 dt m : step = rk4_step \/ step = euler_step -> ppb p = 0 -> (k < ny)%nat -> (l < nx)%nat ->
  plasma_ok test ny nx pl1 n o phi t -> ag phi (invlap ny nx dx o) -> plasma_ok test ny nx pl2 n2 o2 phi2 t2 -> ag phi2 (invlap ny nx dx o2) ->
  coefficient ny nx k l n = coefficient ny nx k l n2 -> coefficient ny nx k l o = coefficient ny nx k l o2 ->
  exists pl1' pl2' n' o' phi' n2' o2' phi2',
    snd (steps (fun pl => step (hw_of b p dx0 test) pl dt dx) m pl1) = Ok pl1' /\ plasma_ok test ny nx pl1' n' o' phi' (t + INR m * dt) /\
    snd (steps (fun pl => step (hw_of b p dx0 test) pl dt dx) m pl2) = Ok pl2' /\ plasma_ok test ny nx pl2' n2' o2' phi2' (t2 + INR m * dt) /\
    coefficient ny nx k l n' = coefficient ny nx k l n2' /\ coefficient ny nx k l o' = coefficient ny nx k l o2' /\
    coefficient ny nx k l phi' = coefficient ny nx k l phi2'.
Proof.
  intros Hs B Hk Hl P A P2 A2 E1 E2. destruct (code_e step Hs) as [e ->].
  destruct (traj ny nx dx Hy Hx Hd b dx0 test Hb e p pl1 n o phi t dt m P A) as (pl1' & phi' & S1 & Q1 & B1).
  destruct (traj ny nx dx Hy Hx Hd b dx0 test Hb e p pl2 n2 o2 phi2 t2 dt m P2 A2) as (pl2' & phi2' & S2 & Q2 & B2).
  destruct (co_steps k l Hk Hl e p dt m (n, o) (n2, o2) B E1 E2) as (F1 & F2 & F3).
  eexists pl1', pl2', _, _, phi', _, _, phi2'. split; [exact S1|]. split; [exact Q1|]. split; [exact S2|]. split; [exact Q2|]. split; [exact F1|]. split; [exact F2|].
  assert (X : forall f g, ag f g -> coefficient ny nx k l f = coefficient ny nx k l g).
  { intros f g E. unfold coefficient. apply dft2_ext. intros i j Hi Hj. now rewrite E. }
  rewrite (X _ _ B1), (X _ _ B2). exact F3.
Qed.
End L.
