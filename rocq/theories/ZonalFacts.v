(** Zonal states and zonal averages. *)
From Coq Require Import List Arith ZArith Lia Bool Reals Lra Psatz String Permutation.
From Verif Require Import Num NdArray NdFacts Spec GradFacts SumFacts Cplx SpecFourier ModelHW ModelBackend
  SpecHW SpecPlasma HWFacts StepFacts RhsFacts HWProps SymFacts SpecWave WaveHW WaveDiff WaveTop SpecZonal.
Import ListNotations.
Local Open Scope R_scope.

Section Z.
Variables (ny nx : nat) (dx : R).
Hypothesis (Hy : (0 < ny)%nat) (Hx : (0 < nx)%nat) (Hd : dx <> 0).
Local Notation xo := (xonly ny nx).
Local Notation ag := (agree ny nx).
Local Notation sag := (sagree ny nx).

Lemma xo_at f i i' j : xo f -> (i < ny)%nat -> (i' < ny)%nat -> (j < nx)%nat -> f i j = f i' j.
Proof. intros H A B C. rewrite (H i j A C). symmetry. now apply H. Qed.
Lemma xo_sh f i j a b : xo f -> f (sh ny i a) (sh nx j b) = f 0%nat (sh nx j b).
Proof. intros H. apply H; now apply sh_lt. Qed.
Lemma xo_add f g : xo f -> xo g -> xo (fadd f g).
Proof. intros A B i j Hi Hj. unfold fadd. now rewrite (A i j), (B i j). Qed.
Lemma xo_scale c f : xo f -> xo (fscale c f).
Proof. intros A i j Hi Hj. unfold fscale. now rewrite (A i j). Qed.
Lemma xo_agree f g : ag f g -> xo f -> xo g.
Proof. intros E A i j Hi Hj. rewrite <- !E by (assumption || lia). now apply A. Qed.
Lemma xo_lap5 f : xo f -> xo (lap5 ny nx dx f).
Proof.
  intros A i j Hi Hj. unfold lap5. assert (j = sh nx j 0) as E by (symmetry; now apply sh_0).
  rewrite (A (sh ny i (-1)) j), (A (sh ny 0 (-1)) j), (A (sh ny i 1) j), (A (sh ny 0 1) j) by (try apply sh_lt; assumption).
  rewrite (A i (sh nx j (-1))), (A i (sh nx j 1)), (A i j) by (try apply sh_lt; assumption). reflexivity.
Qed.
Lemma xo_lap m f : xo f -> xo (lap_iter m ny nx dx f).
Proof. intros A. induction m as [|m IH]; [exact A|]. cbn [lap_iter]. now apply xo_lap5. Qed.
Lemma xo_invlap f : xo f -> xo (invlap ny nx dx f).
Proof.
  intros A i j Hi Hj.
  assert (E : invlap ny nx dx (ftrans ny nx (- Z.of_nat i) 0 f) i j = invlap ny nx dx f i j).
  { apply invlap_ext. intros a c Ha Hc. unfold ftrans. rewrite (xo_sh f a c _ _ A), sh_0 by assumption. symmetry. now apply A. }
  rewrite <- E, invlap_shift by assumption. unfold ftrans. rewrite sh_0 by assumption. f_equal.
  unfold sh. rewrite Z.add_opp_diag_r. unfold pidx. rewrite Z.mod_0_l by lia. reflexivity.
Qed.
Lemma xo_cdy f i j : xo f -> (j < nx)%nat -> cdy ny dx f i j = 0.
Proof.
  intros A Hj. unfold cdy. rewrite (xo_at f (sh ny i 1) (sh ny i (-1)) j A) by (try apply sh_lt; assumption).
  cbn. unfold Rdiv, Rminus. rewrite Rplus_opp_r. ring.
Qed.
Lemma xo_jac f g i j : xo f -> xo g -> jacobian ny nx dx f g i j = 0.
Proof.
  intros A B. unfold jacobian, jac_pp, jac_px, jac_xp. rewrite !(xo_sh f i j _ _ A), !(xo_sh g i j _ _ B). unfold Rdiv. ring.
Qed.
Lemma xo_yavg f j : xo f -> (j < nx)%nat -> yavg ny f j = f 0%nat j.
Proof.
  intros A Hj. unfold yavg. rewrite (rsum_ext ny _ (fun _ => f 0%nat j)) by (intros; now apply A). rewrite rsum_const.
  field. apply not_0_INR. lia.
Qed.
Lemma xo_hyper p f : xo f -> xo (hyper p ny nx dx f).
Proof. intros A i j Hi Hj. unfold hyper. now rewrite (xo_lap (pN p) f A i j). Qed.
Lemma xo_coupling p f g : xo f -> xo g -> xo (coupling p ny f g).
Proof.
  intros A B i j Hi Hj. unfold coupling, ydev. now rewrite (A i j), (B i j).
Qed.
Lemma xo_coupling0 p f g i j : xo f -> xo g -> pzon p = true -> (i < ny)%nat -> (j < nx)%nat -> coupling p ny f g i j = 0.
Proof.
  intros A B Z Hi Hj. unfold coupling, ydev. rewrite Z, !xo_yavg, (A i j), (B i j) by assumption. ring.
Qed.

Definition zs (y : state) : Prop := xo (fst y) /\ xo (snd y).
Lemma zs_add y z : zs y -> zs z -> zs (sadd y z).
Proof. intros [] []. split; now apply xo_add. Qed.
Lemma zs_scale c y : zs y -> zs (sscale c y).
Proof. intros []. split; now apply xo_scale. Qed.

(** the system on zonal states: drift and bracket drop out *)
Lemma zs_rhs p y : zs y -> zs (hw_rhs p ny nx dx y).
Proof.
  intros [A B]. pose proof (xo_invlap _ B) as P. split; intros i j Hi Hj; cbn [hw_rhs fst snd]; unfold rhs_n, rhs_o.
  - rewrite (xo_coupling p _ _ P A i j), (xo_hyper p _ A i j), !xo_jac, !xo_cdy by assumption. reflexivity.
  - rewrite (xo_coupling p _ _ P A i j), (xo_hyper p _ B i j), !xo_jac by assumption. reflexivity.
Qed.
Lemma zs_same p q y : zs y -> pN q = pN p -> pc1 q = pc1 p -> pnu q = pnu p -> pzon q = pzon p ->
  sag (hw_rhs p ny nx dx y) (hw_rhs q ny nx dx y).
Proof.
  intros [A B] E1 E2 E3 E4. pose proof (xo_invlap _ B) as P.
  split; intros i j Hi Hj; cbn [hw_rhs fst snd]; unfold rhs_n, rhs_o, hyper, coupling; rewrite E1, E2, E3, E4, !xo_jac, ?xo_cdy by assumption; ring.
Qed.
Lemma zs_mode p y : zs y -> pzon p = true -> sag (hw_rhs p ny nx dx y) (hw_rhs (pure_diffusion (pN p) (pnu p) true) ny nx dx y).
Proof.
  intros [A B] Z. pose proof (xo_invlap _ B) as P.
  split; intros i j Hi Hj; cbn [hw_rhs fst snd]; unfold rhs_n, rhs_o; cbn [pure_diffusion pc1 ppb pkap];
    rewrite (xo_coupling0 p), !xo_jac, ?xo_cdy by assumption; unfold hyper; cbn [pure_diffusion pN pnu]; ring.
Qed.

(** two systems that agree on zonal states, the first keeping states zonal *)
Section Abs.
Variables F G : state -> state.
Hypothesis FZ : forall y, zs y -> zs (F y).
Hypothesis FG : forall y, zs y -> sag (F y) (G y).
Hypothesis Gext : forall y z, sag y z -> sag (G y) (G z).
Lemma FG2 y z : zs y -> sag y z -> sag (F y) (G z).
Proof. intros A B. eapply sagree_trans; [now apply FG|]. now apply Gext. Qed.
Lemma abs_euler dt y z : zs y -> sag y z -> zs (euler F dt y) /\ sag (euler F dt y) (euler G dt z).
Proof.
  intros A B. unfold euler. split; [apply zs_add; [exact A|]; apply zs_scale; auto|].
  apply sadd_ext; [exact B|]. apply sscale_ext. now apply FG2.
Qed.
Lemma abs_rk4 dt y z : zs y -> sag y z -> zs (rk4 F dt y) /\ sag (rk4 F dt y) (rk4 G dt z).
Proof.
  intros A B. unfold rk4, rk4_from. cbv zeta.
  set (k1 := F y). set (k1' := G z). assert (Z1 : zs k1) by now apply FZ. assert (E1 : sag k1 k1') by now apply FG2.
  set (s2 := sadd y (sscale (dt / 2) k1)). set (s2' := sadd z (sscale (dt / 2) k1')).
  assert (Zs2 : zs s2) by (apply zs_add; [exact A|]; now apply zs_scale).
  assert (Es2 : sag s2 s2') by (apply sadd_ext; [exact B|]; now apply sscale_ext).
  set (k2 := F s2). set (k2' := G s2'). assert (Z2 : zs k2) by now apply FZ. assert (E2 : sag k2 k2') by now apply FG2.
  set (s3 := sadd y (sscale (dt / 2) k2)). set (s3' := sadd z (sscale (dt / 2) k2')).
  assert (Zs3 : zs s3) by (apply zs_add; [exact A|]; now apply zs_scale).
  assert (Es3 : sag s3 s3') by (apply sadd_ext; [exact B|]; now apply sscale_ext).
  set (k3 := F s3). set (k3' := G s3'). assert (Z3 : zs k3) by now apply FZ. assert (E3 : sag k3 k3') by now apply FG2.
  set (s4 := sadd y (sscale dt k3)). set (s4' := sadd z (sscale dt k3')).
  assert (Zs4 : zs s4) by (apply zs_add; [exact A|]; now apply zs_scale).
  assert (Es4 : sag s4 s4') by (apply sadd_ext; [exact B|]; now apply sscale_ext).
  assert (Z4 : zs (F s4)) by now apply FZ. assert (E4 : sag (F s4) (G s4')) by now apply FG2.
  split.
  - apply zs_add; [exact A|]. apply zs_scale. repeat apply zs_add; try apply zs_scale; assumption.
  - apply sadd_ext; [exact B|]. apply sscale_ext. repeat apply sadd_ext; try apply sscale_ext; assumption.
Qed.
Lemma abs_iter (sF sG : state -> state) m : (forall y z, zs y -> sag y z -> zs (sF y) /\ sag (sF y) (sG z)) ->
  forall y z, zs y -> sag y z -> zs (iter_step sF m y) /\ sag (iter_step sF m y) (iter_step sG m z).
Proof. intros H. induction m as [|m IH]; intros y z A B; cbn [iter_step]; [tauto|]. destruct (H y z A B). now apply IH. Qed.
End Abs.

Definition spec_of (euler_ : bool) (F : state -> state) (dt : R) : state -> state := if euler_ then euler F dt else rk4 F dt.
Lemma spec_abs e F G dt : (forall y, zs y -> zs (F y)) -> (forall y, zs y -> sag (F y) (G y)) -> (forall y z, sag y z -> sag (G y) (G z)) ->
  forall m y z, zs y -> sag y z -> zs (iter_step (spec_of e F dt) m y) /\ sag (iter_step (spec_of e F dt) m y) (iter_step (spec_of e G dt) m z).
Proof.
  intros A B C m. apply abs_iter. intros y z D E. destruct e; cbn [spec_of]; [now apply abs_euler|now apply abs_rk4].
Qed.

(** the code *)
Section Code.
Variables (b : backend R) (dx0 : R) (test : bool).
Hypothesis Hb : backend_ok ny nx b.
Definition code_of (e : bool) : ModelHW.hw R -> ns R -> R -> R -> ModelHW.M (ns R) := if e then euler_step else rk4_step.
Lemma code_e step : step = rk4_step \/ step = euler_step -> exists e, step = code_of e.
Proof. intros [-> | ->]; [exists false|exists true]; reflexivity. Qed.
Lemma traj e p pl n o phi a dt m : plasma_ok test ny nx pl n o phi a -> ag phi (invlap ny nx dx o) ->
  let y' := iter_step (spec_of e (hw_rhs p ny nx dx) dt) m (n, o) in
  exists pl' phi',
    snd (steps (fun pl => code_of e (hw_of b p dx0 test) pl dt dx) m pl) = Ok pl' /\
    plasma_ok test ny nx pl' (fst y') (snd y') phi' (a + INR m * dt) /\ ag phi' (invlap ny nx dx (snd y')).
Proof.
  intros P A. destruct e; cbn [spec_of code_of].
  - destruct (c19_euler b p dx0 test ny nx dx Hy Hx Hd Hb pl n o phi a dt m P A) as (pl' & phi' & E & Q & S & _). exists pl', phi'. tauto.
  - destruct (c19 b p dx0 test ny nx dx Hy Hx Hd Hb pl n o phi a dt m P A) as (pl' & phi' & E & Q & S & _). exists pl', phi'. tauto.
Qed.
Lemma rhs_ext' p y z : sag y z -> sag (hw_rhs p ny nx dx y) (hw_rhs p ny nx dx z).
Proof. apply hw_rhs_ext; assumption. Qed.

(** zonal stays zonal; drift and bracket coefficients do not matter *)
Lemma c132_same step p q pl n o phi a dt m : step = rk4_step \/ step = euler_step ->
  plasma_ok test ny nx pl n o phi a -> ag phi (invlap ny nx dx o) -> xo n -> xo o ->
  pN q = pN p -> pc1 q = pc1 p -> pnu q = pnu p -> pzon q = pzon p ->
  exists pl' pl'' n' o' phi', xo n' /\ xo o' /\ xo phi' /\
    snd (steps (fun pl => step (hw_of b p dx0 test) pl dt dx) m pl) = Ok pl' /\ plasma_ok test ny nx pl' n' o' phi' (a + INR m * dt) /\
    snd (steps (fun pl => step (hw_of b q dx0 test) pl dt dx) m pl) = Ok pl'' /\ plasma_ok test ny nx pl'' n' o' phi' (a + INR m * dt).
Proof.
  intros Hs P A Zn Zo E1 E2 E3 E4. destruct (code_e step Hs) as [e ->].
  destruct (traj e p pl n o phi a dt m P A) as (pl' & phi' & S1 & Q1 & A1).
  destruct (traj e q pl n o phi a dt m P A) as (pl'' & phi'' & S2 & Q2 & A2).
  destruct (spec_abs e (hw_rhs p ny nx dx) (hw_rhs q ny nx dx) dt (zs_rhs p) (fun y H => zs_same p q y H E1 E2 E3 E4) (rhs_ext' q) m (n, o) (n, o) (conj Zn Zo) (sagree_refl ny nx _))
    as [[Zn' Zo'] [En Eo]].
  set (y' := iter_step (spec_of e (hw_rhs p ny nx dx) dt) m (n, o)) in *. set (y'' := iter_step (spec_of e (hw_rhs q ny nx dx) dt) m (n, o)) in *.
  exists pl', pl'', (fst y'), (snd y'), phi'.
  split; [exact Zn'|]. split; [exact Zo'|]. split; [apply (xo_agree (invlap ny nx dx (snd y')) phi'); [intros i j Hi Hj; symmetry; now apply A1|now apply xo_invlap]|].
  split; [exact S1|]. split; [exact Q1|]. split; [exact S2|].
  apply (plasma_ok_ext test ny nx _ _ _ _ _ _ _ _ Q2); [intros i j Hi Hj; symmetry; now apply En|intros i j Hi Hj; symmetry; now apply Eo|].
  intros i j Hi Hj. rewrite (A2 i j Hi Hj), (A1 i j Hi Hj). apply invlap_ext. intros u v Hu Hv. symmetry. now apply Eo.
Qed.
(** zonal mode: only the hyper-diffusion acts *)
Lemma c132_mode step p pl n o phi a dt m : step = rk4_step \/ step = euler_step ->
  plasma_ok test ny nx pl n o phi a -> ag phi (invlap ny nx dx o) -> xo n -> xo o -> pzon p = true ->
  exists pl' pl'' n' o' phi', 
    snd (steps (fun pl => step (hw_of b p dx0 test) pl dt dx) m pl) = Ok pl' /\ plasma_ok test ny nx pl' n' o' phi' (a + INR m * dt) /\
    snd (steps (fun pl => step (hw_of b (pure_diffusion (pN p) (pnu p) true) dx0 test) pl dt dx) m pl) = Ok pl'' /\
    plasma_ok test ny nx pl'' n' o' phi' (a + INR m * dt).
Proof.
  intros Hs P A Zn Zo Z. destruct (code_e step Hs) as [e ->]. set (q := pure_diffusion (pN p) (pnu p) true).
  destruct (traj e p pl n o phi a dt m P A) as (pl' & phi' & S1 & Q1 & A1).
  destruct (traj e q pl n o phi a dt m P A) as (pl'' & phi'' & S2 & Q2 & A2).
  destruct (spec_abs e (hw_rhs p ny nx dx) (hw_rhs q ny nx dx) dt (zs_rhs p) (fun y H => zs_mode p y H Z) (rhs_ext' q) m (n, o) (n, o) (conj Zn Zo) (sagree_refl ny nx _))
    as [[Zn' Zo'] [En Eo]].
  set (y' := iter_step (spec_of e (hw_rhs p ny nx dx) dt) m (n, o)) in *. set (y'' := iter_step (spec_of e (hw_rhs q ny nx dx) dt) m (n, o)) in *.
  exists pl', pl'', (fst y'), (snd y'), phi'. split; [exact S1|]. split; [exact Q1|]. split; [exact S2|].
  apply (plasma_ok_ext test ny nx _ _ _ _ _ _ _ _ Q2); [intros i j Hi Hj; symmetry; now apply En|intros i j Hi Hj; symmetry; now apply Eo|].
  intros i j Hi Hj. rewrite (A2 i j Hi Hj), (A1 i j Hi Hj). apply invlap_ext. intros u v Hu Hv. symmetry. now apply Eo.
Qed.
(** zonal mode without viscosity: at rest *)
Lemma iter_rest e dt m y : iter_step (spec_of e (fun _ => szero) dt) m y = y.
Proof.
  assert (H : forall y, spec_of e (fun _ => szero) dt y = y).
  { intros [u v]. assert (E : forall f : field, (fun i j => f i j) = f) by reflexivity.
    destruct e; cbn [spec_of]; unfold euler, rk4, rk4_from, sadd, sscale, szero, fadd, fscale, fconst; cbn [fst snd]; f_equal;
      apply FunctionalExtensionality.functional_extensionality; intros i; apply FunctionalExtensionality.functional_extensionality; intros j; field. }
  induction m as [|m IH]; cbn [iter_step]; [reflexivity|]. now rewrite H.
Qed.
Lemma c132_rest step p pl n o phi a dt m : step = rk4_step \/ step = euler_step ->
  plasma_ok test ny nx pl n o phi a -> ag phi (invlap ny nx dx o) -> xo n -> xo o -> pzon p = true -> pnu p = 0 ->
  exists pl', snd (steps (fun pl => step (hw_of b p dx0 test) pl dt dx) m pl) = Ok pl' /\ plasma_ok test ny nx pl' n o phi (a + INR m * dt).
Proof.
  intros Hs P A Zn Zo Z N0. destruct (code_e step Hs) as [e ->].
  destruct (traj e p pl n o phi a dt m P A) as (pl' & phi' & S1 & Q1 & A1).
  assert (FG : forall y, zs y -> sag (hw_rhs p ny nx dx y) szero).
  { intros y H. destruct (zs_mode p y H Z) as [B1 B2]. split; intros i j Hi Hj; [rewrite (B1 i j Hi Hj)|rewrite (B2 i j Hi Hj)];
      cbn [hw_rhs fst snd szero]; unfold rhs_n, rhs_o, hyper, fconst; cbn [pure_diffusion pN pnu pc1 ppb pkap]; rewrite N0; ring. }
  destruct (spec_abs e (hw_rhs p ny nx dx) (fun _ => szero) dt (zs_rhs p) FG (fun _ _ _ => sagree_refl ny nx _) m (n, o) (n, o) (conj Zn Zo) (sagree_refl ny nx _))
    as [_ [En Eo]]. rewrite iter_rest in En, Eo. cbn [fst snd] in En, Eo.
  exists pl'. split; [exact S1|]. apply (plasma_ok_ext test ny nx _ _ _ _ _ _ _ _ Q1 En Eo).
  intros i j Hi Hj. rewrite (A1 i j Hi Hj), (A i j Hi Hj). now apply invlap_ext.
Qed.
(** ... and with viscosity the norms do not grow below the limit of C102 *)
Lemma c132_decay p pl n o phi a dt m : plasma_ok test ny nx pl n o phi a -> ag phi (invlap ny nx dx o) -> xo n -> xo o -> pzon p = true ->
  0 <= dt * pnu p -> dt * pnu p * (8 / dx ^ 2) ^ pN p <= 2.78 ->
  exists pl' n' o' phi', snd (steps (fun pl => rk4_step (hw_of b p dx0 test) pl dt dx) m pl) = Ok pl' /\
    plasma_ok test ny nx pl' n' o' phi' (a + INR m * dt) /\ inner ny nx n' n' <= inner ny nx n n /\ inner ny nx o' o' <= inner ny nx o o.
Proof.
  intros P A Zn Zo Z H0 H1.
  destruct (c132_mode rk4_step p pl n o phi a dt m (or_introl eq_refl) P A Zn Zo Z) as (pl' & pl'' & n' & o' & phi' & S1 & Q1 & S2 & Q2).
  destruct (c102_rk4 ny nx dx Hy Hx Hd b (pN p) (pnu p) true dx0 test Hb pl n o phi a dt m H0 H1 P A) as (pl3 & n3 & o3 & f3 & S3 & Q3 & I1 & I2).
  rewrite S2 in S3. injection S3 as <-.
  exists pl', n', o', phi'. split; [exact S1|]. split; [exact Q1|].
  assert (X : forall f g, Ok (grid ny nx f) = Ok (grid ny nx g) -> inner ny nx f f = inner ny nx g g).
  { intros f g E. assert (E' : grid ny nx f = grid ny nx g) by congruence. unfold inner. apply gsum_ext. intros i j Hi Hj.
    now rewrite (grid_inj ny nx f g E' i j Hi Hj). }
  rewrite (X n' n3), (X o' o3); [tauto| |].
  - rewrite <- (po_o _ _ _ _ _ _ _ _ Q2). apply Q3.
  - rewrite <- (po_n _ _ _ _ _ _ _ _ Q2). apply Q3.
Qed.
(** ordinary coupling without viscosity: n - omega rests *)
Definition lock (y z : state) : Prop := ag (fun i j => fst y i j - snd y i j) (fun i j => fst z i j - snd z i j).
Definition eqfs (k : state) : Prop := ag (fst k) (snd k).
Lemma lock_add y c k : eqfs k -> lock (sadd y (sscale c k)) y.
Proof. intros E i j Hi Hj. cbn. unfold fadd, fscale. rewrite (E i j Hi Hj). ring. Qed.
Lemma eqfs_add k q : eqfs k -> eqfs q -> eqfs (sadd k q).
Proof. intros A B i j Hi Hj. cbn. unfold fadd. now rewrite (A i j Hi Hj), (B i j Hi Hj). Qed.
Lemma eqfs_scale c k : eqfs k -> eqfs (sscale c k).
Proof. intros A i j Hi Hj. cbn. unfold fscale. now rewrite (A i j Hi Hj). Qed.
Lemma lock_step e F dt : (forall y, zs y -> zs (F y)) -> (forall y, zs y -> eqfs (F y)) -> forall y, zs y -> lock (spec_of e F dt y) y.
Proof.
  intros FZ FL y Z. destruct e; cbn [spec_of]; [apply lock_add; auto|].
  unfold rk4, rk4_from. cbv zeta. set (k1 := F y). assert (Z1 : zs k1) by now apply FZ.
  set (s2 := sadd y (sscale (dt / 2) k1)). assert (Zs2 : zs s2) by (apply zs_add; [exact Z|]; now apply zs_scale).
  set (k2 := F s2). assert (Z2 : zs k2) by now apply FZ.
  set (s3 := sadd y (sscale (dt / 2) k2)). assert (Zs3 : zs s3) by (apply zs_add; [exact Z|]; now apply zs_scale).
  set (k3 := F s3). assert (Z3 : zs k3) by now apply FZ.
  set (s4 := sadd y (sscale dt k3)). assert (Zs4 : zs s4) by (apply zs_add; [exact Z|]; now apply zs_scale).
  apply lock_add. repeat apply eqfs_add; try apply eqfs_scale; now apply FL.
Qed.
Lemma lock_iter e F dt m : (forall y, zs y -> zs (F y)) -> (forall y, zs y -> eqfs (F y)) -> forall y, zs y -> lock (iter_step (spec_of e F dt) m y) y.
Proof.
  intros FZ FL. induction m as [|m IH]; intros y Z; cbn [iter_step]; [now intros i j _ _|].
  assert (Z' : zs (spec_of e F dt y)).
  { destruct e; cbn [spec_of].
    - apply zs_add; [exact Z|]. apply zs_scale. auto.
    - unfold rk4, rk4_from. cbv zeta. apply zs_add; [exact Z|]. apply zs_scale.
      assert (Z1 := FZ y Z). assert (Z2 := FZ _ (zs_add _ _ Z (zs_scale (dt / 2) _ Z1))).
      assert (Z3 := FZ _ (zs_add _ _ Z (zs_scale (dt / 2) _ Z2))). assert (Z4 := FZ _ (zs_add _ _ Z (zs_scale dt _ Z3))).
      repeat apply zs_add; try apply zs_scale; assumption. }
  intros i j Hi Hj. rewrite (IH _ Z' i j Hi Hj). now apply lock_step.
Qed.
Lemma c132_lock step p pl n o phi a dt m : step = rk4_step \/ step = euler_step ->
  plasma_ok test ny nx pl n o phi a -> ag phi (invlap ny nx dx o) -> xo n -> xo o -> pnu p = 0 ->
  exists pl' n' o' phi', snd (steps (fun pl => step (hw_of b p dx0 test) pl dt dx) m pl) = Ok pl' /\ plasma_ok test ny nx pl' n' o' phi' (a + INR m * dt) /\
    forall i j, (i < ny)%nat -> (j < nx)%nat -> n' i j - o' i j = n i j - o i j.
Proof.
  intros Hs P A Zn Zo N0. destruct (code_e step Hs) as [e ->].
  destruct (traj e p pl n o phi a dt m P A) as (pl' & phi' & S1 & Q1 & A1).
  eexists pl', _, _, phi'. split; [exact S1|]. split; [exact Q1|].
  apply (lock_iter e (hw_rhs p ny nx dx) dt m (zs_rhs p)); [|split; assumption].
  intros y [B1 B2] i j Hi Hj. pose proof (xo_invlap _ B2) as X. cbn [hw_rhs fst snd]. unfold rhs_n, rhs_o, hyper.
  rewrite N0, !xo_jac, xo_cdy by assumption. ring.
Qed.
End Code.
End Z.
