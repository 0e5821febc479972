(** The bracket combines pairs of modes. *)
From Coq Require Import List Arith ZArith Lia Bool Reals Lra Psatz String.
From Verif Require Import Num NdArray NdFacts Spec GradFacts SumFacts LapFacts Cplx SpecFourier DftFacts PoissonFacts ModelHW ModelBackend
  SpecHW SpecPlasma HWFacts StepFacts RhsFacts HWProps SymFacts SpecZonal ZonalFacts SpecLinear LinearFacts SpecTriad.
Import ListNotations.
Local Open Scope R_scope.

Lemma dft2_conv ny nx f g K L : (0 < ny)%nat -> (0 < nx)%nat ->
  dft2 ny nx (fun i j => Cmul (f i j) (g i j)) K L =
  Cscal (/ (INR ny * INR nx)) (gcsum ny nx (fun k l => Cmul (dft2 ny nx f (Z.of_nat k) (Z.of_nat l)) (dft2 ny nx g (K - Z.of_nat k) (L - Z.of_nat l)))).
Proof.
  intros Hy Hx. rewrite dft2_gc.
  transitivity (gcsum ny nx (fun i j => Cscal (/ (INR ny * INR nx)) (gcsum ny nx (fun k l => Cmul (dft2 ny nx f (Z.of_nat k) (Z.of_nat l))
     (Cmul (g i j) (pw ny nx (- (K - Z.of_nat k)) (- (L - Z.of_nat l)) (Z.of_nat i) (Z.of_nat j))))))).
  - apply gcsum_ext. intros i j Hi Hj. rewrite <- (idft2_dft2 ny nx f i j Hi Hj) at 1. rewrite idft2_gc.
    set (S := gcsum ny nx _). transitivity (Cscal (/ (INR ny * INR nx)) (Cmul S (Cmul (g i j) (pw ny nx (- K) (- L) (Z.of_nat i) (Z.of_nat j))))).
    { apply C_eq; cbn; ring. }
    f_equal. unfold S. rewrite <- gcsum_mul_r. apply gcsum_ext. intros k l Hk Hl.
    replace (- (K - Z.of_nat k))%Z with (Z.of_nat k + - K)%Z by ring. replace (- (L - Z.of_nat l))%Z with (Z.of_nat l + - L)%Z by ring. rewrite <- pw_mul. ring.
  - rewrite gcsum_scal. f_equal. rewrite gcsum_swap. apply gcsum_ext. intros k l Hk Hl. rewrite gcsum_mul. f_equal. symmetry. apply dft2_gc.
Qed.

Section T.
Variables (ny nx : nat) (dx : R).
Hypothesis Hy : (0 < ny)%nat.
Hypothesis Hx : (0 < nx)%nat.
Hypothesis Hd : dx <> 0.
Local Notation co k l := (coefficient ny nx k l).
Lemma co_rest f k k' l l' : co (rest_y ny k k') (rest_y nx l l') f = dft2 ny nx (fun i j => RtoC (f i j)) (Z.of_nat k - Z.of_nat k') (Z.of_nat l - Z.of_nat l').
Proof.
  unfold coefficient, rest_y. apply dft2_eqm; [assumption..| |]; rewrite NdFacts.pidx_mod by assumption; apply Z.mod_mod; lia.
Qed.
Definition mem (f u : field) : Prop := forall k l, co k l f = C0 -> co k l u = C0.
Lemma mem_sh a b f : mem f (fun i j => f (sh ny i a) (sh nx j b)).
Proof. intros k l E. now apply (zc_sh ny nx Hy Hx k l). Qed.
Lemma mem_sub f u v : mem f u -> mem f v -> mem f (fun i j => u i j - v i j).
Proof. intros A B k l E. eapply (zc_ext ny nx k l); [|apply (zc_lin ny nx k l 1 (-1) u v); [now apply A|now apply B]]. intros i j _ _. unfold combined. ring. Qed.
Lemma prod_zero f g u v k l : no_pair ny nx k l f g -> mem f u -> mem g v -> co k l (fun i j => u i j * v i j) = C0.
Proof.
  intros Np A B. unfold coefficient.
  rewrite (dft2_ext ny nx _ (fun i j => Cmul (RtoC (u i j)) (RtoC (v i j)))) by (intros i j _ _; apply C_eq; cbn; ring).
  rewrite dft2_conv by assumption. rewrite (gcsum_ext ny nx _ (fun _ _ => C0)); [rewrite gcsum_zero; apply C_eq; cbn; ring|].
  intros k' l' Hk Hl. destruct (Np k' l' Hk Hl) as [E|E].
  - apply A in E. unfold coefficient in E. rewrite E. ring.
  - apply B in E. rewrite co_rest in E. rewrite E. ring.
Qed.
Lemma jac_zero f g k l : no_pair ny nx k l f g -> co k l (jacobian ny nx dx f g) = C0.
Proof.
  intros Np.
  assert (P : forall u v, mem f u -> mem g v -> zc ny nx k l (fun i j => u i j * v i j)) by (intros u v A B; now apply (prod_zero f g)).
  pose proof (fun a b => mem_sh a b f) as Mf. pose proof (fun a b => mem_sh a b g) as Mg.
  assert (L : forall a b u v, zc ny nx k l u -> zc ny nx k l v -> zc ny nx k l (combined a b u v)) by (intros; now apply zc_lin).
  pose proof (P _ _ (mem_sub _ _ _ (Mf 0 1)%Z (Mf 0 (-1))%Z) (mem_sub _ _ _ (Mg 1 0)%Z (Mg (-1) 0)%Z)) as A1.
  pose proof (P _ _ (mem_sub _ _ _ (Mf 1 0)%Z (Mf (-1) 0)%Z) (mem_sub _ _ _ (Mg 0 1)%Z (Mg 0 (-1))%Z)) as A2.
  pose proof (P _ _ (Mf 0 1)%Z (mem_sub _ _ _ (Mg 1 1)%Z (Mg (-1) 1)%Z)) as B1.
  pose proof (P _ _ (Mf 0 (-1))%Z (mem_sub _ _ _ (Mg 1 (-1))%Z (Mg (-1) (-1))%Z)) as B2.
  pose proof (P _ _ (Mf 1 0)%Z (mem_sub _ _ _ (Mg 1 1)%Z (Mg 1 (-1))%Z)) as B3.
  pose proof (P _ _ (Mf (-1) 0)%Z (mem_sub _ _ _ (Mg (-1) 1)%Z (Mg (-1) (-1))%Z)) as B4.
  pose proof (P _ _ (mem_sub _ _ _ (Mf 1 1)%Z (Mf 1 (-1))%Z) (Mg 1 0)%Z) as C1.
  pose proof (P _ _ (mem_sub _ _ _ (Mf (-1) 1)%Z (Mf (-1) (-1))%Z) (Mg (-1) 0)%Z) as C2.
  pose proof (P _ _ (mem_sub _ _ _ (Mf 1 1)%Z (Mf (-1) 1)%Z) (Mg 0 1)%Z) as C3.
  pose proof (P _ _ (mem_sub _ _ _ (Mf 1 (-1))%Z (Mf (-1) (-1))%Z) (Mg 0 (-1))%Z) as C4.
  set (c := / 3 / (4 * dx ^ 2)).
  pose proof (L 1 1 _ _ (L c (- c) _ _ A1 A2) (L 1 1 _ _ (L 1 1 _ _ (L c (- c) _ _ B1 B2) (L (- c) c _ _ B3 B4)) (L 1 1 _ _ (L c (- c) _ _ C1 C2) (L (- c) c _ _ C3 C4)))) as W.
  eapply (zc_ext ny nx k l); [|exact W]. intros i j _ _. unfold combined, jacobian, jac_pp, jac_px, jac_xp, c. cbv beta. unfold Rdiv. ring.
Qed.

Variable H : nat -> nat -> bool.
Hypothesis HH : closed_set ny nx H.
Local Notation om := (only_modes ny nx H).
Definition som (y : state) : Prop := om (fst y) /\ om (snd y).
Lemma rest_lt n k k' : (0 < n)%nat -> (rest_y n k k' < n)%nat.
Proof. intros Q. unfold rest_y. now apply NdFacts.pidx_lt. Qed.
Lemma om_jac f g : om f -> om g -> om (jacobian ny nx dx f g).
Proof.
  intros A B k l Hk Hl E. apply jac_zero. intros k' l' Hk' Hl'. destruct (H k' l') eqn:E1; [right|left; now apply A].
  apply B; [now apply rest_lt..|]. destruct (H (rest_y ny k k') (rest_y nx l l')) eqn:E2; [|reflexivity]. rewrite (HH k l k' l') in E by assumption. discriminate.
Qed.
Lemma om_invlap f : om f -> om (invlap ny nx dx f).
Proof. intros A k l Hk Hl E. apply (zc_invlap ny nx dx Hy Hx Hd k l Hk Hl). now apply A. Qed.
Lemma om_rhs p y : som y -> som (hw_rhs p ny nx dx y).
Proof.
  intros [A B]. pose proof (om_invlap _ B) as C. pose proof (om_jac _ _ C A) as J1. pose proof (om_jac _ _ C B) as J2.
  set (q := mkPar (pN p) (pc1 p) (pnu p) 0 (pkap p) (pzon p)).
  assert (Z : forall k l, (k < ny)%nat -> (l < nx)%nat -> H k l = false -> szc ny nx k l (hw_rhs q ny nx dx y)).
  { intros k l Hk Hl E. apply zc_rhs; [assumption..|reflexivity|]. split; [now apply A|now apply B]. }
  split; intros k l Hk Hl E; destruct (Z k l Hk Hl E) as [Z1 Z2]; cbn [hw_rhs fst snd] in *.
  - eapply (zc_ext ny nx k l); [|apply (zc_lin ny nx k l 1 (- ppb p) _ _ Z1 (J1 k l Hk Hl E))]. intros i j _ _. unfold combined, rhs_n, q, hyper, coupling. cbn [pN pc1 pnu ppb pkap pzon]. ring.
  - eapply (zc_ext ny nx k l); [|apply (zc_lin ny nx k l 1 (- ppb p) _ _ Z2 (J2 k l Hk Hl E))]. intros i j _ _. unfold combined, rhs_o, q, hyper, coupling. cbn [pN pc1 pnu ppb pkap pzon]. ring.
Qed.
Lemma om_add y z : som y -> som z -> som (sadd y z).
Proof. intros [A B] [C D]. split; intros k l Hk Hl E; [apply (zc_add ny nx k l y z)|apply (zc_add ny nx k l y z)]; (split; [now apply A|now apply B]) || (split; [now apply C|now apply D]). Qed.
Lemma om_scale c y : som y -> som (sscale c y).
Proof. intros [A B]. split; intros k l Hk Hl E; apply (zc_scale ny nx k l c y); split; (now apply A) || (now apply B). Qed.
Lemma om_step e p dt y : som y -> som (spec_of e (hw_rhs p ny nx dx) dt y).
Proof.
  intros A. assert (F : forall y, som y -> som (hw_rhs p ny nx dx y)) by (intros; now apply om_rhs).
  destruct e; cbn [spec_of]; unfold euler, rk4, rk4_from; cbv zeta; repeat first [exact A|apply om_add|apply om_scale|apply F].
Qed.
Lemma om_steps e p dt m : forall y, som y -> som (iter_step (spec_of e (hw_rhs p ny nx dx) dt) m y).
Proof. induction m as [|m IH]; intros y A; cbn [iter_step]; [exact A|]. apply IH. now apply om_step. Qed.
Variables (b : backend R) (dx0 : R) (test : bool).
Hypothesis Hb : backend_ok ny nx b.
Lemma c144 step p pl n o phi t dt m : step = rk4_step \/ step = euler_step ->
  plasma_ok test ny nx pl n o phi t -> agree ny nx phi (invlap ny nx dx o) -> om n -> om o ->
  exists pl' n' o' phi', snd (steps (fun pl => step (hw_of b p dx0 test) pl dt dx) m pl) = Ok pl' /\ plasma_ok test ny nx pl' n' o' phi' (t + INR m * dt) /\
    om n' /\ om o' /\ om phi'.
Proof.
  intros Hs P A On Oo. destruct (code_e step Hs) as [e ->].
  destruct (traj ny nx dx Hy Hx Hd b dx0 test Hb e p pl n o phi t dt m P A) as (pl' & phi' & S1 & Q1 & B1).
  destruct (om_steps e p dt m (n, o) (conj On Oo)) as [R1 R2].
  eexists pl', _, _, phi'. split; [exact S1|]. split; [exact Q1|]. split; [exact R1|]. split; [exact R2|].
  intros k l Hk Hl E. eapply (zc_ext ny nx k l); [|apply (om_invlap _ R2 k l Hk Hl E)]. intros i j Hi Hj. symmetry. now apply B1.
Qed.
End T.
