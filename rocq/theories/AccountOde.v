(** Quadratic forms of the state: bounds, time derivatives along solutions, and
    the convergence of numbers carried along by rk4 steps (C114). *)
From Coq Require Import List Arith ZArith Lia Bool Reals Lra Psatz String FunctionalExtensionality.
From Verif Require Import Num NdArray NdFacts Spec GradFacts SumFacts LapFacts
  Cplx DftFacts SpecFourier PoissonFacts PoissonProps
  SpecHW SpecPlasma HWFacts StepFacts RhsFacts SymFacts BalanceProps OdeFacts RkOrder
  SmoothFacts PdeConv HwExist DiagProps SpecConv SpecAccount.
Import ListNotations.
Local Open Scope R_scope.

Section Q.
Variables (p : par) (ny nx : nat) (dx : R).
Hypothesis Hy : (0 < ny)%nat.
Hypothesis Hx : (0 < nx)%nat.
Hypothesis Hd : dx <> 0.
Local Notation S_ := (invlap ny nx dx).
Local Notation mn := (gmean ny nx).
Local Notation D := (hyper p ny nx dx).
Local Notation gx := (gridix ny nx).
Local Notation nrm := (nrm IX gx).
Local Notation Fs := (hw_rhs p ny nx dx).
Local Notation A := (Av p ny nx dx).
Local Notation B := (Bv p ny nx dx).

(** ** linear maps from states to fields *)
Record lin (L : state -> field) : Prop := {
  l_comb : forall a b y z i j, L (sadd (sscale a y) (sscale b z)) i j = a * L y i j + b * L z i j;
  l_ext : forall y z, sagree ny nx y z -> agree ny nx (L y) (L z) }.
Definition Lp (y : state) : field := S_ (snd y).
Definition Lnp (y : state) : field := fun i j => fst y i j - S_ (snd y) i j.
Definition Lno (y : state) : field := fun i j => fst y i j - snd y i j.
Definition Ldp (y : state) : field := cdy ny dx (S_ (snd y)).
Definition LDn (y : state) : field := D (fst y).
Definition LDp (y : state) : field := D (S_ (snd y)).
Definition LDnp (y : state) : field := fun i j => D (fst y) i j - D (S_ (snd y)) i j.
Lemma S_comb a b f g : S_ (fadd (fscale a f) (fscale b g)) = fadd (fscale a (S_ f)) (fscale b (S_ g)).
Proof. extensionality i. extensionality j. rewrite invlap_lin by assumption. reflexivity. Qed.
Lemma S_agree y z : sagree ny nx y z -> agree ny nx (S_ (snd y)) (S_ (snd z)).
Proof. intros [_ H] i j _ _. now apply invlap_ext. Qed.
Lemma lin_n : lin fst. Proof. constructor; [reflexivity|]. intros y z [H _]. exact H. Qed.
Lemma lin_o : lin snd. Proof. constructor; [reflexivity|]. intros y z [_ H]. exact H. Qed.
Lemma lin_p : lin Lp.
Proof. constructor; [intros; unfold Lp; cbn [sadd sscale snd]; now rewrite S_comb|exact S_agree]. Qed.
Lemma lin_np : lin Lnp.
Proof.
  constructor.
  - intros. unfold Lnp. cbn [sadd sscale fst snd]. rewrite S_comb. unfold fadd, fscale. ring.
  - intros y z H i j Hi Hj. unfold Lnp. rewrite (S_agree y z H i j Hi Hj). now rewrite (proj1 H i j Hi Hj).
Qed.
Lemma lin_no : lin Lno.
Proof.
  constructor.
  - intros. unfold Lno. cbn [sadd sscale fst snd]. unfold fadd, fscale. ring.
  - intros y z [H1 H2] i j Hi Hj. unfold Lno. now rewrite (H1 i j Hi Hj), (H2 i j Hi Hj).
Qed.
Lemma lin_dp : lin Ldp.
Proof.
  constructor.
  - intros. unfold Ldp. cbn [sadd sscale fst snd]. rewrite S_comb. now rewrite cdy_lin.
  - intros y z H i j Hi Hj. unfold Ldp. apply (cdy_ext ny nx dx); auto. now apply S_agree.
Qed.
Lemma lin_Dn : lin LDn.
Proof.
  constructor.
  - intros. unfold LDn. cbn [sadd sscale fst snd]. apply hyper_lin.
  - intros y z [H _]. unfold LDn. now apply hyper_ext.
Qed.
Lemma lin_Dp : lin LDp.
Proof.
  constructor.
  - intros. unfold LDp. cbn [sadd sscale fst snd]. rewrite S_comb. apply hyper_lin.
  - intros y z H. unfold LDp. apply hyper_ext; auto. now apply S_agree.
Qed.
Lemma lin_Dnp : lin LDnp.
Proof.
  constructor.
  - intros. unfold LDnp. cbn [sadd sscale fst snd]. rewrite S_comb, !hyper_lin. ring.
  - intros y z H i j Hi Hj. unfold LDnp. pose proof (l_ext _ lin_Dn y z H i j Hi Hj) as E1. pose proof (l_ext _ lin_Dp y z H i j Hi Hj) as E2.
    unfold LDn, LDp in E1, E2. now rewrite E1, E2.
Qed.

(** ** bilinear forms sum c * mean(L1 y * L2 z) *)
Definition form := list (R * (state -> field) * (state -> field)).
Fixpoint fev (q : form) (y z : state) : R :=
  match q with [] => 0 | (c, L1, L2) :: q' => c * mn (fun i j => L1 y i j * L2 z i j) + fev q' y z end.
Definition wf (q : form) : Prop := forall c L1 L2, In (c, L1, L2) q -> lin L1 /\ lin L2.
Lemma wf_cons c L1 L2 q : lin L1 -> lin L2 -> wf q -> wf ((c, L1, L2) :: q).
Proof. intros H1 H2 H c' L1' L2' [E|Hi]; [injection E as <- <- <-; auto|now apply (H c')]. Qed.
Lemma wf_nil : wf []. Proof. intros c L1 L2 []. Qed.
Lemma wf_tl t q : wf (t :: q) -> wf q.
Proof. intros H c L1 L2 Hi. apply (H c). now right. Qed.
Lemma fev_l q a b x y z : wf q -> fev q (sadd (sscale a x) (sscale b y)) z = a * fev q x z + b * fev q y z.
Proof.
  induction q as [|[[c L1] L2] q IH]; intros H; cbn [fev]; [ring|].
  destruct (H c L1 L2 (or_introl eq_refl)) as [H1 _]. rewrite IH by (eapply wf_tl, H).
  rewrite (mn_ext ny nx (fun i j => L1 (sadd (sscale a x) (sscale b y)) i j * L2 z i j)
    (fun i j => a * (L1 x i j * L2 z i j) + b * (L1 y i j * L2 z i j))).
  - rewrite mn_add, !mn_scal. ring.
  - intros i j _ _. rewrite (l_comb _ H1). ring.
Qed.
Lemma fev_r q a b x y z : wf q -> fev q z (sadd (sscale a x) (sscale b y)) = a * fev q z x + b * fev q z y.
Proof.
  induction q as [|[[c L1] L2] q IH]; intros H; cbn [fev]; [ring|].
  destruct (H c L1 L2 (or_introl eq_refl)) as [_ H2]. rewrite IH by (eapply wf_tl, H).
  rewrite (mn_ext ny nx (fun i j => L1 z i j * L2 (sadd (sscale a x) (sscale b y)) i j)
    (fun i j => a * (L1 z i j * L2 x i j) + b * (L1 z i j * L2 y i j))).
  - rewrite mn_add, !mn_scal. ring.
  - intros i j _ _. rewrite (l_comb _ H2). ring.
Qed.
Lemma fev_ext q y y' z z' : wf q -> sagree ny nx y y' -> sagree ny nx z z' -> fev q y z = fev q y' z'.
Proof.
  intros H Hyy Hzz. induction q as [|[[c L1] L2] q IH]; cbn [fev]; [reflexivity|].
  destruct (H c L1 L2 (or_introl eq_refl)) as [H1 H2]. rewrite IH by (eapply wf_tl, H). do 2 f_equal.
  apply mn_ext. intros i j Hi Hj. rewrite (l_ext _ H1 y y' Hyy i j Hi Hj). now rewrite (l_ext _ H2 z z' Hzz i j Hi Hj).
Qed.
Lemma fev_add_l q x y z : wf q -> fev q (sadd x y) z = fev q x z + fev q y z.
Proof. intros H. rewrite sadd_comb, fev_l by exact H. ring. Qed.
Lemma fev_add_r q x y z : wf q -> fev q z (sadd x y) = fev q z x + fev q z y.
Proof. intros H. rewrite sadd_comb, fev_r by exact H. ring. Qed.
Lemma fev_sc_l q c x z : wf q -> fev q (sscale c x) z = c * fev q x z.
Proof. intros H. rewrite (sscale_comb c x), fev_l by exact H. ring. Qed.
Lemma fev_sc_r q c x z : wf q -> fev q z (sscale c x) = c * fev q z x.
Proof. intros H. rewrite (sscale_comb c x), fev_r by exact H. ring. Qed.

Lemma one_ix : In (true, (0%nat, 0%nat)) gx.
Proof. apply in_gridix. split; assumption. Qed.
Lemma fev_bd q : wf q -> exists C, 0 <= C /\ forall u v, Rabs (fev q (dec_ u) (dec_ v)) <= C * nrm u * nrm v.
Proof.
  intros H.
  destruct (bilin_bd IX gx IXdec (fun u v _ => fev q (dec_ u) (dec_ v)) (gridix_nodup ny nx)) as (C & HC & Hb).
  - intros u v w. extensionality k. unfold vadd at 2. rewrite dec_add. now apply fev_add_l.
  - intros u v w. extensionality k. unfold vadd at 2. rewrite dec_add. now apply fev_add_r.
  - intros c u w. extensionality k. unfold vscale at 2. rewrite dec_scale. now apply fev_sc_l.
  - intros c u w. extensionality k. unfold vscale at 2. rewrite dec_scale. now apply fev_sc_r.
  - intros u v u' v' E1 E2 j Hj. apply fev_ext; [exact H|now apply dec_agree|now apply dec_agree].
  - exists C. split; [exact HC|]. intros u v. eapply Rle_trans; [|apply Hb].
    apply (nrm_ub IX gx (fun _ => fev q (dec_ u) (dec_ v)) _ one_ix).
Qed.
Lemma fev_lip q M : wf q -> 0 <= M -> exists C, 0 <= C /\ forall u v, nrm u <= M -> nrm v <= M ->
  Rabs (fev q (dec_ u) (dec_ u) - fev q (dec_ v) (dec_ v)) <= C * nrm (vsub IX u v).
Proof.
  intros H HM. destruct (fev_bd q H) as (C & HC & Hb). exists (C * M + C * M). split; [nra|].
  intros u v Hu Hv. set (w := vsub IX u v).
  assert (Eu : u = vadd IX v w) by (extensionality k; unfold w, vadd, vsub; ring).
  assert (E : fev q (dec_ u) (dec_ u) - fev q (dec_ v) (dec_ v) = fev q (dec_ w) (dec_ u) + fev q (dec_ v) (dec_ w)).
  { rewrite Eu at 1. rewrite dec_add, fev_add_l by exact H.
    transitivity (fev q (dec_ v) (dec_ u) + fev q (dec_ w) (dec_ u) - fev q (dec_ v) (dec_ v)); [reflexivity|].
    rewrite Eu at 1. rewrite dec_add, fev_add_r by exact H. ring. }
  rewrite E. eapply Rle_trans; [apply Rabs_triang|].
  pose proof (Hb w u) as B1. pose proof (Hb v w) as B2. pose proof (nrm_pos IX gx w). pose proof (nrm_pos IX gx u). pose proof (nrm_pos IX gx v).
  assert (C * nrm w * nrm u <= C * nrm w * M) by (apply Rmult_le_compat_l; [apply Rmult_le_pos|]; assumption).
  assert (C * nrm v * nrm w <= C * M * nrm w) by (apply Rmult_le_compat_r; [assumption|apply Rmult_le_compat_l; assumption]).
  lra.
Qed.

(** ** time derivatives *)
Definition sder (Y : R -> state) (t : R) (Y' : state) : Prop := forall i j, (i < ny)%nat -> (j < nx)%nat ->
  derivable_pt_lim (fun s => fst (Y s) i j) t (fst Y' i j) /\ derivable_pt_lim (fun s => snd (Y s) i j) t (snd Y' i j).
Lemma lin_der L Y t Y' i j : lin L -> sder Y t Y' -> (i < ny)%nat -> (j < nx)%nat ->
  derivable_pt_lim (fun s => L (Y s) i j) t (L Y' i j).
Proof.
  intros HL HY Hi Hj.
  assert (Lad : forall x z, L (sadd x z) i j = L x i j + L z i j) by (intros; rewrite sadd_comb, (l_comb _ HL); ring).
  assert (Lsc : forall c x, L (sscale c x) i j = c * L x i j) by (intros; rewrite (sscale_comb c x), (l_comb _ HL); ring).
  assert (P : forall y, L y i j = L (dec_ (proj IX IXdec gx (enc y))) i j).
  { intros y. apply (l_ext _ HL); [|exact Hi|exact Hj].
    split; intros a c Ha Hc; cbn [dec_ fst snd];
      (rewrite proj_in; [reflexivity|apply gridix_nodup|apply in_gridix; split; assumption]). }
  apply (dpl_ext (fun s => L (dec_ (proj IX IXdec gx (enc (Y s)))) i j)); [intros; symmetry; apply P|].
  rewrite (P Y').
  assert (HG : forall l, (forall k, In k l -> In k gx) ->
    derivable_pt_lim (fun s => L (dec_ (proj IX IXdec l (enc (Y s)))) i j) t (L (dec_ (proj IX IXdec l (enc Y'))) i j)).
  { induction l as [|k l IH]; intros Hl; cbn [proj].
    - assert (Z0 : L (dec_ (vzero IX)) i j = 0).
      { replace (dec_ (vzero IX)) with (sscale 0 szero); [rewrite Lsc; ring|].
        apply state_eq; intros; cbn; unfold fscale, fconst, vzero; ring. }
      rewrite Z0. apply dpl_const.
    - rewrite dec_add, Lad, dec_scale, Lsc.
      apply (dpl_ext (fun s => enc (Y s) k * L (dec_ (unit_v IX IXdec k)) i j + L (dec_ (proj IX IXdec l (enc (Y s)))) i j)).
      { intros s. rewrite dec_add, Lad, dec_scale, Lsc. reflexivity. }
      apply dpl_plus; [|apply IH; intros; apply Hl; now right].
      apply (dpl_ext (fun s => L (dec_ (unit_v IX IXdec k)) i j * enc (Y s) k)); [intros; ring|].
      rewrite (Rmult_comm (enc Y' k)). apply dpl_scal.
      destruct k as [[] [a c]]; destruct (proj1 (in_gridix _ _ _ _ _) (Hl _ (or_introl eq_refl))) as [Ha Hc];
        destruct (HY a c Ha Hc) as [D1 D2]; assumption. }
  apply HG. auto.
Qed.
Lemma fev_der q Y t Y' : wf q -> sder Y t Y' ->
  derivable_pt_lim (fun s => fev q (Y s) (Y s)) t (fev q Y' (Y t) + fev q (Y t) Y').
Proof.
  intros H HY. induction q as [|[[c L1] L2] q IH]; cbn [fev].
  - rewrite Rplus_0_l. apply dpl_const.
  - destruct (H c L1 L2 (or_introl eq_refl)) as [H1 H2]. specialize (IH (wf_tl _ _ H)).
    apply dpl_eq with (c * (mn (fun i j => L1 Y' i j * L2 (Y t) i j + L1 (Y t) i j * L2 Y' i j)) + (fev q Y' (Y t) + fev q (Y t) Y')).
    + apply dpl_plus; [|exact IH]. apply dpl_scal. unfold gmean, gsum.
      apply (dpl_ext (fun s => / (INR ny * INR nx) * rsum ny (fun i => rsum nx (fun j => L1 (Y s) i j * L2 (Y s) i j)))); [intros; unfold Rdiv; ring|].
      unfold Rdiv. rewrite (Rmult_comm _ (/ (INR ny * INR nx))). apply dpl_scal.
      apply (rsum_der ny (fun i s => rsum nx (fun j => L1 (Y s) i j * L2 (Y s) i j))
        (fun i => rsum nx (fun j => L1 Y' i j * L2 (Y t) i j + L1 (Y t) i j * L2 Y' i j))). intros i Hi.
      apply (rsum_der nx (fun j s => L1 (Y s) i j * L2 (Y s) i j) (fun j => L1 Y' i j * L2 (Y t) i j + L1 (Y t) i j * L2 Y' i j)).
      intros j Hj. apply (derivable_pt_lim_mult (fun s => L1 (Y s) i j) (fun s => L2 (Y s) i j)); now apply lin_der.
    + rewrite mn_add. ring.
Qed.

(** ** the four forms *)
Definition fE : form := [(-1, fst, Ldp); (- pc1 p, Lnp, Lnp); (-1, fst, LDn); (1, Lp, LDp)].
Definition fU : form := [(-1, fst, Ldp); (1, Lno, LDnp)].
Definition gE : form := [(1 / 2, fst, fst); (- (1 / 2), Lp, snd)].
Definition gU : form := [(1 / 2, Lno, Lno)].
Lemma wf_fE : wf fE.
Proof. repeat apply wf_cons; try exact wf_nil; auto using lin_n, lin_o, lin_p, lin_np, lin_no, lin_dp, lin_Dn, lin_Dp, lin_Dnp. Qed.
Lemma wf_fU : wf fU.
Proof. repeat apply wf_cons; try exact wf_nil; auto using lin_n, lin_o, lin_p, lin_np, lin_no, lin_dp, lin_Dn, lin_Dp, lin_Dnp. Qed.
Lemma wf_gE : wf gE.
Proof. repeat apply wf_cons; try exact wf_nil; auto using lin_n, lin_o, lin_p, lin_np, lin_no, lin_dp, lin_Dn, lin_Dp, lin_Dnp. Qed.
Lemma wf_gU : wf gU.
Proof. repeat apply wf_cons; try exact wf_nil; auto using lin_n, lin_o, lin_p, lin_np, lin_no, lin_dp, lin_Dn, lin_Dp, lin_Dnp. Qed.
Lemma fE_eq y : fev fE y y = reported_dE p ny nx dx y.
Proof.
  cbn [fev fE]. unfold reported_dE, Lp, Lnp, Ldp, LDn, LDp. rewrite mn_sub.
  rewrite (mn_ext ny nx (fun i j => (fst y i j - S_ (snd y) i j) ^ 2) (fun i j => (fst y i j - S_ (snd y) i j) * (fst y i j - S_ (snd y) i j)))
    by (intros; ring). ring.
Qed.
Lemma fU_eq y : fev fU y y = reported_dU p ny nx dx y.
Proof. cbn [fev fU]. unfold reported_dU, Lno, Ldp, LDnp. ring. Qed.
Lemma gE_eq y : fev gE y y = energy ny nx dx y.
Proof.
  cbn [fev gE]. unfold energy, spec_energy, Lp.
  rewrite (mn_ext ny nx (fun i j => fst y i j ^ 2) (fun i j => fst y i j * fst y i j)) by (intros; ring). field.
Qed.
Lemma gU_eq y : fev gU y y = enstrophy ny nx y.
Proof.
  cbn [fev gU]. unfold enstrophy, Lno.
  rewrite (mn_ext ny nx (fun i j => (fst y i j - snd y i j) ^ 2) (fun i j => (fst y i j - snd y i j) * (fst y i j - snd y i j))) by (intros; ring). field.
Qed.

(** ** the ideal system: the reported rates are the rates *)
Lemma ideal_U y : pnu p = 0 -> pkap p = 1 -> fev gU (Fs y) y + fev gU y (Fs y) = reported_dU p ny nx dx y.
Proof.
  intros Hn Hk. cbn [fev gU].
  rewrite (mn_ext ny nx (fun i j => Lno (Fs y) i j * Lno y i j) (fun i j => Lno y i j * Lno (Fs y) i j)) by (intros; ring).
  pose proof (U_rate_eq p ny nx dx Hy Hx Hd (fst y) (snd y)) as E. unfold U_rate in E. cbv zeta in E.
  assert (E' : mn (fun i j => Lno y i j * Lno (Fs y) i j) = mn (fun i j => (fst y i j - snd y i j) *
    (rhs_n p ny nx dx (S_ (snd y)) (fst y) i j - rhs_o p ny nx dx (S_ (snd y)) (fst y) (snd y) i j))) by reflexivity.
  rewrite E', E. unfold reported_dU. rewrite Hk.
  rewrite (mn_ext ny nx (fun i j => (fst y i j - snd y i j) * (D (fst y) i j - D (snd y) i j)) (fun i j => 0 * fst y i j))
    by (intros; rewrite !hyper_nu0 by assumption; ring).
  rewrite (mn_ext ny nx (fun i j => (fst y i j - snd y i j) * (D (fst y) i j - D (S_ (snd y)) i j)) (fun i j => 0 * fst y i j))
    by (intros; rewrite !hyper_nu0 by assumption; ring).
  rewrite !mn_scal. lra.
Qed.
Lemma ideal_E y : pnu p = 0 -> pkap p = 1 -> pzon p = false -> fev gE (Fs y) y + fev gE y (Fs y) = reported_dE p ny nx dx y.
Proof.
  intros Hn Hk Hz. cbn [fev gE]. unfold Lp.
  rewrite (mn_ext ny nx (fun i j => fst (Fs y) i j * fst y i j) (fun i j => fst y i j * fst (Fs y) i j)) by (intros; ring).
  pose proof (mn_S ny nx dx Hy Hx Hd (snd (Fs y)) (snd y)) as Es.
  rewrite <- Es. rewrite (mn_ext ny nx (fun i j => snd (Fs y) i j * S_ (snd y) i j) (fun i j => S_ (snd y) i j * snd (Fs y) i j)) by (intros; ring).
  pose proof (E_rate_eq p ny nx dx Hy Hx Hd (S_ (snd y)) (fst y) (snd y)) as E. unfold E_rate in E.
  assert (E' : mn (fun i j => fst y i j * fst (Fs y) i j) - mn (fun i j => S_ (snd y) i j * snd (Fs y) i j) = reported_dE p ny nx dx y).
  { etransitivity; [exact E|]. rewrite Hk, (coupling_nonzonal p ny nx) by exact Hz. unfold reported_dE. rewrite mn_sub.
    rewrite (mn_ext ny nx (fun i j => fst y i j * D (fst y) i j) (fun i j => 0 * fst y i j)) by (intros; rewrite !hyper_nu0 by assumption; ring).
    rewrite (mn_ext ny nx (fun i j => S_ (snd y) i j * D (snd y) i j) (fun i j => 0 * fst y i j)) by (intros; rewrite !hyper_nu0 by assumption; ring).
    rewrite (mn_ext ny nx (fun i j => S_ (snd y) i j * D (S_ (snd y)) i j) (fun i j => 0 * fst y i j)) by (intros; rewrite !hyper_nu0 by assumption; ring).
    rewrite !mn_scal. lra. }
  lra.
Qed.
Lemma euler_exact q dt y : wf q ->
  fev q (euler Fs dt y) (euler Fs dt y) = fev q y y + dt * (fev q (Fs y) y + fev q y (Fs y)) + dt ^ 2 * fev q (Fs y) (Fs y).
Proof.
  intros H. unfold euler. rewrite fev_add_l, !fev_add_r, !fev_sc_l, !fev_sc_r by exact H. ring.
Qed.
Lemma euler_along q r dt y k : wf q -> (forall z, fev q (Fs z) z + fev q z (Fs z) = r z) ->
  let y' := iter_step (euler Fs dt) k y in
  fev q y' y' = fev q y y + along (euler Fs dt) (euler_gain r dt) k y + dt ^ 2 * along (euler Fs dt) (fun z => fev q (Fs z) (Fs z)) k y.
Proof.
  intros H Hr. revert y. induction k as [|k IH]; intros y; cbn [iter_step along]; [ring|].
  cbv zeta in IH. rewrite IH, euler_exact, Hr by exact H. unfold euler_gain. ring.
Qed.

(** ** the system with two carried numbers *)
Definition JX := (IX + bool)%type.
Definition JXdec (a c : JX) : {a = c} + {a <> c}.
Proof. decide equality; [apply IXdec|apply bool_dec]. Defined.
Definition jx : list JX := map inl gx ++ [inr true; inr false].
Lemma jx_nodup : NoDup jx.
Proof.
  apply nodup_app.
  - apply FinFun.Injective_map_NoDup; [intros u v E; congruence|apply gridix_nodup].
  - repeat constructor; cbn; intuition congruence.
  - intros u Hu. apply in_map_iff in Hu as (v & <- & _). cbn. intuition congruence.
Qed.
Definition lo (u : JX -> R) : IX -> R := fun k => u (inl k).
Definition Ae (u : JX -> R) : JX -> R := fun k => match k with inl i => A (lo u) i | inr _ => 0 end.
Definition Be (u v : JX -> R) : JX -> R := fun k => match k with
  | inl i => B (lo u) (lo v) i | inr true => fev fE (dec_ (lo u)) (dec_ (lo v)) | inr false => fev fU (dec_ (lo u)) (dec_ (lo v)) end.
Definition ence (y : state) (e u : R) : JX -> R := fun k => match k with inl i => enc y i | inr true => e | inr false => u end.
Lemma Ae_add u v : Ae (vadd JX u v) = vadd JX (Ae u) (Ae v).
Proof. extensionality k. destruct k as [k|c]; cbn; [exact (equal_f (Av_add p ny nx dx Hy Hx Hd (lo u) (lo v)) k)|unfold vadd; cbn; ring]. Qed.
Lemma Ae_scale c u : Ae (vscale JX c u) = vscale JX c (Ae u).
Proof. extensionality k. destruct k as [k|b]; cbn; [exact (equal_f (Av_scale p ny nx dx Hy Hx Hd c (lo u)) k)|unfold vscale; cbn; ring]. Qed.
Lemma Be_add_l u v w : Be (vadd JX u v) w = vadd JX (Be u w) (Be v w).
Proof.
  extensionality k. destruct k as [k|[]]; cbn; [exact (equal_f (Bv_add_l p ny nx dx Hy Hx Hd (lo u) (lo v) (lo w)) k)| |].
  - exact (fev_add_l fE (dec_ (lo u)) (dec_ (lo v)) (dec_ (lo w)) wf_fE).
  - exact (fev_add_l fU (dec_ (lo u)) (dec_ (lo v)) (dec_ (lo w)) wf_fU).
Qed.
Lemma Be_add_r u v w : Be w (vadd JX u v) = vadd JX (Be w u) (Be w v).
Proof.
  extensionality k. destruct k as [k|[]]; cbn; [exact (equal_f (Bv_add_r p ny nx dx Hd (lo u) (lo v) (lo w)) k)| |].
  - exact (fev_add_r fE (dec_ (lo u)) (dec_ (lo v)) (dec_ (lo w)) wf_fE).
  - exact (fev_add_r fU (dec_ (lo u)) (dec_ (lo v)) (dec_ (lo w)) wf_fU).
Qed.
Lemma Be_scale_l c u w : Be (vscale JX c u) w = vscale JX c (Be u w).
Proof.
  extensionality k. destruct k as [k|[]]; cbn; [exact (equal_f (Bv_scale_l p ny nx dx Hy Hx Hd c (lo u) (lo w)) k)| |].
  - exact (fev_sc_l fE c (dec_ (lo u)) (dec_ (lo w)) wf_fE).
  - exact (fev_sc_l fU c (dec_ (lo u)) (dec_ (lo w)) wf_fU).
Qed.
Lemma Be_scale_r c u w : Be w (vscale JX c u) = vscale JX c (Be w u).
Proof.
  extensionality k. destruct k as [k|[]]; cbn; [exact (equal_f (Bv_scale_r p ny nx dx Hd c (lo u) (lo w)) k)| |].
  - exact (fev_sc_r fE c (dec_ (lo u)) (dec_ (lo w)) wf_fE).
  - exact (fev_sc_r fU c (dec_ (lo u)) (dec_ (lo w)) wf_fU).
Qed.
Lemma lo_agree u v : (forall j, In j jx -> u j = v j) -> forall k, In k gx -> lo u k = lo v k.
Proof. intros H k Hk. apply H. apply in_or_app. left. now apply in_map. Qed.
Lemma Ae_bd : exists C, 0 <= C /\ forall u, OdeFacts.nrm JX jx (Ae u) <= C * OdeFacts.nrm JX jx u.
Proof.
  eexists. split; [|intros u; apply (lin_bd JX jx JXdec jx_nodup Ae Ae_add Ae_scale)].
  - apply rsum_l_pos. intros. apply nrm_pos.
  - intros u' v H j Hj. destruct j as [k|c]; [|reflexivity]. cbn.
    apply in_app_or in Hj as [Hj|[Hj|[Hj|[]]]]; try discriminate.
    apply in_map_iff in Hj as (k' & E & Hk). injection E as ->.
    assert (G : forall k, In k gx -> enc (hw_lin p ny nx dx (dec_ (lo u'))) k = enc (hw_lin p ny nx dx (dec_ (lo v))) k).
    { apply agree_enc. unfold hw_lin. apply hw_rhs_ext; auto. apply dec_agree. now apply lo_agree. }
    now apply G.
Qed.
Lemma Be_bd : exists C, 0 <= C /\ forall u v, OdeFacts.nrm JX jx (Be u v) <= C * OdeFacts.nrm JX jx u * OdeFacts.nrm JX jx v.
Proof.
  apply (bilin_bd JX jx JXdec Be jx_nodup Be_add_l Be_add_r Be_scale_l Be_scale_r).
  intros u v u' v' H H' j Hj. pose proof (dec_agree ny nx _ _ (lo_agree _ _ H)) as G. pose proof (dec_agree ny nx _ _ (lo_agree _ _ H')) as G'.
  destruct j as [k|[]]; [|exact (fev_ext fE _ _ _ _ wf_fE G G')|exact (fev_ext fU _ _ _ _ wf_fU G G')]. cbn [Be].
  apply in_app_or in Hj as [Hj|[Hj|[Hj|[]]]]; try discriminate.
  apply in_map_iff in Hj as (k' & E & Hk). injection E as ->. unfold Bv.
  apply (agree_enc ny nx); [|exact Hk]. destruct G as [_ Ho], G' as [Hn' Ho'].
  assert (Hp : agree ny nx (S_ (snd (dec_ (lo u)))) (S_ (snd (dec_ (lo v))))) by (intros i j _ _; now apply invlap_ext).
  split; intros i j Hi Hj; cbn [hw_quad fst snd]; unfold fscale; f_equal; apply (jac_ext ny nx dx Hy Hx Hd); assumption.
Qed.
Lemma Fe_lo w : lo (F JX Ae Be w) = F IX A B (lo w).
Proof. reflexivity. Qed.
Lemma dec_F w : dec_ (F IX A B w) = Fs (dec_ w).
Proof. rewrite <- (enc_dec w) at 1. rewrite <- enc_F, dec_enc. reflexivity. Qed.
Definition rr (c : bool) : state -> R := if c then reported_dE p ny nx dx else reported_dU p ny nx dx.
Lemma Fe_hi w c : F JX Ae Be w (inr c) = rr c (dec_ (lo w)).
Proof.
  destruct c.
  - transitivity (0 + fev fE (dec_ (lo w)) (dec_ (lo w))); [reflexivity|]. rewrite fE_eq. unfold rr. ring.
  - transitivity (0 + fev fU (dec_ (lo w)) (dec_ (lo w))); [reflexivity|]. rewrite fU_eq. unfold rr. ring.
Qed.
Lemma rk4_ence dt y e u : vrk4 JX Ae Be dt (ence y e u) =
  ence (rk4 Fs dt y) (e + rk4_gain Fs (rr true) dt y) (u + rk4_gain Fs (rr false) dt y).
Proof.
  extensionality k. destruct k as [k|c].
  - transitivity (vrk4 IX A B dt (enc y) k); [reflexivity|]. rewrite <- (enc_rk4 p ny nx dx). reflexivity.
  - set (w := ence y e u). assert (L0 : dec_ (lo w) = y) by (unfold w, lo; cbn; destruct y; reflexivity).
    transitivity (w (inr c) + dt / 6 * (F JX Ae Be w (inr c)
      + 2 * F JX Ae Be (vadd JX w (vscale JX (dt / 2) (F JX Ae Be w))) (inr c)
      + 2 * F JX Ae Be (vadd JX w (vscale JX (dt / 2) (F JX Ae Be (vadd JX w (vscale JX (dt / 2) (F JX Ae Be w)))))) (inr c)
      + F JX Ae Be (vadd JX w (vscale JX dt (F JX Ae Be (vadd JX w (vscale JX (dt / 2) (F JX Ae Be (vadd JX w (vscale JX (dt / 2) (F JX Ae Be w)))))))) ) (inr c)));
      [reflexivity|].
    rewrite !Fe_hi.
    assert (St : forall h v, dec_ (lo (vadd JX w (vscale JX h (F JX Ae Be v)))) = sadd y (sscale h (Fs (dec_ (lo v))))).
    { intros h0 v. rewrite <- L0, <- dec_F, <- Fe_lo. reflexivity. }
    rewrite !St, L0. unfold w, ence, rk4_gain. destruct c; ring.
Qed.
Lemma iter_ence dt k y e u : viter JX (vrk4 JX Ae Be dt) k (ence y e u) =
  ence (iter_step (rk4 Fs dt) k y) (e + along (rk4 Fs dt) (rk4_gain Fs (rr true) dt) k y) (u + along (rk4 Fs dt) (rk4_gain Fs (rr false) dt) k y).
Proof.
  revert y e u. induction k as [|k IH]; intros y e u; cbn [viter iter_step along]; [now rewrite !Rplus_0_r|].
  rewrite rk4_ence, IH, !Rplus_assoc. reflexivity.
Qed.
Lemma carried_order Y e u T : 0 <= T -> hw_solution p ny nx dx Y T ->
  (forall t, 0 <= t <= T -> derivable_pt_lim e t (rr true (Y t))) ->
  (forall t, 0 <= t <= T -> derivable_pt_lim u t (rr false (Y t))) ->
  exists C h0, 0 <= C /\ 0 < h0 /\ forall dt k, 0 < dt <= h0 -> INR k * dt <= T ->
    within ny nx (C * dt ^ 4) (iter_step (rk4 Fs dt) k (Y 0)) (Y (INR k * dt)) /\
    Rabs (e 0 + along (rk4 Fs dt) (rk4_gain Fs (rr true) dt) k (Y 0) - e (INR k * dt)) <= C * dt ^ 4 /\
    Rabs (u 0 + along (rk4 Fs dt) (rk4_gain Fs (rr false) dt) k (Y 0) - u (INR k * dt)) <= C * dt ^ 4.
Proof.
  intros HT HY He Hu. destruct Ae_bd as (CA & HA & Ab), Be_bd as (CB & HB & Bb).
  assert (HS : solves JX jx Ae Be (fun t => ence (Y t) (e t) (u t)) T).
  { intros t j Ht Hj. destruct j as [[b0 [i j]]|[]].
    - apply in_app_or in Hj as [Hj|[Hj|[Hj|[]]]]; try discriminate.
      apply in_map_iff in Hj as (k' & E & Hk). injection E as ->. exact (enc_solves p ny nx dx Y T HY t _ Ht Hk).
    - rewrite Fe_hi. change (derivable_pt_lim e t (rr true (dec_ (enc (Y t))))). rewrite dec_enc. now apply He.
    - rewrite Fe_hi. change (derivable_pt_lim u t (rr false (dec_ (enc (Y t))))). rewrite dec_enc. now apply Hu. }
  destruct (rk4_global JX jx Ae Be Ae_add Ae_scale Be_add_l Be_add_r Be_scale_l Be_scale_r CA CB HA HB Ab Bb
    (fun t => ence (Y t) (e t) (u t)) T HT HS) as (C & h0 & HC & Hh & HG).
  exists C, h0. split; [exact HC|]. split; [exact Hh|]. intros dt k Hdt Hk. specialize (HG dt k Hdt Hk). rewrite iter_ence in HG.
  assert (Ub : forall j, In j jx -> Rabs (vsub JX (ence (iter_step (rk4 Fs dt) k (Y 0)) (e 0 + along (rk4 Fs dt) (rk4_gain Fs (rr true) dt) k (Y 0)) (u 0 + along (rk4 Fs dt) (rk4_gain Fs (rr false) dt) k (Y 0)))
    (ence (Y (INR k * dt)) (e (INR k * dt)) (u (INR k * dt))) j) <= C * dt ^ 4).
  { intros j Hj. eapply Rle_trans; [apply (nrm_ub JX jx); exact Hj|exact HG]. }
  split; [|split].
  - intros i j Hi Hj. split.
    + apply (Ub (inl (true, (i, j)))). apply in_or_app. left. apply in_map. now apply in_gridix.
    + apply (Ub (inl (false, (i, j)))). apply in_or_app. left. apply in_map. now apply in_gridix.
  - apply (Ub (inr true)). apply in_or_app. right. now left.
  - apply (Ub (inr false)). apply in_or_app. right. right. now left.
Qed.

(** ** the carried numbers and the energy and enstrophy of the fields *)
Lemma form_close q Y T : wf q -> 0 <= T -> hw_solution p ny nx dx Y T ->
  forall C, 0 <= C -> exists K, 0 <= K /\ forall e t y, 0 <= e <= 1 -> 0 <= t <= T -> within ny nx (C * e) y (Y t) ->
    Rabs (fev q y y - fev q (Y t) (Y t)) <= K * e.
Proof.
  intros H HT HY C HC. pose proof (enc_solves p ny nx dx Y T HY) as HS.
  destruct (solves_bounded IX gx A B (fun t => enc (Y t)) T HT HS) as (M & HM & Hb).
  destruct (fev_lip q (M + C) H ltac:(lra)) as (K & HK & Hl). exists (K * C). split; [nra|].
  intros e t y He Ht Hw.
  assert (Hn : nrm (vsub IX (enc y) (enc (Y t))) <= C * e).
  { apply nrm_le; [nra|]. intros [b0 [i j]] Hj. apply in_gridix in Hj as [Hi Hj]. destruct (Hw i j Hi Hj) as [W1 W2].
    destruct b0; assumption. }
  assert (Ny : nrm (enc y) <= M + C).
  { replace (enc y) with (vadd IX (enc (Y t)) (vsub IX (enc y) (enc (Y t)))) by (extensionality k; unfold vadd, vsub; ring).
    eapply Rle_trans; [apply nrm_add|]. pose proof (Hb t Ht). nra. }
  pose proof (Hl (enc y) (enc (Y t)) Ny ltac:(pose proof (Hb t Ht); lra)) as L. rewrite !dec_enc in L.
  eapply Rle_trans; [exact L|]. rewrite Rmult_assoc. now apply Rmult_le_compat_l.
Qed.
Lemma sol_sder Y T t : hw_solution p ny nx dx Y T -> 0 <= t <= T -> sder Y t (Fs (Y t)).
Proof. intros HY Ht i j Hi Hj. apply HY; assumption. Qed.
Lemma carried_ideal y0 T : pnu p = 0 -> pkap p = 1 -> pzon p = false -> 0 <= T ->
  exists C h0, 0 <= C /\ 0 < h0 /\ forall dt k, 0 < dt <= h0 -> INR k * dt <= T ->
    let y := iter_step (rk4 Fs dt) k y0 in
    Rabs (along (rk4 Fs dt) (rk4_gain Fs (rr true) dt) k y0 - (energy ny nx dx y - energy ny nx dx y0)) <= C * dt ^ 4 /\
    Rabs (along (rk4 Fs dt) (rk4_gain Fs (rr false) dt) k y0 - (enstrophy ny nx y - enstrophy ny nx y0)) <= C * dt ^ 4.
Proof.
  intros Hn Hk Hz HT. destruct (hw_exists p ny nx dx Hy Hx Hd) as (K0 & _ & Ex).
  destruct (Ex y0 T HT) as (Y & HY & Y0 & _).
  destruct (carried_order Y (fun t => energy ny nx dx (Y t)) (fun t => enstrophy ny nx (Y t)) T HT HY) as (C & h0 & HC & Hh & HG).
  - intros t Ht. apply (dpl_ext (fun s => fev gE (Y s) (Y s))); [intros; apply gE_eq|].
    eapply dpl_eq; [apply fev_der; [exact wf_gE|exact (sol_sder Y T t HY Ht)]|]. now apply ideal_E.
  - intros t Ht. apply (dpl_ext (fun s => fev gU (Y s) (Y s))); [intros; apply gU_eq|].
    eapply dpl_eq; [apply fev_der; [exact wf_gU|exact (sol_sder Y T t HY Ht)]|]. now apply ideal_U.
  - destruct (form_close gE Y T wf_gE HT HY C HC) as (KE & HKE & CE).
    destruct (form_close gU Y T wf_gU HT HY C HC) as (KU & HKU & CU).
    exists (C + KE + KU), (Rmin h0 1). split; [lra|]. split; [apply Rmin_glb_lt; lra|].
    intros dt k [Hdt Hdm] Hkt. assert (dt <= h0 /\ dt <= 1) as [Hd0 Hd1] by (split; eapply Rle_trans; try exact Hdm; [apply Rmin_l|apply Rmin_r]).
    destruct (HG dt k (conj Hdt Hd0) Hkt) as (W & G1 & G2). rewrite Y0 in *. cbv zeta.
    assert (P4 : 0 <= dt ^ 4 <= 1) by (split; [apply pow_le; lra|rewrite <- (pow1 4); apply pow_incr; lra]).
    assert (Tk : 0 <= INR k * dt <= T) by (split; [apply Rmult_le_pos; [apply pos_INR|lra]|exact Hkt]).
    pose proof (CE (dt ^ 4) _ _ P4 Tk W) as C1. pose proof (CU (dt ^ 4) _ _ P4 Tk W) as C2.
    rewrite !gE_eq in C1. rewrite !gU_eq in C2. clear - G1 G2 C1 C2 P4 HC HKE HKU.
    assert (0 <= C * dt ^ 4) by nra. assert (0 <= KE * dt ^ 4) by nra. assert (0 <= KU * dt ^ 4) by nra.
    split; rewrite !Rmult_plus_distr_r.
    + match goal with G : Rabs (energy ny nx dx y0 + ?a - ?e1) <= _, C1 : Rabs (?e2 - ?e1) <= _ |- _ =>
        replace (a - (e2 - energy ny nx dx y0)) with ((energy ny nx dx y0 + a - e1) + - (e2 - e1)) by ring end.
      eapply Rle_trans; [apply Rabs_triang|]. rewrite Rabs_Ropp. lra.
    + match goal with G : Rabs (enstrophy ny nx y0 + ?a - ?e1) <= _, C1 : Rabs (?e2 - ?e1) <= _ |- _ =>
        replace (a - (e2 - enstrophy ny nx y0)) with ((enstrophy ny nx y0 + a - e1) + - (e2 - e1)) by ring end.
      eapply Rle_trans; [apply Rabs_triang|]. rewrite Rabs_Ropp. lra.
Qed.
Lemma energy_pos y : 0 <= energy ny nx dx y.
Proof.
  unfold energy, spec_energy.
  assert (Sv : solved ny nx dx (snd y) (S_ (snd y))) by (apply solved_intro; auto; intros; now apply invlap_rmult).
  destruct (c15_negative ny nx dx (snd y) (S_ (snd y)) Hy Hx Hd Sv) as [Ng _].
  assert (Hp : 0 < INR ny * INR nx) by (apply Rmult_lt_0_compat; apply lt_0_INR; assumption).
  assert (N1 : mn (fun i j => S_ (snd y) i j * snd y i j) <= 0).
  { rewrite (mn_ext ny nx _ (fun i j => snd y i j * S_ (snd y) i j)) by (intros; ring). rewrite mn_inner. unfold Rdiv.
    pose proof (Rinv_0_lt_compat _ Hp). nra. }
  assert (N2 : 0 <= mn (fun i j => fst y i j ^ 2)) by (apply gmean_nonneg; [assumption|assumption|intros; apply pow2_ge_0]).
  lra.
Qed.
Lemma enstrophy_pos y : 0 <= enstrophy ny nx y.
Proof.
  unfold enstrophy.
  assert (N2 : 0 <= mn (fun i j => (fst y i j - snd y i j) ^ 2)) by (apply gmean_nonneg; [assumption|assumption|intros; apply pow2_ge_0]). lra.
Qed.
End Q.
