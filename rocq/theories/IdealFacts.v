(** Conservation, superposition and independence when c1 = 0 (C128). *)
From Coq Require Import List Arith ZArith Lia Bool Reals Lra Psatz String FunctionalExtensionality Permutation.
From Verif Require Import Num NdArray NdFacts Spec GradFacts SumFacts LapFacts
  Cplx DftFacts SpecFourier PoissonFacts PoissonProps ModelHW ModelBackend
  SpecHW SpecPlasma HWFacts StepFacts RhsFacts SymFacts BalanceProps OdeFacts RkOrder
  SmoothFacts PdeConv PdeStab HwExist HwConv DiagProps SpecConv SpecAccount AccountOde HWProps StepProps SpecIdeal.
Import ListNotations.
Local Open Scope R_scope.

Section I.
Variables (p : par) (ny nx : nat) (dx : R).
Hypothesis Hy : (0 < ny)%nat.
Hypothesis Hx : (0 < nx)%nat.
Hypothesis Hd : dx <> 0.
Local Notation S_ := (invlap ny nx dx).
Local Notation mn := (gmean ny nx).
Local Notation J := (jacobian ny nx dx).
Local Notation Fs := (hw_rhs p ny nx dx).
Local Notation fev := (fev ny nx).
Local Notation wf := (wf ny nx).
Local Notation Lp := (Lp ny nx dx).

Definition qnn : form := [(1, fst, fst)].
Definition qoo : form := [(1, snd, snd)].
Definition qno : form := [(1, fst, snd)].
Definition qkin : form := [(-1, Lp, snd)].
Lemma wf_qnn : wf qnn. Proof. apply wf_cons; [apply lin_n|apply lin_n|apply wf_nil]. Qed.
Lemma wf_qoo : wf qoo. Proof. apply wf_cons; [apply lin_o|apply lin_o|apply wf_nil]. Qed.
Lemma wf_qno : wf qno. Proof. apply wf_cons; [apply lin_n|apply lin_o|apply wf_nil]. Qed.
Lemma wf_qkin : wf qkin. Proof. apply wf_cons; [now apply lin_p|apply lin_o|apply wf_nil]. Qed.
Lemma qnn_eq y : fev qnn y y = mean_nn ny nx y.
Proof. cbn [AccountOde.fev qnn]. unfold mean_nn. rewrite Rmult_1_l, Rplus_0_r. apply mn_ext. intros. ring. Qed.
Lemma qoo_eq y : fev qoo y y = mean_oo ny nx y.
Proof. cbn [AccountOde.fev qoo]. unfold mean_oo. rewrite Rmult_1_l, Rplus_0_r. apply mn_ext. intros. ring. Qed.
Lemma qno_eq y : fev qno y y = mean_no ny nx y.
Proof. cbn [AccountOde.fev qno]. unfold mean_no. ring. Qed.
Lemma qkin_eq y : fev qkin y y = kinetic ny nx dx y.
Proof. cbn [AccountOde.fev qkin]. unfold kinetic, AccountOde.Lp. ring. Qed.

(** the bracket with a fixed first argument is antisymmetric *)
Lemma jac_skew f g k : mn (fun i j => g i j * J f k i j) + mn (fun i j => k i j * J f g i j) = 0.
Proof.
  pose proof (mn_jac_r ny nx dx Hy Hx Hd f (fadd (fscale 1 g) (fscale 1 k))) as E.
  rewrite (mn_ext ny nx _ (fun i j => (g i j * J f g i j + k i j * J f k i j) + (g i j * J f k i j + k i j * J f g i j))) in E.
  2:{ intros i j _ _. rewrite (jac_lin_r ny nx dx Hd). unfold fadd, fscale. ring. }
  rewrite !mn_add in E. rewrite !(mn_jac_r ny nx dx Hy Hx Hd) in E. lra.
Qed.
Lemma rhs_o_c1 phi n o i j : pc1 p = 0 -> rhs_o p ny nx dx phi n o i j = - ppb p * J phi o i j + hyper p ny nx dx o i j.
Proof. intros E. unfold rhs_o. rewrite E. ring. Qed.
Lemma rhs_n_c1 phi n i j : pc1 p = 0 -> pkap p = 0 -> rhs_n p ny nx dx phi n i j = - ppb p * J phi n i j + hyper p ny nx dx n i j.
Proof. intros E E'. unfold rhs_n. rewrite E, E'. ring. Qed.

Lemma rate_oo y : pc1 p = 0 -> fev qoo (Fs y) y + fev qoo y (Fs y) = 2 * mn (fun i j => snd y i j * hyper p ny nx dx (snd y) i j).
Proof.
  intros E. cbn [AccountOde.fev qoo]. rewrite !Rmult_1_l, !Rplus_0_r.
  rewrite (mn_ext ny nx (fun i j => snd (Fs y) i j * snd y i j) (fun i j => snd y i j * snd (Fs y) i j)) by (intros; ring).
  rewrite (mn_ext ny nx (fun i j => snd y i j * snd (Fs y) i j)
    (fun i j => - ppb p * (snd y i j * J (S_ (snd y)) (snd y) i j) + snd y i j * hyper p ny nx dx (snd y) i j)).
  2:{ intros i j _ _. cbn [hw_rhs snd fst]. rewrite rhs_o_c1 by exact E. ring. }
  rewrite mn_add, mn_scal, (mn_jac_r ny nx dx Hy Hx Hd). ring.
Qed.
Lemma rate_nn y : pc1 p = 0 -> pkap p = 0 -> fev qnn (Fs y) y + fev qnn y (Fs y) = 2 * mn (fun i j => fst y i j * hyper p ny nx dx (fst y) i j).
Proof.
  intros E E'. cbn [AccountOde.fev qnn]. rewrite !Rmult_1_l, !Rplus_0_r.
  rewrite (mn_ext ny nx (fun i j => fst (Fs y) i j * fst y i j) (fun i j => fst y i j * fst (Fs y) i j)) by (intros; ring).
  rewrite (mn_ext ny nx (fun i j => fst y i j * fst (Fs y) i j)
    (fun i j => - ppb p * (fst y i j * J (S_ (snd y)) (fst y) i j) + fst y i j * hyper p ny nx dx (fst y) i j)).
  2:{ intros i j _ _. cbn [hw_rhs snd fst]. rewrite rhs_n_c1 by assumption. ring. }
  rewrite mn_add, mn_scal, (mn_jac_r ny nx dx Hy Hx Hd). ring.
Qed.
Lemma mn_0 f : (forall i j, f i j = 0) -> mn f = 0.
Proof. intros H. rewrite (mn_ext ny nx f (fun i j => 0 * f i j)) by (intros; rewrite H; ring). rewrite mn_scal. ring. Qed.
Lemma rate_no y : pc1 p = 0 -> pkap p = 0 -> pnu p = 0 -> fev qno (Fs y) y + fev qno y (Fs y) = 0.
Proof.
  intros E E' En. cbn [AccountOde.fev qno]. rewrite !Rmult_1_l, !Rplus_0_r.
  rewrite (mn_ext ny nx (fun i j => fst (Fs y) i j * snd y i j) (fun i j => - ppb p * (snd y i j * J (S_ (snd y)) (fst y) i j))).
  2:{ intros i j _ _. cbn [hw_rhs snd fst]. rewrite rhs_n_c1, hyper_nu0 by assumption. ring. }
  rewrite (mn_ext ny nx (fun i j => fst y i j * snd (Fs y) i j) (fun i j => - ppb p * (fst y i j * J (S_ (snd y)) (snd y) i j))).
  2:{ intros i j _ _. cbn [hw_rhs snd fst]. rewrite rhs_o_c1, hyper_nu0 by assumption. ring. }
  rewrite !mn_scal, <- Rmult_plus_distr_l, jac_skew. ring.
Qed.
Lemma rate_kin y : pc1 p = 0 -> pnu p = 0 -> fev qkin (Fs y) y + fev qkin y (Fs y) = 0.
Proof.
  intros E En. cbn [AccountOde.fev qkin]. unfold AccountOde.Lp. rewrite !Rplus_0_r.
  rewrite <- (mn_S ny nx dx Hy Hx Hd (snd (Fs y)) (snd y)).
  rewrite (mn_ext ny nx (fun i j => snd (Fs y) i j * S_ (snd y) i j) (fun i j => S_ (snd y) i j * snd (Fs y) i j)) by (intros; ring).
  rewrite (mn_ext ny nx (fun i j => S_ (snd y) i j * snd (Fs y) i j) (fun i j => - ppb p * (S_ (snd y) i j * J (S_ (snd y)) (snd y) i j))).
  2:{ intros i j _ _. cbn [hw_rhs snd fst]. rewrite rhs_o_c1, hyper_nu0 by assumption. ring. }
  rewrite mn_scal, (mn_jac_l ny nx dx Hy Hx Hd). ring.
Qed.

(** every invariant of the list is a form with vanishing rate *)
Definition steady (q : state -> R) : Prop :=
  exists f, wf f /\ (forall y, fev f y y = q y) /\ forall y, fev f (Fs y) y + fev f y (Fs y) = 0.
Lemma flow_steady q : pc1 p = 0 -> pnu p = 0 -> flow_invariant ny nx dx q -> steady q.
Proof.
  intros E En [].
  - exists qoo. split; [exact wf_qoo|]. split; [exact qoo_eq|]. intros y. rewrite rate_oo by exact E.
    rewrite mn_0; [ring|]. intros. rewrite hyper_nu0 by exact En. ring.
  - exists qkin. split; [exact wf_qkin|]. split; [exact qkin_eq|]. intros y. now apply rate_kin.
Qed.
Lemma full_steady q : pc1 p = 0 -> pnu p = 0 -> pkap p = 0 -> full_invariant ny nx dx q -> steady q.
Proof.
  intros E En Ek [q' H| |].
  - now apply flow_steady.
  - exists qnn. split; [exact wf_qnn|]. split; [exact qnn_eq|]. intros y. rewrite rate_nn by assumption.
    rewrite mn_0; [ring|]. intros. rewrite hyper_nu0 by exact En. ring.
  - exists qno. split; [exact wf_qno|]. split; [exact qno_eq|]. intros y. now apply rate_no.
Qed.

(** ** along exact solutions *)
Lemma steady_solution q Y T : steady q -> hw_solution p ny nx dx Y T -> forall t, 0 <= t <= T -> q (Y t) = q (Y 0).
Proof.
  intros (f & Hw & Hq & Hr) HY t Ht. destruct (Req_dec t 0) as [->|Hne]; [reflexivity|].
  destruct (MVT_cor2 (fun s => q (Y s)) (fun _ => 0) 0 t) as (c & Ec & _); [lra| |lra].
  intros c Hc. apply (dpl_ext (fun s => fev f (Y s) (Y s))); [intros; apply Hq|].
  eapply dpl_eq; [apply fev_der; [exact Hw|apply (sol_sder p ny nx dx Y T c HY); lra]|apply Hr].
Qed.
Lemma visc_solution f q Y T : wf f -> (forall y, fev f y y = q y) -> (forall y, fev f (Fs y) y + fev f y (Fs y) <= 0) ->
  hw_solution p ny nx dx Y T -> forall s t, 0 <= s -> s <= t -> t <= T -> q (Y t) <= q (Y s).
Proof.
  intros Hw Hq Hr HY s t H0 Hst HT. destruct (Req_dec s t) as [->|Hne]; [lra|].
  destruct (MVT_cor2 (fun s => q (Y s)) (fun c => fev f (Fs (Y c)) (Y c) + fev f (Y c) (Fs (Y c))) s t) as (c & Ec & Hc); [lra| |].
  - intros c Hc. apply (dpl_ext (fun s => fev f (Y s) (Y s))); [intros; apply Hq|].
    apply fev_der; [exact Hw|apply (sol_sder p ny nx dx Y T c HY); lra].
  - pose proof (Hr (Y c)). nra.
Qed.
Lemma visc_rate f : 0 <= pnu p -> mn (fun i j => f i j * hyper p ny nx dx f i j) <= 0.
Proof.
  intros Hn. rewrite (mn_ext ny nx _ (fun i j => pnu p * ((-1) ^ (pN p + 1) * (f i j * lap_iter (pN p) ny nx dx f i j)))) by (intros; unfold hyper; ring).
  rewrite !mn_scal, mn_inner. destruct (hyper_form (pN p) ny nx dx f Hy Hx Hd) as [F _].
  assert (P : 0 < / (INR ny * INR nx)) by (apply Rinv_0_lt_compat, Rmult_lt_0_compat; now apply lt_0_INR).
  unfold Rdiv. rewrite <- Rmult_assoc. rewrite <- Rmult_assoc. rewrite Rmult_assoc with (r1 := pnu p).
  set (q := (-1) ^ (pN p + 1) * _) in *. clearbody q. set (c := / (INR ny * INR nx)) in *. clearbody c.
  assert (pnu p * q <= 0) by nra. nra.
Qed.

(** ** Euler steps *)
Definition quadratic (q : state -> R) : Prop := exists f, wf f /\ forall y, fev f y y = q y.
Lemma steady_euler q dt y k : steady q ->
  q (iter_step (euler Fs dt) k y) = q y + dt ^ 2 * along (euler Fs dt) (fun z => q (Fs z)) k y.
Proof.
  intros (f & Hw & Hq & Hr). pose proof (euler_along p ny nx dx f (fun _ => 0) dt y k Hw Hr) as E. cbv zeta in E.
  rewrite !Hq in E. rewrite E. f_equal.
  - assert (Z : forall k z, along (euler Fs dt) (euler_gain (fun _ => 0) dt) k z = 0).
    { induction k0; intros z; cbn [along]; [reflexivity|]. rewrite IHk0. unfold euler_gain. ring. }
    rewrite Z. ring.
  - f_equal. assert (Z : forall k z, along (euler Fs dt) (fun z => fev f (Fs z) (Fs z)) k z = along (euler Fs dt) (fun z => q (Fs z)) k z).
    { induction k0; intros z; cbn [along]; [reflexivity|]. now rewrite IHk0, Hq. }
    apply Z.
Qed.
Lemma along_pos step g k y : (forall z, 0 <= g z) -> 0 <= along step g k y.
Proof. intros H. revert y. induction k; intros y; cbn [along]; [lra|]. pose proof (H y). pose proof (IHk (step y)). lra. Qed.

(** ** rk4 steps *)
Lemma steady_rk4 q y0 T : steady q -> 0 <= T ->
  exists C h0, 0 <= C /\ 0 < h0 /\ forall dt k, 0 < dt <= h0 -> INR k * dt <= T ->
    Rabs (q (iter_step (rk4 Fs dt) k y0) - q y0) <= C * dt ^ 4.
Proof.
  intros Hs HT. destruct (hw_exists p ny nx dx Hy Hx Hd) as (K0 & _ & Ex). destruct (Ex y0 T HT) as (Y & HY & Y0 & _).
  destruct (rk4_global_hw p ny nx dx Hy Hx Hd Y T HT HY) as (C & h0 & HC & Hh & HG).
  pose proof Hs as (f & Hw & Hq & Hr).
  destruct (form_close p ny nx dx Hy Hx f Y T Hw HT HY C HC) as (K & HK & HF).
  exists K, (Rmin h0 1). split; [exact HK|]. split; [apply Rmin_glb_lt; lra|].
  intros dt k [Hdt Hdm] Hkt. assert (dt <= h0 /\ dt <= 1) as [Hd0 Hd1] by (split; eapply Rle_trans; try exact Hdm; [apply Rmin_l|apply Rmin_r]).
  assert (P4 : 0 <= dt ^ 4 <= 1) by (split; [apply pow_le; lra|rewrite <- (pow1 4); apply pow_incr; lra]).
  assert (Tk : 0 <= INR k * dt <= T) by (split; [apply Rmult_le_pos; [apply pos_INR|lra]|exact Hkt]).
  pose proof (HF (dt ^ 4) _ _ P4 Tk (HG dt k (conj Hdt Hd0) Hkt)) as H. rewrite !Hq in H.
  rewrite (steady_solution q Y T Hs HY _ Tk), Y0 in H. exact H.
Qed.

(** ** the vorticity does not feel the density *)
Definition onlyo (step : state -> state) : Prop := forall y z, agree ny nx (snd y) (snd z) -> agree ny nx (snd (step y)) (snd (step z)).
Lemma F_onlyo : pc1 p = 0 -> onlyo Fs.
Proof.
  intros E y z H i j Hi Hj. cbn [hw_rhs snd]. rewrite !rhs_o_c1 by exact E.
  assert (Hp : agree ny nx (S_ (snd y)) (S_ (snd z))) by (intros a b _ _; now apply invlap_ext).
  rewrite (jac_ext ny nx dx Hy Hx Hd _ _ _ _ Hp H i j). rewrite (hyper_ext p ny nx dx Hy Hx _ _ H i j Hi Hj). reflexivity.
Qed.
Lemma o_comb c y z y' z' : agree ny nx (snd y) (snd y') -> agree ny nx (snd z) (snd z') ->
  agree ny nx (snd (sadd y (sscale c z))) (snd (sadd y' (sscale c z'))).
Proof. intros H H' i j Hi Hj. cbn [sadd sscale snd]. unfold fadd, fscale. now rewrite H, H'. Qed.
Lemma euler_onlyo dt : pc1 p = 0 -> onlyo (euler Fs dt).
Proof. intros E y z H. unfold euler. apply o_comb; [exact H|now apply F_onlyo]. Qed.
Lemma rk4_onlyo dt : pc1 p = 0 -> onlyo (rk4 Fs dt).
Proof.
  intros E y z H. pose proof (F_onlyo E) as G. unfold rk4, rk4_from. cbv zeta.
  assert (A : forall x x', agree ny nx (snd x) (snd x') -> agree ny nx (snd (sscale 2 x)) (snd (sscale 2 x')))
    by (intros x x' Hx' i j Hi Hj; cbn [sscale snd]; unfold fscale; now rewrite Hx').
  assert (A2 : forall x x' w w', agree ny nx (snd x) (snd x') -> agree ny nx (snd w) (snd w') -> agree ny nx (snd (sadd x w)) (snd (sadd x' w')))
    by (intros x x' w w' Hx' Hw i j Hi Hj; cbn [sadd snd]; unfold fadd; now rewrite Hx', Hw).
  repeat first [exact H | apply o_comb | apply A2 | apply A | apply G].
Qed.
Lemma iter_onlyo step k : onlyo step -> onlyo (iter_step step k).
Proof. intros H. induction k as [|k IH]; intros y z Hyz; cbn [iter_step]; [exact Hyz|]. apply IH, H, Hyz. Qed.

(** ** superposition of densities in the same flow *)
Definition mixes (a b : R) (y z w : state) : Prop :=
  agree ny nx (snd y) (snd w) /\ agree ny nx (snd z) (snd w) /\ agree ny nx (fst w) (fadd (fscale a (fst y)) (fscale b (fst z))).
Definition superposes (step : state -> state) : Prop := forall a b y z w, mixes a b y z w -> mixes a b (step y) (step z) (step w).
Lemma F_superposes : pc1 p = 0 -> pkap p = 0 -> superposes Fs.
Proof.
  intros E Ek a b y z w (H1 & H2 & H3). split; [now apply F_onlyo|]. split; [now apply F_onlyo|].
  intros i j Hi Hj. unfold fadd, fscale. cbn [hw_rhs fst snd]. rewrite !rhs_n_c1 by assumption.
  assert (P1 : agree ny nx (S_ (snd y)) (S_ (snd w))) by (intros c d _ _; now apply invlap_ext).
  assert (P2 : agree ny nx (S_ (snd z)) (S_ (snd w))) by (intros c d _ _; now apply invlap_ext).
  rewrite (jac_ext ny nx dx Hy Hx Hd _ _ _ _ P1 (fun i j _ _ => eq_refl (fst y i j)) i j).
  rewrite (jac_ext ny nx dx Hy Hx Hd _ _ _ _ P2 (fun i j _ _ => eq_refl (fst z i j)) i j).
  rewrite (jac_ext ny nx dx Hy Hx Hd _ _ _ _ (fun i j _ _ => eq_refl (S_ (snd w) i j)) H3 i j).
  rewrite (hyper_ext p ny nx dx Hy Hx _ _ H3 i j Hi Hj). rewrite (jac_lin_r ny nx dx Hd), hyper_lin. ring.
Qed.
Lemma mixes_comb a b c y z w y' z' w' : mixes a b y z w -> mixes a b y' z' w' ->
  mixes a b (sadd y (sscale c y')) (sadd z (sscale c z')) (sadd w (sscale c w')).
Proof.
  intros (H1 & H2 & H3) (H1' & H2' & H3'). split; [now apply o_comb|]. split; [now apply o_comb|].
  intros i j Hi Hj. pose proof (H3 i j Hi Hj) as E. pose proof (H3' i j Hi Hj) as E'. unfold fadd, fscale in *. cbn [sadd sscale fst]. unfold fadd, fscale.
  rewrite E, E'. ring.
Qed.
Lemma mixes_scale a b c y z w : mixes a b y z w -> mixes a b (sscale c y) (sscale c z) (sscale c w).
Proof.
  intros (H1 & H2 & H3). split; [|split].
  - intros i j Hi Hj. cbn [sscale snd]. unfold fscale. now rewrite (H1 i j Hi Hj).
  - intros i j Hi Hj. cbn [sscale snd]. unfold fscale. now rewrite (H2 i j Hi Hj).
  - intros i j Hi Hj. pose proof (H3 i j Hi Hj) as E. cbn [sscale fst]. unfold fadd, fscale in *. rewrite E. ring.
Qed.
Lemma mixes_add a b y z w y' z' w' : mixes a b y z w -> mixes a b y' z' w' -> mixes a b (sadd y y') (sadd z z') (sadd w w').
Proof.
  intros (H1 & H2 & H3) (H1' & H2' & H3'). split; [|split].
  - intros i j Hi Hj. cbn [sadd snd]. unfold fadd. now rewrite (H1 i j Hi Hj), (H1' i j Hi Hj).
  - intros i j Hi Hj. cbn [sadd snd]. unfold fadd. now rewrite (H2 i j Hi Hj), (H2' i j Hi Hj).
  - intros i j Hi Hj. pose proof (H3 i j Hi Hj) as E. pose proof (H3' i j Hi Hj) as E'. cbn [sadd fst]. unfold fadd, fscale in *. rewrite E, E'. ring.
Qed.
Lemma euler_superposes dt : pc1 p = 0 -> pkap p = 0 -> superposes (euler Fs dt).
Proof. intros E Ek a b y z w H. unfold euler. apply mixes_comb; [exact H|now apply F_superposes]. Qed.
Lemma rk4_superposes dt : pc1 p = 0 -> pkap p = 0 -> superposes (rk4 Fs dt).
Proof.
  intros E Ek a b y z w H. pose proof (F_superposes E Ek a b) as G. unfold rk4, rk4_from. cbv zeta.
  repeat first [exact H | apply mixes_comb | apply mixes_add | apply mixes_scale | apply G].
Qed.
Lemma iter_superposes step k : superposes step -> superposes (iter_step step k).
Proof. intros H. induction k as [|k IH]; intros a b y z w Hm; cbn [iter_step]; [exact Hm|]. apply IH, H, Hm. Qed.

(** ** density equal to c * vorticity + d stays so *)
Definition locked (c d : R) (y : state) : Prop := agree ny nx (fst y) (fun i j => c * snd y i j + d).
Lemma F_locked c d y : pc1 p = 0 -> pkap p = 0 -> (1 <= pN p)%nat -> locked c d y -> locked c 0 (Fs y).
Proof.
  intros E Ek HN H i j Hi Hj. cbn [hw_rhs fst snd]. rewrite rhs_n_c1, rhs_o_c1 by assumption.
  assert (H' : agree ny nx (fst y) (fadd (fscale c (snd y)) (fscale d (fconst 1)))).
  { intros a b Ha Hb. rewrite (H a b Ha Hb). unfold fadd, fscale, fconst. ring. }
  rewrite (jac_ext ny nx dx Hy Hx Hd _ _ _ _ (fun i j _ _ => eq_refl (S_ (snd y) i j)) H' i j).
  rewrite (hyper_ext p ny nx dx Hy Hx _ _ H' i j Hi Hj). rewrite (jac_lin_r ny nx dx Hd), hyper_lin.
  assert (J1 : J (S_ (snd y)) (fconst 1) i j = 0) by (unfold jacobian, jac_pp, jac_px, jac_xp, fconst; field; exact Hd).
  assert (D1 : hyper p ny nx dx (fconst 1) i j = 0).
  { unfold hyper. rewrite (lap_iter_const (pN p) ny nx dx) by (auto; intros ? ? ? ? _ _ _ _; reflexivity). ring. }
  rewrite J1, D1. ring.
Qed.
Lemma locked_comb c d h y z : locked c d y -> locked c 0 z -> locked c d (sadd y (sscale h z)).
Proof.
  intros H H' i j Hi Hj. cbn [sadd sscale fst snd]. unfold fadd, fscale. rewrite (H i j Hi Hj), (H' i j Hi Hj). ring.
Qed.
Lemma euler_locked c d dt y : pc1 p = 0 -> pkap p = 0 -> (1 <= pN p)%nat -> locked c d y -> locked c d (euler Fs dt y).
Proof. intros E Ek HN H. unfold euler. apply locked_comb; [exact H|eapply F_locked; eassumption]. Qed.
Lemma locked_zero_add c y z : locked c 0 y -> locked c 0 z -> locked c 0 (sadd y z).
Proof. intros H H' i j Hi Hj. cbn [sadd fst snd]. unfold fadd. rewrite (H i j Hi Hj), (H' i j Hi Hj). ring. Qed.
Lemma locked_zero_scale c h y : locked c 0 y -> locked c 0 (sscale h y).
Proof. intros H i j Hi Hj. cbn [sscale fst snd]. unfold fscale. rewrite (H i j Hi Hj). ring. Qed.
Lemma rk4_locked c d dt y : pc1 p = 0 -> pkap p = 0 -> (1 <= pN p)%nat -> locked c d y -> locked c d (rk4 Fs dt y).
Proof.
  intros E Ek HN H. assert (G : forall z, locked c d z -> locked c 0 (Fs z)) by (intros z Hz; now apply (F_locked c d)).
  unfold rk4, rk4_from. cbv zeta.
  repeat first [exact H | apply locked_comb | apply locked_zero_add | apply locked_zero_scale | apply G].
Qed.
Lemma iter_locked c d step k y : (forall z, locked c d z -> locked c d (step z)) -> locked c d y -> locked c d (iter_step step k y).
Proof. intros H. revert y. induction k as [|k IH]; intros y Hl; cbn [iter_step]; [exact Hl|]. apply IH, H, Hl. Qed.
End I.
