(** Homogenisation of n - o without a gradient (C151). *)
From Coq Require Import List Arith ZArith Lia Bool Reals Lra Psatz String FunctionalExtensionality Permutation.
From Verif Require Import Num NdArray NdFacts Spec GradFacts SumFacts LapFacts
  Cplx DftFacts SpecFourier PoissonFacts PoissonProps ModelHW ModelBackend
  SpecHW SpecPlasma HWFacts StepFacts RhsFacts SymFacts BalanceProps BalanceWit OdeFacts OdeExist RkOrder
  SmoothFacts PdeConv PdeStab HwExist HwConv DiagProps SpecConv SpecAccount AccountOde HWProps StepProps
  SpecWave WaveHW WaveStab WaveDiff SpecIdeal IdealFacts IdealProps TripDiag SpecMean MeanFacts DecayFacts GrowthFacts SpecFade FadeFacts SpecMix.
Import ListNotations.
Local Open Scope R_scope.

Section I.
Variables (p : par) (ny nx : nat) (dx : R).
Hypothesis Hy : (0 < ny)%nat.
Hypothesis Hx : (0 < nx)%nat.
Hypothesis Hd : 0 < dx.
Hypothesis HN : (1 <= pN p)%nat.
Hypothesis Hn : 0 <= pnu p.
Hypothesis Hk : pkap p = 0.
Let Hd0 : dx <> 0 := Rgt_not_eq _ _ Hd.
Local Notation S_ := (invlap ny nx dx).
Local Notation mn := (gmean ny nx).
Local Notation Fs := (hw_rhs p ny nx dx).
Local Notation fev := (fev ny nx).
Local Notation wf := (wf ny nx).
Local Notation D := (hyper p ny nx dx).
Local Notation g := (pnu p * slowest ny nx dx ^ pN p).
Local Notation V_ := (spread ny nx).
Local Notation cen := (centered ny nx).

Definition Lpv (y : state) : field := cen (pv y).
Lemma lin_pv : lin ny nx Lpv.
Proof.
  constructor.
  - intros a b y z i j. unfold Lpv, centered.
    assert (E : mn (pv (sadd (sscale a y) (sscale b z))) = a * mn (pv y) + b * mn (pv z)).
    { rewrite (mn_ext ny nx _ (fun i j => a * pv y i j + b * pv z i j)) by (intros; unfold pv; cbn [sadd sscale fst snd]; unfold fadd, fscale; ring).
      now rewrite mn_add, !mn_scal. }
    rewrite E. generalize (mn (pv y)) (mn (pv z)). intros u v. unfold pv. cbn [sadd sscale fst snd]. unfold fadd, fscale. ring.
  - intros y z [H1 H2] i j Hi Hj. unfold Lpv, centered. assert (E : agree ny nx (pv y) (pv z)) by (intros a b Ha Hb; unfold pv; now rewrite H1, H2).
    rewrite (E i j Hi Hj). f_equal. apply mn_ext. exact E.
Qed.
Definition gV : form := [(1, Lpv, Lpv)].
Lemma wf_gV : wf gV. Proof. apply wf_cons; [exact lin_pv|exact lin_pv|apply wf_nil]. Qed.
Lemma gV_eq y : fev gV y y = V_ y.
Proof.
  cbn [AccountOde.fev gV]. unfold spread, Lpv, centered.
  rewrite (mn_ext ny nx (fun i j => (pv y i j - mn (pv y)) ^ 2) (fun i j => (pv y i j - mn (pv y)) * (pv y i j - mn (pv y)))) by (intros; ring). ring.
Qed.
Lemma pv_D y i j : (i < ny)%nat -> (j < nx)%nat -> D (pv y) i j = D (fst y) i j - D (snd y) i j.
Proof.
  intros Hi Hj. replace (pv y) with (fadd (fscale 1 (fst y)) (fscale (-1) (snd y))).
  - rewrite (hyper_lin p ny nx dx). ring.
  - extensionality a. extensionality b. unfold fadd, fscale, pv. ring.
Qed.
Lemma mix_rate y : fev gV (Fs y) y + fev gV y (Fs y) <= - (2 * g) * V_ y.
Proof.
  cbn [AccountOde.fev gV]. set (F := Fs y).
  assert (M : mn (pv F) = 0).
  { transitivity (mn (fst F) - mn (snd F)); [unfold pv; apply mn_sub|]. exact (drift0 p ny nx dx Hy Hx Hd0 y HN). }
  assert (E : mn (fun i j => Lpv y i j * Lpv F i j) = U_rate p ny nx dx (S_ (snd y)) (fst y) (snd y)).
  { unfold Lpv, centered. rewrite M. rewrite (mn_ext ny nx _ (fun i j => pv y i j * pv F i j - mn (pv y) * pv F i j)) by (intros; ring).
    rewrite mn_sub, mn_scal, M. rewrite Rmult_0_r, Rminus_0_r. reflexivity. }
  rewrite (mn_ext ny nx (fun i j => Lpv F i j * Lpv y i j) (fun i j => Lpv y i j * Lpv F i j)) by (intros; ring). rewrite E.
  pose proof (U_rate_eq p ny nx dx Hy Hx Hd0 (fst y) (snd y)) as U. cbv zeta in U. rewrite U, Hk.
  pose proof (fade_c p ny nx dx Hy Hx Hd Hn (cen (pv y)) (gsum_centered ny nx (pv y) Hy Hx)) as G.
  rewrite (mn_ext ny nx (fun i j => cen (pv y) i j * D (cen (pv y)) i j)
    (fun i j => (fst y i j - snd y i j) * (D (fst y) i j - D (snd y) i j) - mn (pv y) * D (pv y) i j)) in G.
  - rewrite mn_sub, mn_scal, (mn_D p ny nx dx Hy Hx HN) in G. unfold spread. unfold centered in G. lra.
  - intros i j Hi Hj. rewrite (D_cen p ny nx dx Hy Hx HN) by assumption. rewrite (pv_D y i j Hi Hj). unfold centered, pv at 1. ring.
Qed.
Lemma sol_V Y T : hw_solution p ny nx dx Y T -> forall t, 0 <= t <= T -> V_ (Y t) <= V_ (Y 0) * exp (- (2 * g) * t).
Proof.
  intros HY t Ht. set (K := - (2 * g)).
  pose (q := fun s => V_ (Y s) * exp (- K * s)).
  pose (r := fun s => fev gV (Fs (Y s)) (Y s) + fev gV (Y s) (Fs (Y s))).
  pose (q' := fun s => r s * exp (- K * s) + V_ (Y s) * (exp (- K * s) * (- K * 1))).
  assert (A : q t <= q 0).
  { destruct (Req_dec 0 t) as [<-|Hne]; [lra|].
    destruct (MVT_cor2 q q' 0 t) as (c & Ec & Hcc); [lra| |].
    - intros c Hcc. unfold q, q'. apply (derivable_pt_lim_mult (fun s => V_ (Y s)) (fun s => exp (- K * s))).
      + apply (dpl_ext (fun s => fev gV (Y s) (Y s))); [intros; apply gV_eq|].
        apply fev_der; [exact wf_gV|apply (sol_sder p ny nx dx Y T c HY); lra].
      + apply (derivable_pt_lim_comp (fun s => - K * s) exp); [apply derivable_pt_lim_scal, derivable_pt_lim_id|apply derivable_pt_lim_exp].
    - assert (q' c <= 0); [|nra]. unfold q'. pose proof (mix_rate (Y c)) as G. fold K (r c) in G.
      pose proof (exp_pos (- K * c)). replace (r c * exp (- K * c) + V_ (Y c) * (exp (- K * c) * (- K * 1))) with ((r c - K * V_ (Y c)) * exp (- K * c)) by ring. nra. }
  unfold q in A. rewrite Rmult_0_r, exp_0, Rmult_1_r in A.
  assert (X : exp (- K * t) * exp (K * t) = 1) by (rewrite <- exp_plus; replace (- K * t + K * t) with 0 by ring; apply exp_0).
  pose proof (exp_pos (K * t)).
  replace (V_ (Y t)) with (V_ (Y t) * exp (- K * t) * exp (K * t)) by (rewrite Rmult_assoc, X; ring).
  apply Rmult_le_compat_r; lra.
Qed.
End I.

(** with a gradient the spread can grow *)
Lemma grow_V : 0 < AccountOde.fev 4 4 (gV 4 4) (hw_rhs pgr 4 4 1 (ngr, cw 1 0)) (ngr, cw 1 0) +
  AccountOde.fev 4 4 (gV 4 4) (ngr, cw 1 0) (hw_rhs pgr 4 4 1 (ngr, cw 1 0)).
Proof.
  cbn [AccountOde.fev gV]. set (y := (ngr, cw 1 0)). set (F := hw_rhs pgr 4 4 1 y).
  assert (M : gmean 4 4 (pv F) = 0).
  { transitivity (gmean 4 4 (fst F) - gmean 4 4 (snd F)); [unfold pv; apply mn_sub|].
    exact (drift0 pgr 4 4 1 ltac:(lia) ltac:(lia) R1_neq_R0 y ltac:(cbn; lia)). }
  rewrite (mn_ext 4 4 (fun i j => Lpv 4 4 F i j * Lpv 4 4 y i j) (fun i j => Lpv 4 4 y i j * Lpv 4 4 F i j)) by (intros; ring).
  assert (E : gmean 4 4 (fun i j => Lpv 4 4 y i j * Lpv 4 4 F i j) = U_rate pgr 4 4 1 phg ngr (cw 1 0)).
  { unfold Lpv, centered. rewrite M. rewrite (mn_ext 4 4 _ (fun i j => pv y i j * pv F i j - gmean 4 4 (pv y) * pv F i j)) by (intros; ring).
    rewrite mn_sub, mn_scal, M. rewrite Rmult_0_r, Rminus_0_r. reflexivity. }
  rewrite E. pose proof grow_U. lra.
Qed.
