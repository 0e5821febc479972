(** The energy grows at most at the rate of the background gradient (C148). *)
From Coq Require Import List Arith ZArith Lia Bool Reals Lra Psatz String FunctionalExtensionality Permutation.
From Verif Require Import Num NdArray NdFacts Spec GradFacts SumFacts LapFacts
  Cplx DftFacts SpecFourier PoissonFacts PoissonProps ModelHW ModelBackend
  SpecHW SpecPlasma HWFacts StepFacts RhsFacts SymFacts BalanceProps BalanceWit OdeFacts OdeExist RkOrder
  SmoothFacts PdeConv PdeStab HwExist HwConv DiagProps SpecConv SpecAccount AccountOde HWProps StepProps
  SpecWave WaveHW WaveStab WaveDiff SpecIdeal IdealFacts IdealProps TripDiag DecayFacts.
Import ListNotations.
Local Open Scope R_scope.

Section I.
Variables (p : par) (ny nx : nat) (dx : R).
Hypothesis Hy : (0 < ny)%nat.
Hypothesis Hx : (0 < nx)%nat.
Hypothesis Hd : 0 < dx.
Let Hd0 : dx <> 0 := Rgt_not_eq _ _ Hd.
Local Notation S_ := (invlap ny nx dx).
Local Notation mn := (gmean ny nx).
Local Notation Fs := (hw_rhs p ny nx dx).
Local Notation fev := (fev ny nx).
Local Notation wf := (wf ny nx).
Local Notation D := (hyper p ny nx dx).
Local Notation gE := (gE ny nx dx).
Local Notation E_ := (energy ny nx dx).

(** the flux is at most the energy *)
Lemma flux_le y s : Rabs s <= 1 -> s * mn (fun i j => fst y i j * cdy ny dx (S_ (snd y)) i j) <= E_ y.
Proof.
  intros Hs. destruct (kinetic_gap ny nx dx Hy Hx Hd (snd y)) as [G _]. rewrite mn_add in G.
  pose proof (mean_pos ny nx Hy Hx (cdx nx dx (S_ (snd y)))) as Px.
  set (d := cdy ny dx (S_ (snd y))) in *.
  pose proof (mean_pos ny nx Hy Hx (fun i j => fst y i j - s * d i j)) as P. cbv beta in P.
  rewrite (mn_ext ny nx (fun i j => (fst y i j - s * d i j) ^ 2)
    (fun i j => fst y i j ^ 2 + (s ^ 2 * d i j ^ 2 - 2 * s * (fst y i j * d i j)))) in P by (intros; ring).
  rewrite mn_add, mn_sub, !mn_scal in P.
  pose proof (mean_pos ny nx Hy Hx d) as Pd. assert (S2 : s ^ 2 <= 1) by (pose proof (Rle_abs s); pose proof (Rle_abs (- s)) as Q; rewrite Rabs_Ropp in Q; nra).
  unfold energy, spec_energy.
  set (a := mn (fun i j => fst y i j ^ 2)) in *. set (b := mn (fun i j => d i j ^ 2)) in *.
  set (c := mn (fun i j => fst y i j * d i j)) in *. set (k := mn (fun i j => S_ (snd y) i j * snd y i j)) in *.
  set (e := mn (fun i j => cdx nx dx (S_ (snd y)) i j ^ 2)) in *. clearbody a b c k e. nra.
Qed.
Lemma flux_rate y : - pkap p * mn (fun i j => fst y i j * cdy ny dx (S_ (snd y)) i j) <= Rabs (pkap p) * E_ y.
Proof.
  unfold Rabs. destruct (Rcase_abs (pkap p)) as [H|H].
  - pose proof (flux_le y 1 ltac:(rewrite Rabs_R1; lra)) as F. nra.
  - pose proof (flux_le y (-1) ltac:(rewrite Rabs_left; lra)) as F. nra.
Qed.
Lemma growth_E y : 0 <= pc1 p -> 0 <= pnu p -> fev gE (Fs y) y + fev gE y (Fs y) <= Rabs (pkap p) * E_ y.
Proof.
  intros Hc Hn. rewrite rateE, (E_rate_eq p ny nx dx Hy Hx Hd0) by assumption.
  pose proof (coupling_sink p ny nx Hy Hx (S_ (snd y)) (fst y)). pose proof (visc_rate p ny nx dx Hy Hx Hd0 (fst y) Hn).
  pose proof (visc_phi p ny nx dx Hy Hx Hd0 (snd y) Hn). pose proof (flux_rate y). nra.
Qed.
Lemma growth_U y : 0 <= pnu p -> fev gU (Fs y) y + fev gU y (Fs y) <= Rabs (pkap p) * E_ y.
Proof.
  intros Hn. rewrite (rateU p ny nx dx). pose proof (U_rate_eq p ny nx dx Hy Hx Hd0 (fst y) (snd y)) as E. cbv zeta in E. rewrite E.
  pose proof (visc_diff p ny nx dx Hy Hx Hd0 (fst y) (snd y) Hn). pose proof (flux_rate y). lra.
Qed.
Lemma sol_E Y T : 0 <= pc1 p -> 0 <= pnu p -> hw_solution p ny nx dx Y T -> forall t, 0 <= t <= T ->
  E_ (Y t) <= E_ (Y 0) * exp (Rabs (pkap p) * t).
Proof.
  intros Hc Hn HY t Ht.
  pose proof (gronwall (fun s => E_ (Y s)) (fun s => fev gE (Fs (Y s)) (Y s) + fev gE (Y s) (Fs (Y s))) (Rabs (pkap p)) 0 T
    (Rabs_pos _) (Rle_refl 0)) as G.
  rewrite <- (Rplus_0_r (E_ (Y 0))). replace (E_ (Y 0) + 0) with (E_ (Y 0) + 0 * t) by ring. apply G; [| |exact Ht].
  - intros c Hc'. apply (dpl_ext (fun s => fev gE (Y s) (Y s))); [intros; apply gE_eq|].
    apply fev_der; [exact (wf_gE ny nx dx Hy Hx Hd0)|now apply (sol_sder p ny nx dx Y T c HY)].
  - intros c Hc'. pose proof (growth_E (Y c) Hc Hn). lra.
Qed.
Lemma sol_U Y T : 0 <= pc1 p -> 0 <= pnu p -> hw_solution p ny nx dx Y T -> forall t, 0 <= t <= T ->
  enstrophy ny nx (Y t) <= enstrophy ny nx (Y 0) + E_ (Y 0) * (exp (Rabs (pkap p) * t) - 1).
Proof.
  intros Hc Hn HY t Ht. set (K := Rabs (pkap p)). assert (HK : 0 <= K) by apply Rabs_pos.
  pose (q := fun s => enstrophy ny nx (Y s) - E_ (Y 0) * exp (K * s)).
  pose (q' := fun s => fev gU (Fs (Y s)) (Y s) + fev gU (Y s) (Fs (Y s)) - E_ (Y 0) * (K * exp (K * s))).
  assert (Q : q t <= q 0).
  { destruct (Req_dec 0 t) as [<-|Hne]; [lra|].
    destruct (MVT_cor2 q q' 0 t) as (c & Ec & Hcc); [lra| |].
    - intros c Hcc. unfold q, q'. apply dpl_minus.
      + apply (dpl_ext (fun s => fev gU (Y s) (Y s))); [intros; apply gU_eq|].
        apply fev_der; [exact (wf_gU ny nx)|apply (sol_sder p ny nx dx Y T c HY); lra].
      + apply (derivable_pt_lim_scal (fun s => exp (K * s))).
        replace (K * exp (K * c)) with (exp (K * c) * (K * 1)) by ring.
        apply (derivable_pt_lim_comp (fun s => K * s) exp); [apply derivable_pt_lim_scal, derivable_pt_lim_id|apply derivable_pt_lim_exp].
    - assert (q' c <= 0); [|nra]. unfold q'. pose proof (growth_U (Y c) Hn) as G. fold K in G.
      pose proof (sol_E Y T Hc Hn HY c ltac:(lra)) as S. fold K in S. nra. }
  unfold q in Q. rewrite Rmult_0_r, exp_0 in Q. lra.
Qed.
(** rk4 steps of a quadratic form bounded along exact solutions *)
Lemma bounded_rk4 f q y0 T (B : R -> R) : wf f -> (forall y, fev f y y = q y) -> 0 <= T ->
  (forall Y, hw_solution p ny nx dx Y T -> Y 0 = y0 -> forall t, 0 <= t <= T -> q (Y t) <= B t) ->
  exists C h0, 0 <= C /\ 0 < h0 /\ forall dt k, 0 < dt <= h0 -> INR k * dt <= T ->
    q (iter_step (rk4 Fs dt) k y0) <= B (INR k * dt) + C * dt ^ 4.
Proof.
  intros Hw Hq HT HB. destruct (hw_exists p ny nx dx Hy Hx Hd0) as (K0 & _ & Ex). destruct (Ex y0 T HT) as (Y & HY & Y0 & _).
  destruct (rk4_global_hw p ny nx dx Hy Hx Hd0 Y T HT HY) as (C & h0 & HC & Hh & HG).
  destruct (form_close p ny nx dx Hy Hx f Y T Hw HT HY C HC) as (K & HK & HF).
  exists K, (Rmin h0 1). split; [exact HK|]. split; [apply Rmin_glb_lt; lra|].
  intros dt k [Hdt Hdm] Hkt. assert (dt <= h0 /\ dt <= 1) as [Hd1 Hd2] by (split; eapply Rle_trans; try exact Hdm; [apply Rmin_l|apply Rmin_r]).
  assert (P4 : 0 <= dt ^ 4 <= 1) by (split; [apply pow_le; lra|rewrite <- (pow1 4); apply pow_incr; lra]).
  assert (Tk : 0 <= INR k * dt <= T) by (split; [apply Rmult_le_pos; [apply pos_INR|lra]|exact Hkt]).
  pose proof (HF (dt ^ 4) _ _ P4 Tk (HG dt k (conj Hdt Hd1) Hkt)) as H. rewrite !Hq in H.
  pose proof (HB Y HY Y0 _ Tk) as V.
  rewrite Y0 in *. pose proof (Rle_abs (q (iter_step (rk4 Fs dt) k y0) - q (Y (INR k * dt)))). lra.
Qed.
End I.

(** ** with a negative coupling there is no such bound: no gradient at all *)
Definition pneg : par := pW (-1) 0 0 0 false.
Definition nneg : field := fun i j => phg i j + 1.
Lemma neg_E : 0 < E_rate pneg 4 4 1 phg nneg (cw 1 0).
Proof.
  rewrite E_rate_eq by (first [lia|lra]).
  rewrite (coupling_nonzonal pneg 4 4) by reflexivity. cbn [pneg pW pc1 pkap].
  rewrite (mn_0 4 4 (fun i j => nneg i j * hyper pneg 4 4 1 nneg i j)) by (intros; rewrite hyper_nu0 by reflexivity; ring).
  rewrite (mn_0 4 4 (fun i j => phg i j * hyper pneg 4 4 1 (cw 1 0) i j)) by (intros; rewrite hyper_nu0 by reflexivity; ring).
  rewrite (mn_ext 4 4 (fun i j => (nneg i j - phg i j) ^ 2) (fun i j => 1)) by (intros; unfold nneg; ring).
  unfold gmean at 1, gsum. cbn [rsum INR]. lra.
Qed.
