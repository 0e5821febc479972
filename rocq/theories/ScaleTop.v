(** Changes of units and small amplitudes, at the level of the code. *)
From Coq Require Import List Arith ZArith Lia Bool Reals Lra Psatz String.
From Verif Require Import Num NdArray NdFacts Spec SumFacts Cplx SpecFourier ModelHW ModelBackend
  SpecHW SpecPlasma HWFacts StepFacts RhsFacts HWProps SymFacts SpecZonal ZonalFacts SpecScale ScaleFacts.
Import ListNotations.
Local Open Scope R_scope.

Section T.
Variables (ny nx : nat) (dx : R).
Hypothesis Hy : (0 < ny)%nat.
Hypothesis Hx : (0 < nx)%nat.
Hypothesis Hd : dx <> 0.
Local Notation ag := (agree ny nx).
Local Notation sag := (sagree ny nx).
Variables (b : backend R) (dx0 : R) (test : bool).
Hypothesis Hb : backend_ok ny nx b.

Lemma c136_units step a tau p q pl pl2 n o phi t t2 dt m : step = rk4_step \/ step = euler_step -> rescaled a tau p q ->
  plasma_ok test ny nx pl n o phi t -> ag phi (invlap ny nx dx o) -> plasma_ok test ny nx pl2 (fscale a n) (fscale a o) (fscale a phi) t2 ->
  exists pl' pl2' n' o' phi',
    snd (steps (fun pl => step (hw_of b p dx0 test) pl (tau * dt) dx) m pl) = Ok pl' /\ plasma_ok test ny nx pl' n' o' phi' (t + INR m * (tau * dt)) /\
    snd (steps (fun pl => step (hw_of b q dx0 test) pl dt dx) m pl2) = Ok pl2' /\
    plasma_ok test ny nx pl2' (fscale a n') (fscale a o') (fscale a phi') (t2 + INR m * dt).
Proof.
  intros Hs R0 P A P2. destruct (code_e step Hs) as [e ->].
  assert (A2 : ag (fscale a phi) (invlap ny nx dx (fscale a o))).
  { intros i j Hi Hj. rewrite sc_invlap by assumption. unfold fscale. now rewrite A. }
  destruct (traj ny nx dx Hy Hx Hd b dx0 test Hb e p pl n o phi t (tau * dt) m P A) as (pl' & phi' & S1 & Q1 & B1).
  destruct (traj ny nx dx Hy Hx Hd b dx0 test Hb e q pl2 (fscale a n) (fscale a o) (fscale a phi) t2 dt m P2 A2) as (pl2' & phi2 & S2 & Q2 & B2).
  assert (E0 : rel ny nx a (n, o) (fscale a n, fscale a o)) by (split; intros ? ? _ _; reflexivity).
  destruct (sc_steps ny nx dx Hy Hx Hd e a tau p q dt m R0 _ _ E0) as [En Eo].
  set (y := iter_step (spec_of e (hw_rhs p ny nx dx) (tau * dt)) m (n, o)) in *.
  set (z := iter_step (spec_of e (hw_rhs q ny nx dx) dt) m (fscale a n, fscale a o)) in *.
  exists pl', pl2', (fst y), (snd y), phi'. split; [exact S1|]. split; [exact Q1|]. split; [exact S2|].
  apply (plasma_ok_ext test ny nx _ _ _ _ _ _ _ _ Q2 En Eo).
  intros i j Hi Hj. rewrite (B2 i j Hi Hj), (invlap_ext ny nx dx _ _ i j Eo). cbn [sscale snd]. rewrite sc_invlap by assumption. unfold fscale. now rewrite B1.
Qed.
Lemma c136_small step p n o dt m : step = rk4_step \/ step = euler_step ->
  exists K, 0 <= K /\ forall a pl pl0 phi t t0, Rabs a <= 1 -> 
    plasma_ok test ny nx pl (fscale a n) (fscale a o) (fscale a phi) t -> plasma_ok test ny nx pl0 n o phi t0 -> ag phi (invlap ny nx dx o) ->
    exists pl' pl0' n' o' phi' n0 o0 phi0,
      snd (steps (fun pl => step (hw_of b p dx0 test) pl dt dx) m pl) = Ok pl' /\ plasma_ok test ny nx pl' n' o' phi' (t + INR m * dt) /\
      snd (steps (fun pl => step (hw_of b (linear_part p) dx0 test) pl dt dx) m pl0) = Ok pl0' /\ plasma_ok test ny nx pl0' n0 o0 phi0 (t0 + INR m * dt) /\
      forall i j, (i < ny)%nat -> (j < nx)%nat -> Rabs (n' i j - a * n0 i j) <= K * a ^ 2 /\ Rabs (o' i j - a * o0 i j) <= K * a ^ 2.
Proof.
  intros Hs. destruct (code_e step Hs) as [e ->].
  assert (G : gs ny nx (fun _ => (n, o))) by (split; intros i j _ _; apply gp_const).
  destruct (gs_steps ny nx dx Hy Hx Hd p e dt m _ G) as [Gn Go]. cbv beta in Gn, Go.
  destruct (gf_uniform ny nx dx Hy Hx _ Gn) as (K & HK & An). destruct (gf_uniform ny nx dx Hy Hx _ Go) as (L & HL & Ao). cbv beta in An, Ao.
  exists (Rmax K L). split; [apply Rle_trans with K; [exact HK|apply Rmax_l]|]. intros a pl pl0 phi t t0 Ha P P0 A.
  assert (A2 : ag (fscale a phi) (invlap ny nx dx (fscale a o))).
  { intros i j Hi Hj. rewrite sc_invlap by assumption. unfold fscale. now rewrite A. }
  destruct (traj ny nx dx Hy Hx Hd b dx0 test Hb e p pl (fscale a n) (fscale a o) (fscale a phi) t dt m P A2) as (pl' & phi' & S1 & Q1 & B1).
  destruct (traj ny nx dx Hy Hx Hd b dx0 test Hb e (linear_part p) pl0 n o phi t0 dt m P0 A) as (pl0' & phi0 & S2 & Q2 & B2).
  assert (R0 : rescaled a 1 (pa p a) p) by (unfold rescaled; cbn [pa pN pzon pc1 pnu pkap ppb]; repeat split; ring).
  assert (E0 : rel ny nx a (n, o) (fscale a n, fscale a o)) by (split; intros ? ? _ _; reflexivity).
  destruct (sc_steps ny nx dx Hy Hx Hd e a 1 (pa p a) p dt m R0 _ _ E0) as [En Eo]. rewrite Rmult_1_l in En, Eo.
  assert (EL : linear_part p = pa p 0) by (unfold linear_part, pa; f_equal; ring).
  eexists pl', pl0', _, _, phi', _, _, phi0. split; [exact S1|]. split; [exact Q1|]. split; [exact S2|]. split; [exact Q2|].
  intros i j Hi Hj. rewrite EL, (En i j Hi Hj), (Eo i j Hi Hj). cbn [sscale fst snd]. unfold fscale.
  pose proof (An a i j Ha Hi Hj) as D1. pose proof (Ao a i j Ha Hi Hj) as D2. pose proof (Rabs_pos a) as Pa.
  replace (a ^ 2) with (Rabs a * Rabs a) by (rewrite <- (pow2_abs a); ring).
  rewrite <- !Rmult_minus_distr_l, !Rabs_mult.
  split.
  - replace (Rmax K L * (Rabs a * Rabs a)) with (Rabs a * (Rmax K L * Rabs a)) by ring. apply Rmult_le_compat_l; [exact Pa|]. eapply Rle_trans; [exact D1|].
    apply Rmult_le_compat_r; [exact Pa|apply Rmax_l].
  - replace (Rmax K L * (Rabs a * Rabs a)) with (Rabs a * (Rmax K L * Rabs a)) by ring. apply Rmult_le_compat_l; [exact Pa|]. eapply Rle_trans; [exact D2|].
    apply Rmult_le_compat_r; [exact Pa|apply Rmax_r].
Qed.
End T.
