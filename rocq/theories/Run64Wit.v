(** The concrete case of C120. *)
From Coq Require Import List Arith ZArith Reals Lra Lia SpecFloat Bool String.
From Verif Require Import Num NdArray ModelHW ModelBackend ModelSchemes ModelIO ModelRun ModelRun64 Spec SpecHW SpecRound SpecRoundStep SpecRun SpecRun64
  RoundFacts RoundHW RoundCons RoundReal RoundEval RoundProps.
Import List ListNotations.
Local Open Scope R_scope.
Local Existing Instance TimeF64.
Local Existing Instance NumF64.

(** ** concrete case: one cell, two steps of 1/32; rows for the start and both
    steps, in a file that did not exist before *)
Definition cfg64 : cfg (arr f64) f64 :=
  mkCfg dt64 (nmul (f64_ofZ 2) dt64) (physics_params64 one64 1 one64 z64 one64 one64 one64) one64 one64 1 1 1 1 true z64 false 1 1 None false false false [].
Lemma case_call : call64 one64 1 one64 z64 one64 one64 one64 dt64 cfg64 None 2.
Proof.
  constructor; [reflexivity|reflexivity|now left|cbn; lia|cbn; lia|reflexivity|reflexivity|reflexivity|reflexivity|reflexivity|]. exists 2%Z. split; [vm_compute; reflexivity|]. split; [reflexivity|lia].
Qed.
Lemma snd_rhs11 n o i j : snd (hw_rhs (par64 1 one64 z64 one64 one64 false) 1 1 1 (n, o)) i j = - n i j.
Proof.
  destruct one_scale as (_ & A2 & _). destruct z64_ok as [_ Z2].
  unfold hw_rhs, rhs_o, hyper, coupling, par64. cbn [fst snd pN pc1 pnu ppb pkap pzon]. rewrite A2, Z2.
  replace (jacobian 1 1 1 (invlap 1 1 1 o) o i j) with 0.
  2:{ unfold jacobian, jac_pp, jac_px, jac_xp. rewrite !invlap11. field. }
  rewrite invlap11. ring.
Qed.
Lemma snd_rk4_11 n o i j : snd (rk4 (hw_rhs (par64 1 one64 z64 one64 one64 false) 1 1 1) (/ 32) (n, o)) i j = o i j - 774271 / 25165824 * n i j.
Proof.
  unfold rk4, rk4_from, sadd, sscale, fadd, fscale. cbn [fst snd]. rewrite !snd_rhs11, !rhs11. field.
Qed.
Lemma case_stays : stays 1 1 2 (rk4 (hw_rhs (par64 1 one64 z64 one64 one64 false) 1 1 1) (/ 32)) 2 (values cn, values co).
Proof.
  destruct one_scale as (A1 & A2 & _). destruct two_ok as [B1 B2].
  assert (V : forall i j, values cn i j = 1 /\ values co i j = 2) by (intros; split; [exact A2|exact B2]).
  assert (St : forall y, (forall i j, 0 <= fst y i j <= 1 /\ fst y i j <= snd y i j <= 2) ->
    forall i j, 0 <= fst (rk4 (hw_rhs (par64 1 one64 z64 one64 one64 false) 1 1 1) (/ 32) y) i j <= 1 /\
      fst (rk4 (hw_rhs (par64 1 one64 z64 one64 one64 false) 1 1 1) (/ 32) y) i j <= snd (rk4 (hw_rhs (par64 1 one64 z64 one64 one64 false) 1 1 1) (/ 32) y) i j <= 2).
  { intros [n o] H i j. rewrite rk4_11, snd_rk4_11. specialize (H i j). cbn [fst snd] in H. lra. }
  assert (It : forall k i j, let y := iter_step (rk4 (hw_rhs (par64 1 one64 z64 one64 one64 false) 1 1 1) (/ 32)) k (values cn, values co) in
    0 <= fst y i j <= 1 /\ fst y i j <= snd y i j <= 2).
  { intros k. assert (V2 : forall i j, 0 <= fst (values cn, values co) i j <= 1 /\ fst (values cn, values co) i j <= snd (values cn, values co) i j <= 2).
    { intros i j. destruct (V i j) as [-> ->] || (cbn [fst snd]; destruct (V i j) as [E1 E2]; rewrite E1, E2). lra. }
    revert V2. generalize (values cn, values co). induction k as [|k IH]; intros y Hy; cbn [iter_step]; [exact Hy|].
    first [exact (IH _ (St y Hy)) | exact (St _ (IH y Hy))]. }
  intros k Hk. split; intros i j _ _; specialize (It k i j); cbv zeta in It; rewrite Rabs_right; lra.
Qed.

Lemma case_close : close64 1 1 0 cn co (values cn, values co).
Proof.
  destruct one_scale as (A1 & A2 & _). destruct two_ok as [B1 B2].
  intros i j _ _. split; (split; [assumption|]); cbn [fst snd]; unfold values, cn, co; rewrite Rminus_diag_eq, Rabs_R0 by reflexivity; lra.
Qed.
Lemma case_size : let p := par64 1 one64 z64 one64 one64 false in
  1.001 * (2 + (1 + 2 * (fval dt64 * lip p (fval one64) 0 4)) ^ 2 * (0 + INR 2 * step_err p 1 (fval one64) 0 4 16 (fval dt64))) + 1.1 * (fval dt64 * 16) <= 4.
Proof.
  destruct one_scale as (_ & A2 & _). destruct dt64_val as [D1 _]. destruct z64_ok as [_ Z2]. pose proof uro_pos as U.
  assert (U2 : uro <= / 2 ^ 50) by (rewrite uro_num; lra).
  unfold step_err, rhs_err, phi_err, lip, roundings, par64. cbn [pN pc1 pnu ppb pkap pzon INR]. rewrite A2, D1, Z2, !Rabs_R1, Rabs_R0.
  lra.
Qed.
Lemma case_shape : keeps_shape 1 1 one64 (fun om dx => snd (hw_get_phi (hw64 cb one64 1 one64 z64 one64 one64 false) om dx)).
Proof. intros om p E. exists (fun _ _ => z64). vm_compute in E. injection E as <-. reflexivity. Qed.
