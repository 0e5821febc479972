(** Similarity of the system under changes of units, and small amplitudes. *)
From Coq Require Import List Arith ZArith Lia Bool Reals Lra Psatz String.
From Verif Require Import Num NdArray NdFacts ModelArakawa Spec GradFacts SumFacts LapFacts GradProps ArakawaFacts Cplx SpecFourier ModelHW ModelBackend
  SpecHW SpecPlasma HWFacts StepFacts RhsFacts HWProps SymFacts SymFacts SpecZonal ZonalFacts SpecScale.
Import ListNotations.
Local Open Scope R_scope.

Section S.
Variables (ny nx : nat) (dx : R).
Hypothesis Hy : (0 < ny)%nat.
Hypothesis Hx : (0 < nx)%nat.
Hypothesis Hd : dx <> 0.
Local Notation ag := (agree ny nx).
Local Notation sag := (sagree ny nx).

Lemma sc_invlap a f : ag (invlap ny nx dx (fscale a f)) (fscale a (invlap ny nx dx f)).
Proof.
  intros i j Hi Hj. rewrite (invlap_ext ny nx dx _ (fadd (fscale a f) (fscale 0 f))) by (intros ? ? _ _; unfold fadd, fscale; ring).
  rewrite invlap_lin by assumption. unfold fscale. ring.
Qed.
Lemma sc_jac a b f g i j : jacobian ny nx dx (fscale a f) (fscale b g) i j = a * b * jacobian ny nx dx f g i j.
Proof. unfold jacobian, jac_pp, jac_px, jac_xp, fscale, Rdiv. ring. Qed.
Lemma sc_cdy a f i j : cdy ny dx (fscale a f) i j = a * cdy ny dx f i j.
Proof. unfold cdy, fscale. cbn. unfold Rdiv. ring. Qed.
Lemma sc_yavg a f j : yavg ny (fscale a f) j = a * yavg ny f j.
Proof. unfold yavg, fscale. rewrite rsum_scal. unfold Rdiv. ring. Qed.
Lemma sc_lap a m f i j : lap_iter m ny nx dx (fscale a f) i j = a * lap_iter m ny nx dx f i j.
Proof.
  revert i j. induction m as [|m IH]; intros i j; [reflexivity|]. cbn [lap_iter]. unfold lap5. rewrite !IH. cbn. unfold Rdiv. ring.
Qed.
Lemma sc_rhs a tau p q y : rescaled a tau p q -> sag (hw_rhs q ny nx dx (sscale a y)) (sscale (a * tau) (hw_rhs p ny nx dx y)).
Proof.
  intros (E1 & E2 & E3 & E4 & E5 & E6). pose proof (sc_invlap a (snd y)) as I.
  split; cbn [hw_rhs sscale fst snd].
  - eapply agree_trans; [apply (rhs_n_ext q ny nx dx Hy Hx Hd _ _ _ _ I (fun i j _ _ => eq_refl))|].
    intros i j Hi Hj. unfold rhs_n, hyper, coupling, ydev. rewrite sc_jac, sc_cdy, sc_lap, !sc_yavg. unfold fscale, rhs_n, hyper, coupling, ydev. rewrite E1, E2, E3, E4, E5.
    set (J := jacobian ny nx dx (invlap ny nx dx (snd y)) (fst y) i j). replace (ppb q * (a * a * J)) with (a * (a * ppb q) * J) by ring. rewrite E6.
    destruct (pzon p); ring.
  - eapply agree_trans; [apply (rhs_o_ext q ny nx dx Hy Hx Hd _ _ _ _ _ _ I (fun i j _ _ => eq_refl) (fun i j _ _ => eq_refl))|].
    intros i j Hi Hj. unfold rhs_o, hyper, coupling, ydev. rewrite sc_jac, sc_lap, !sc_yavg. unfold fscale, rhs_o, hyper, coupling, ydev. rewrite E1, E2, E3, E4.
    set (J := jacobian ny nx dx (invlap ny nx dx (snd y)) (snd y) i j). replace (ppb q * (a * a * J)) with (a * (a * ppb q) * J) by ring. rewrite E6.
    destruct (pzon p); ring.
Qed.
Definition rel (a : R) (y z : state) : Prop := sag z (sscale a y).
Lemma sc_step e a tau p q dt y z : rescaled a tau p q -> rel a y z ->
  rel a (spec_of e (hw_rhs p ny nx dx) (tau * dt) y) (spec_of e (hw_rhs q ny nx dx) dt z).
Proof.
  intros H. set (F := hw_rhs p ny nx dx). set (G := hw_rhs q ny nx dx).
  assert (FG : forall y z, rel a y z -> sag (G z) (sscale (a * tau) (F y))).
  { intros u v B. eapply sagree_trans; [apply hw_rhs_ext; [assumption..|exact B]|]. now apply sc_rhs. }
  assert (A : forall y z k l c, rel a y z -> sag l (sscale (a * tau) k) -> rel a (sadd y (sscale (tau * c) k)) (sadd z (sscale c l))).
  { intros u v k l c [B1 B2] [C1 C2]. split; intros i j Hi Hj; cbn [sadd sscale fst snd] in *; unfold fadd, fscale in *;
      [rewrite (B1 i j Hi Hj), (C1 i j Hi Hj)|rewrite (B2 i j Hi Hj), (C2 i j Hi Hj)]; ring. }
  intros B. destruct e; cbn [spec_of].
  - apply A; [exact B|now apply FG].
  - unfold rk4, rk4_from. cbv zeta. pose proof (FG _ _ B) as K1.
    replace (tau * dt / 2) with (tau * (dt / 2)) by field. replace (tau * dt / 6) with (tau * (dt / 6)) by field.
    pose proof (FG _ _ (A _ _ _ _ (dt / 2) B K1)) as K2.
    pose proof (FG _ _ (A _ _ _ _ (dt / 2) B K2)) as K3.
    pose proof (FG _ _ (A _ _ _ _ dt B K3)) as K4.
    apply A; [exact B|].
    assert (S : forall c x k l, sag k (sscale (a * tau) l) -> sag x (sscale (a * tau) c) -> sag (sadd x k) (sscale (a * tau) (sadd c l))).
    { intros c x k l [B1 B2] [C1 C2]. split; intros i j Hi Hj; cbn [sadd sscale fst snd] in *; unfold fadd, fscale in *;
        [rewrite (B1 i j Hi Hj), (C1 i j Hi Hj)|rewrite (B2 i j Hi Hj), (C2 i j Hi Hj)]; ring. }
    assert (S2 : forall c k l, sag k (sscale (a * tau) l) -> sag (sscale c k) (sscale (a * tau) (sscale c l))).
    { intros c k l [B1 B2]. split; intros i j Hi Hj; cbn [sadd sscale fst snd] in *; unfold fadd, fscale in *;
        [rewrite (B1 i j Hi Hj)|rewrite (B2 i j Hi Hj)]; ring. }
    repeat first [apply S|apply S2]; assumption.
Qed.
Lemma sc_steps e a tau p q dt m : rescaled a tau p q -> forall y z, rel a y z ->
  rel a (iter_step (spec_of e (hw_rhs p ny nx dx) (tau * dt)) m y) (iter_step (spec_of e (hw_rhs q ny nx dx) dt) m z).
Proof.
  intros H. induction m as [|m IH]; intros y z B; cbn [iter_step]; [exact B|]. apply IH. now apply sc_step.
Qed.

(** ** dependence on a parameter: bounded, and off the value at 0 by at most K |a| *)
Definition gp (u : R -> R) : Prop := exists K, 0 <= K /\ forall a, Rabs a <= 1 -> Rabs (u a) <= K /\ Rabs (u a - u 0) <= K * Rabs a.
Lemma gp_const c : gp (fun _ => c).
Proof.
  exists (Rabs c). split; [apply Rabs_pos|]. intros a Ha. split; [lra|]. rewrite Rminus_eq_0, Rabs_R0. apply Rmult_le_pos; apply Rabs_pos.
Qed.
Lemma gp_id : gp (fun a => a).
Proof. exists 1. split; [lra|]. intros a Ha. rewrite Rminus_0_r. lra. Qed.
Lemma gp_add u v : gp u -> gp v -> gp (fun a => u a + v a).
Proof.
  intros (K & HK & A) (L & HL & B). exists (K + L). split; [lra|]. intros a Ha. destruct (A a Ha) as [A1 A2], (B a Ha) as [B1 B2]. split.
  - eapply Rle_trans; [apply Rabs_triang|lra].
  - replace (u a + v a - (u 0 + v 0)) with ((u a - u 0) + (v a - v 0)) by ring. eapply Rle_trans; [apply Rabs_triang|lra].
Qed.
Lemma gp_mul u v : gp u -> gp v -> gp (fun a => u a * v a).
Proof.
  intros (K & HK & A) (L & HL & B). exists (2 * (K * L)). assert (KL : 0 <= K * L) by now apply Rmult_le_pos. split; [lra|].
  intros a Ha. destruct (A a Ha) as [A1 A2], (B a Ha) as [B1 B2].
  destruct (B 0) as [B0 _]; [rewrite Rabs_R0; lra|]. pose proof (Rabs_pos a) as Pa. pose proof (Rabs_pos (u a)). pose proof (Rabs_pos (v a)). pose proof (Rabs_pos (v 0)).
  pose proof (Rabs_pos (u a - u 0)). pose proof (Rabs_pos (v a - v 0)). split.
  - rewrite Rabs_mult. assert (Rabs (u a) * Rabs (v a) <= K * L) by (apply Rmult_le_compat; assumption). lra.
  - replace (u a * v a - u 0 * v 0) with (u a * (v a - v 0) + (u a - u 0) * v 0) by ring. eapply Rle_trans; [apply Rabs_triang|]. rewrite !Rabs_mult.
    assert (Rabs (u a) * Rabs (v a - v 0) <= K * (L * Rabs a)) by (apply Rmult_le_compat; assumption).
    assert (Rabs (u a - u 0) * Rabs (v 0) <= K * Rabs a * L) by (apply Rmult_le_compat; assumption). nra.
Qed.
Lemma gp_ext u v : (forall a, u a = v a) -> gp u -> gp v.
Proof. intros E (K & HK & A). exists K. split; [exact HK|]. intros a Ha. rewrite <- !E. now apply A. Qed.
Lemma gp_sub u v : gp u -> gp v -> gp (fun a => u a - v a).
Proof. intros A B. apply (gp_ext (fun a => u a + (-1) * v a)); [intros; ring|]. apply gp_add; [exact A|]. apply gp_mul; [apply gp_const|exact B]. Qed.
Lemma gp_div u c : gp u -> gp (fun a => u a / c).
Proof. intros A. apply gp_mul; [exact A|apply gp_const]. Qed.
Lemma gp_rsum n (f : R -> nat -> R) : (forall k, (k < n)%nat -> gp (fun a => f a k)) -> gp (fun a => rsum n (f a)).
Proof. induction n as [|n IH]; intros H; cbn [rsum]; [apply gp_const|]. apply gp_add; [apply IH; auto|apply H; lia]. Qed.
Definition gc (z : R -> C) : Prop := gp (fun a => re (z a)) /\ gp (fun a => im (z a)).
Lemma gc_csum n (f : R -> nat -> C) : (forall k, (k < n)%nat -> gc (fun a => f a k)) -> gc (fun a => csum n (f a)).
Proof.
  induction n as [|n IH]; intros H; cbn [csum]; [split; apply gp_const|]. destruct (IH ltac:(auto)) as [A B]. destruct (H n ltac:(lia)) as [A' B'].
  split; cbn [re im Cadd]; now apply gp_add.
Qed.
Lemma gc_mul z w : gc z -> gc (fun a => Cmul (z a) w).
Proof.
  intros [A B]. split; cbn [re im Cmul].
  - apply gp_sub; apply gp_mul; try assumption; apply gp_const.
  - apply gp_add; apply gp_mul; try assumption; apply gp_const.
Qed.
Lemma gc_scal c z : gc z -> gc (fun a => Cscal c (z a)).
Proof. intros [A B]. split; cbn [re im Cscal]; apply gp_mul; try assumption; apply gp_const. Qed.

Definition gf (f : R -> field) : Prop := forall i j, (i < ny)%nat -> (j < nx)%nat -> gp (fun a => f a i j).
Definition gs (y : R -> state) : Prop := gf (fun a => fst (y a)) /\ gf (fun a => snd (y a)).
Lemma gf_invlap f : gf f -> gf (fun a => invlap ny nx dx (f a)).
Proof.
  intros H i j Hi Hj. unfold invlap. 
  assert (G : gc (fun a => idft2 ny nx (fun k l => if ((k =? 0)%nat && (l =? 0)%nat)%bool then C0
      else Cscal (/ lap_symbol ny nx dx k l) (dft2 ny nx (fun i j => RtoC (f a i j)) (Z.of_nat k) (Z.of_nat l))) i j)); [|apply G].
  unfold idft2. apply gc_scal, gc_csum. intros k Hk. apply gc_csum. intros l Hl. apply gc_mul.
  destruct ((k =? 0)%nat && (l =? 0)%nat)%bool; [split; apply gp_const|]. apply gc_scal. unfold dft2. apply gc_csum. intros u Hu. apply gc_csum. intros v Hv.
  apply gc_mul. split; cbn [re im RtoC]; [now apply H|apply gp_const].
Qed.
Lemma gf_sh f i j a b : gf f -> gp (fun t => f t (sh ny i a) (sh nx j b)).
Proof. intros H. apply H; now apply sh_lt. Qed.
Lemma gf_jac f g : gf f -> gf g -> gf (fun a => jacobian ny nx dx (f a) (g a)).
Proof.
  intros A B i j Hi Hj. unfold jacobian, jac_pp, jac_px, jac_xp. apply gp_div, gp_div.
  repeat first [apply gp_sub|apply gp_add|apply gp_mul|apply (gf_sh f); assumption|apply (gf_sh g); assumption].
Qed.
Lemma gf_cdy f : gf f -> gf (fun a => cdy ny dx (f a)).
Proof.
  intros A i j Hi Hj. unfold cdy. cbn [ndiv nmul nadd nsub nofZ npow NumR]. apply gp_div. apply gp_sub; apply A; try assumption; now apply sh_lt.
Qed.
Lemma gf_lap m f : gf f -> gf (fun a => lap_iter m ny nx dx (f a)).
Proof.
  intros A. induction m as [|m IH]; [exact A|]. intros i j Hi Hj. cbn [lap_iter].
  apply (gp_ext (fun a => ((lap_iter m ny nx dx (f a) (sh ny i (-1)) j + lap_iter m ny nx dx (f a) (sh ny i 1) j +
     lap_iter m ny nx dx (f a) i (sh nx j (-1)) + lap_iter m ny nx dx (f a) i (sh nx j 1) + (-4) * lap_iter m ny nx dx (f a) i j) * / dx ^ 2))).
  - intros a. rewrite lap5_R. field. assumption.
  - apply gp_mul; [|apply gp_const]. repeat apply gp_add; try (apply gp_mul; [apply gp_const|]); apply IH; try assumption; now apply sh_lt.
Qed.
Lemma gf_yavg f j : gf f -> (j < nx)%nat -> gp (fun a => yavg ny (f a) j).
Proof. intros A Hj. unfold yavg. apply gp_div, gp_rsum. intros k Hk. now apply A. Qed.
Lemma gf_coupling p f g : gf f -> gf g -> gf (fun a => coupling p ny (f a) (g a)).
Proof.
  intros A B i j Hi Hj. unfold coupling, ydev. destruct (pzon p).
  - apply gp_sub; apply gp_sub; try (now apply A); try (now apply B); now apply gf_yavg.
  - apply gp_sub; [now apply A|now apply B].
Qed.
Variable p : par.
Definition pa (a : R) : par := mkPar (pN p) (pc1 p) (pnu p) (a * ppb p) (pkap p) (pzon p).
Lemma gs_rhs y : gs y -> gs (fun a => hw_rhs (pa a) ny nx dx (y a)).
Proof.
  intros [A B]. pose proof (gf_invlap _ B) as I. split; intros i j Hi Hj; cbn [hw_rhs fst snd]; unfold rhs_n, rhs_o, hyper; cbn [pa pN pc1 pnu ppb pkap].
  - apply gp_add; [apply gp_sub; [apply gp_sub|]|].
    + apply gp_mul; [apply gp_const|]. now apply (gf_coupling p).
    + apply gp_mul; [apply gp_mul; [apply gp_id|apply gp_const]|]. now apply gf_jac.
    + apply gp_mul; [apply gp_const|]. now apply gf_cdy.
    + apply gp_mul; [apply gp_const|]. now apply gf_lap.
  - apply gp_add; [apply gp_sub|].
    + apply gp_mul; [apply gp_const|]. now apply (gf_coupling p).
    + apply gp_mul; [apply gp_mul; [apply gp_id|apply gp_const]|]. now apply gf_jac.
    + apply gp_mul; [apply gp_const|]. now apply gf_lap.
Qed.
Lemma gs_comb c y z : gs y -> gs z -> gs (fun a => sadd (y a) (sscale c (z a))).
Proof.
  intros [A B] [A' B']. split; intros i j Hi Hj; cbn [sadd sscale fst snd]; unfold fadd, fscale; (apply gp_add; [|apply gp_mul; [apply gp_const|]]); auto.
Qed.
Lemma gs_add y z : gs y -> gs z -> gs (fun a => sadd (y a) (z a)).
Proof. intros [A B] [A' B']. split; intros i j Hi Hj; cbn [sadd fst snd]; unfold fadd; apply gp_add; auto. Qed.
Lemma gs_sc c y : gs y -> gs (fun a => sscale c (y a)).
Proof. intros [A B]. split; intros i j Hi Hj; cbn [sscale fst snd]; unfold fscale; (apply gp_mul; [apply gp_const|]); auto. Qed.
Lemma gs_step e dt y : gs y -> gs (fun a => spec_of e (hw_rhs (pa a) ny nx dx) dt (y a)).
Proof.
  intros A. destruct e; cbn [spec_of].
  - apply gs_comb; [exact A|]. now apply gs_rhs.
  - unfold rk4, rk4_from. cbv zeta. pose proof (gs_rhs _ A) as K1.
    pose proof (gs_rhs _ (gs_comb (dt / 2) _ _ A K1)) as K2.
    pose proof (gs_rhs _ (gs_comb (dt / 2) _ _ A K2)) as K3.
    pose proof (gs_rhs _ (gs_comb dt _ _ A K3)) as K4. cbv beta in K1, K2, K3, K4.
    apply gs_comb; [exact A|].
    repeat first [exact K1|exact K4|apply gs_add|apply gs_sc; first [exact K2|exact K3]|exact K2|exact K3].
Qed.
Lemma gs_steps e dt m y : gs y -> gs (fun a => iter_step (spec_of e (hw_rhs (pa a) ny nx dx) dt) m (y a)).
Proof. revert y. induction m as [|m IH]; intros y A; cbn [iter_step]; [exact A|]. apply IH. now apply gs_step. Qed.
(** one constant for all cells *)
Lemma row_max n (Q : nat -> R -> Prop) : (forall k K L, Q k K -> K <= L -> Q k L) -> (forall k, (k < n)%nat -> exists K, 0 <= K /\ Q k K) ->
  exists K, 0 <= K /\ forall k, (k < n)%nat -> Q k K.
Proof.
  intros M. induction n as [|n IH]; intros H; [exists 0; split; [lra|intros; lia]|].
  destruct (IH ltac:(auto)) as (K & HK & A). destruct (H n ltac:(lia)) as (L & HL & B). exists (Rmax K L). split; [apply Rle_trans with K; [exact HK|apply Rmax_l]|].
  intros k Hk. destruct (Nat.eq_dec k n) as [->|Hn]; [apply (M _ L); [exact B|apply Rmax_r]|apply (M _ K); [apply A; lia|apply Rmax_l]].
Qed.
Lemma gf_uniform f : gf f -> exists K, 0 <= K /\ forall a i j, Rabs a <= 1 -> (i < ny)%nat -> (j < nx)%nat -> Rabs (f a i j - f 0 i j) <= K * Rabs a.
Proof.
  intros H.
  destruct (row_max ny (fun i K => forall a j, Rabs a <= 1 -> (j < nx)%nat -> Rabs (f a i j - f 0 i j) <= K * Rabs a)) as (K & HK & A).
  - intros i K L Q HL a j Ha Hj. eapply Rle_trans; [now apply Q|]. apply Rmult_le_compat_r; [apply Rabs_pos|exact HL].
  - intros i Hi. destruct (row_max nx (fun j K => forall a, Rabs a <= 1 -> Rabs (f a i j - f 0 i j) <= K * Rabs a)) as (K & HK & A).
    + intros j K L Q HL a Ha. eapply Rle_trans; [now apply Q|]. apply Rmult_le_compat_r; [apply Rabs_pos|exact HL].
    + intros j Hj. destruct (H i j Hi Hj) as (K & HK & A). exists K. split; [exact HK|]. intros a Ha. now apply A.
    + exists K. split; [exact HK|]. intros a j Ha Hj. now apply A.
  - exists K. split; [exact HK|]. intros a i j Ha Hi Hj. now apply A.
Qed.
End S.
