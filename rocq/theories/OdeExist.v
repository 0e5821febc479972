(** Existence and uniqueness of solutions of the quadratic systems of
    [OdeFacts]: Picard iteration for a system cut off outside a ball, and an
    energy estimate that keeps the solution inside the ball. *)
From Coq Require Import List Arith ZArith Lia Bool Reals Lra Psatz FunctionalExtensionality.
From Coquelicot Require Import Coquelicot.
From Verif Require Import OdeFacts SmoothFacts.
Import ListNotations.
Local Open Scope R_scope.

(** ** antiderivatives *)
Definition anti (f : R -> R) : R -> R := fun t => RInt f 0 t.
Lemma anti_der (f : R -> R) : (forall t, continuity_pt f t) -> forall t, derivable_pt_lim (anti f) t (f t).
Proof.
  intros C t. apply is_derive_Reals. apply (is_derive_RInt f (fun s => RInt f 0 s) 0 t).
  - exists (mkposreal 1 Rlt_0_1). intros y _. apply (@RInt_correct R_CompleteNormedModule).
    apply (@ex_RInt_continuous R_CompleteNormedModule). intros z _. apply continuity_pt_filterlim, C.
  - apply continuity_pt_filterlim, C.
Qed.
Lemma anti_0 f : anti f 0 = 0. Proof. unfold anti. exact (@RInt_point R_CompleteNormedModule 0 f). Qed.

(** ** Picard iteration for a globally Lipschitz field *)
Section Picard.
Variables (J : Type) (ix : list J) (G : (J -> R) -> (J -> R)) (L : R) (y0 : J -> R).
Notation V := (J -> R).
Notation nm := (nrm J ix).
Notation "u -v v" := (vsub J u v) (at level 50, left associativity).
Hypothesis HL : 0 <= L.
Hypothesis Lip : forall u v, nm (G u -v G v) <= L * nm (u -v v).

Fixpoint pic (k : nat) (t : R) : V :=
  match k with O => y0 | S k' => fun j => y0 j + anti (fun s => G (pic k' s) j) t end.

(** componentwise continuity is continuity in the norm *)
Definition vcont (Y : R -> V) : Prop := forall j, In j ix -> forall t, continuity_pt (fun s => Y s j) t.
Lemma vcont_nrm Y : vcont Y -> forall t eps, 0 < eps -> exists d, 0 < d /\ forall s, Rabs (s - t) < d -> nm (Y s -v Y t) <= eps.
Proof.
  intros HY t eps He. unfold vcont in HY. unfold nrm. clear Lip. induction ix as [|j l IH].
  - exists 1. split; [lra|]. intros. cbn. lra.
  - destruct IH as (d & Hd & IH); [intros; apply HY; now right|].
    destruct (HY j (or_introl eq_refl) t eps He) as (d' & Hd' & H'). exists (Rmin d d'). split; [now apply Rmin_glb_lt|].
    intros s Hs. cbn [fold_right]. apply Rmax_lub.
    + unfold vsub. destruct (Req_dec s t) as [->|Hne]; [rewrite Rminus_diag_eq, Rabs_R0 by reflexivity; lra|].
      left. apply H'. split; [split; [exact I|congruence]|]. cbn. unfold R_dist. eapply Rlt_le_trans; [exact Hs|apply Rmin_r].
    + apply IH. eapply Rlt_le_trans; [exact Hs|apply Rmin_l].
Qed.
Lemma vcont_G Y : vcont Y -> vcont (fun t => G (Y t)).
Proof.
  intros HY j Hj t eps He. destruct (vcont_nrm Y HY t (eps / (L + 1)) ltac:(apply Rdiv_lt_0_compat; lra)) as (d & Hd & H).
  exists d. split; [exact Hd|]. intros s [_ Hs]. cbn in Hs |- *. unfold R_dist in *.
  apply Rle_lt_trans with (nm (G (Y s) -v G (Y t))); [now apply (nrm_ub J ix (G (Y s) -v G (Y t)))|].
  eapply Rle_lt_trans; [apply Lip|]. specialize (H s Hs).
  apply Rle_lt_trans with (L * (eps / (L + 1))); [now apply Rmult_le_compat_l|].
  replace (L * (eps / (L + 1))) with (eps - eps / (L + 1)) by (field; lra).
  assert (0 < eps / (L + 1)) by (apply Rdiv_lt_0_compat; lra). lra.
Qed.
Lemma pic_der_ k : vcont (pic k) /\ forall t j, In j ix -> derivable_pt_lim (fun s => pic (S k) s j) t (G (pic k t) j).
Proof.
  assert (D : forall k, vcont (pic k) -> forall t j, In j ix -> derivable_pt_lim (fun s => pic (S k) s j) t (G (pic k t) j)).
  { intros m Hm t j Hj. cbn [pic]. apply dpl_eq with (0 + G (pic m t) j); [|ring].
    apply (dpl_plus (fun _ => y0 j) (anti (fun s => G (pic m s) j))); [apply dpl_const|].
    apply (anti_der (fun s => G (pic m s) j)). intros s. now apply (vcont_G (pic m) Hm j Hj). }
  assert (C : vcont (pic k)).
  { induction k as [|k IH].
    - intros j Hj t. apply derivable_continuous_pt. exists 0. cbn [pic]. apply dpl_const.
    - intros j Hj t. apply derivable_continuous_pt. exists (G (pic k t) j). now apply D. }
  split; [exact C|now apply D].
Qed.
Lemma pic_cont k : vcont (pic k). Proof. apply pic_der_. Qed.
Lemma pic_der k t j : In j ix -> derivable_pt_lim (fun s => pic (S k) s j) t (G (pic k t) j). Proof. apply pic_der_. Qed.
Lemma pic_0 k : pic k 0 = y0.
Proof. destruct k; [reflexivity|]. extensionality j. cbn [pic]. rewrite anti_0. ring. Qed.

Lemma pic_step k t : nm (pic (S k) t -v pic k t) <= nm (G y0) * L ^ k * Rabs t ^ S k / INR (fact (S k)).
Proof.
  revert t. induction k as [|k IH]; intros t.
  - apply nrm_le.
    { repeat apply Rmult_le_pos; try apply pow_le; try apply Rabs_pos; try lra; [apply nrm_pos|left; apply Rinv_0_lt_compat, lt_0_INR, lt_O_fact]. }
    intros j Hj. apply (grow (fun s => pic 1 s j - y0 j) (fun s => G y0 j)).
    + intros s. apply dpl_eq with (G (pic 0 s) j - 0); [|cbn; ring]. apply dpl_minus; [now apply pic_der|apply dpl_const].
    + rewrite pic_0. ring.
    + intros s. cbn. unfold Rdiv. rewrite Rinv_1, !Rmult_1_r. now apply nrm_ub.
  - apply nrm_le.
    { repeat apply Rmult_le_pos; try apply pow_le; try apply Rabs_pos; try lra; [apply nrm_pos|left; apply Rinv_0_lt_compat, lt_0_INR, lt_O_fact]. }
    intros j Hj. apply (grow (fun s => pic (S (S k)) s j - pic (S k) s j) (fun s => G (pic (S k) s) j - G (pic k s) j)).
    + intros s. apply (dpl_minus (fun s => pic (S (S k)) s j)); now apply pic_der.
    + rewrite !pic_0. ring.
    + intros s. apply Rle_trans with (nm (G (pic (S k) s) -v G (pic k s))); [now apply (nrm_ub J ix (G (pic (S k) s) -v G (pic k s)))|].
      eapply Rle_trans; [apply Lip|]. eapply Rle_trans; [apply Rmult_le_compat_l; [exact HL|apply IH]|].
      right. cbn [pow]. unfold Rdiv. ring.
Qed.

(** a convergent majorant on |t| <= r *)
Lemma pic_major r : 0 <= r -> exists a : nat -> R, (exists l, Un_cv (sum_f_R0 a) l) /\
  (forall k, 0 <= a k) /\ forall k t, Rabs t <= r -> nm (pic (S k) t -v pic k t) <= a k.
Proof.
  intros Hr. exists (fun k => nm (G y0) * r * (/ INR (fact k) * (L * r) ^ k)).
  assert (Hp : forall k, 0 < / INR (fact k)) by (intros; apply Rinv_0_lt_compat, lt_0_INR, lt_O_fact).
  split; [|split].
  - exists (nm (G y0) * r * exp (L * r)).
    assert (E : Un_cv (sum_f_R0 (fun k => / INR (fact k) * (L * r) ^ k)) (exp (L * r))) by (unfold exp; destruct (exist_exp (L * r)) as [l Hl]; exact Hl).
    apply (Un_cv_ext (fun n => nm (G y0) * r * sum_f_R0 (fun k => / INR (fact k) * (L * r) ^ k) n)).
    + intros n. rewrite scal_sum. apply sum_eq. intros. ring.
    + apply (CV_mult (fun _ => nm (G y0) * r)); [|exact E]. intros eps He. exists 0%nat. intros. unfold R_dist. rewrite Rminus_diag_eq, Rabs_R0 by reflexivity. exact He.
  - intros k. repeat apply Rmult_le_pos; try assumption; [apply nrm_pos|left; apply Hp|apply pow_le; now apply Rmult_le_pos].
  - intros k t Ht. eapply Rle_trans; [apply pic_step|]. rewrite Rpow_mult_distr.
    assert (B : Rabs t ^ S k <= r ^ S k) by (apply pow_incr; split; [apply Rabs_pos|exact Ht]).
    assert (I : / INR (fact (S k)) <= / INR (fact k)).
    { apply Rinv_le_contravar; [apply lt_0_INR, lt_O_fact|]. apply le_INR, fact_le. lia. }
    replace (nm (G y0) * r * (/ INR (fact k) * (L ^ k * r ^ k))) with (nm (G y0) * L ^ k * (r ^ S k * / INR (fact k))) by (cbn [pow]; ring).
    unfold Rdiv. rewrite Rmult_assoc. apply Rmult_le_compat_l; [apply Rmult_le_pos; [apply nrm_pos|now apply pow_le]|].
    apply Rmult_le_compat; auto; [apply pow_le, Rabs_pos|left; apply Hp].
Qed.
Lemma pic_tail (a : nat -> R) r : (forall k t, Rabs t <= r -> nm (pic (S k) t -v pic k t) <= a k) ->
  forall n m t, Rabs t <= r -> nm (pic (n + m) t -v pic n t) <= sum_f_R0 a (n + m) - sum_f_R0 a n + (a n - a (n + m)%nat).
Proof.
  intros H n m t Ht. induction m as [|m IH].
  - rewrite Nat.add_0_r. apply Rle_trans with 0; [|right; ring]. apply nrm_le; [lra|]. intros. unfold vsub. rewrite Rminus_diag_eq, Rabs_R0 by reflexivity. lra.
  - rewrite Nat.add_succ_r. eapply Rle_trans; [apply (nrm_sub_tri J ix _ (pic (n + m) t))|].
    pose proof (H (n + m)%nat t Ht). cbn [sum_f_R0]. lra.
Qed.
Lemma pic_cauchy r : 0 <= r -> forall eps, 0 < eps -> exists N, forall n m t, (N <= n)%nat -> Rabs t <= r ->
  nm (pic (n + m) t -v pic n t) <= eps.
Proof.
  intros Hr eps He. destruct (pic_major r Hr) as (a & (l & Hl) & Ha & Hm).
  destruct (Hl (eps / 4) ltac:(lra)) as (N & HN). exists (S N). intros n m t Hn Ht.
  eapply Rle_trans; [apply (pic_tail a r Hm n m t Ht)|].
  pose proof (HN (n + m)%nat ltac:(lia)) as H1. pose proof (HN n ltac:(lia)) as H2. pose proof (HN (n - 1)%nat ltac:(lia)) as H3.
  unfold R_dist in *. apply Rabs_def2 in H1, H2, H3. pose proof (Ha (n + m)%nat).
  assert (E : sum_f_R0 a n = sum_f_R0 a (n - 1) + a n). { destruct n; [lia|]. cbn [Nat.sub]. rewrite Nat.sub_0_r. reflexivity. }
  lra.
Qed.

Definition lim (t : R) : V := fun j => real (Lim_seq (fun k => pic k t j)).
Lemma lim_cv t j : In j ix -> Un_cv (fun k => pic k t j) (lim t j).
Proof.
  intros Hj. apply is_lim_seq_Reals. unfold lim. apply Lim_seq_correct'. apply ex_lim_seq_cauchy_corr.
  intros eps. destruct (pic_cauchy (Rabs t) (Rabs_pos t) (eps / 3)) as (N & HN); [destruct eps; cbn; lra|]. exists N.
  intros n m Hn Hm.
  assert (K : forall k, (N <= k)%nat -> Rabs (pic k t j - pic N t j) <= eps / 3).
  { intros k Hk. eapply Rle_trans; [apply (nrm_ub J ix (pic k t -v pic N t) j Hj)|].
    replace k with (N + (k - N))%nat by lia. apply HN; [lia|lra]. }
  pose proof (K n Hn). pose proof (K m Hm). replace (pic n t j - pic m t j) with ((pic n t j - pic N t j) - (pic m t j - pic N t j)) by ring.
  eapply Rle_lt_trans; [apply Rabs_triang|]. rewrite Rabs_Ropp. destruct eps as [e He]; cbn in *; lra.
Qed.
Lemma lim_unif r : 0 <= r -> forall eps, 0 < eps -> exists N, forall n t, (N <= n)%nat -> Rabs t <= r -> nm (lim t -v pic n t) <= eps.
Proof.
  intros Hr eps He. destruct (pic_cauchy r Hr eps He) as (N & HN). exists N. intros n t Hn Ht.
  apply nrm_le; [lra|]. intros j Hj. unfold vsub. apply Rnot_lt_le. intros Hlt.
  destruct (lim_cv t j Hj (Rabs (lim t j - pic n t j) - eps) ltac:(lra)) as (M & HM).
  pose proof (HM (n + M)%nat ltac:(lia)) as H1. unfold R_dist in H1.
  pose proof (Rle_trans _ _ _ (nrm_ub J ix (pic (n + M) t -v pic n t) j Hj) (HN n M t Hn Ht)) as H2. unfold vsub in H2.
  replace (lim t j - pic n t j) with ((pic (n + M) t j - pic n t j) - (pic (n + M) t j - lim t j)) in Hlt, H1 by ring.
  pose proof (Rabs_triang (pic (n + M) t j - pic n t j) (- (pic (n + M) t j - lim t j))) as T. rewrite Rabs_Ropp in T. unfold Rminus in *. lra.
Qed.
Lemma lim_0 j : In j ix -> lim 0 j = y0 j.
Proof. intros Hj. unfold lim. rewrite (Lim_seq_ext _ (fun _ => y0 j)) by (intros; now rewrite pic_0). now rewrite Lim_seq_const. Qed.
Lemma lim_der t j : In j ix -> derivable_pt_lim (fun s => lim s j) t (G (lim t) j).
Proof.
  intros Hj. set (r := mkposreal (Rabs t + 1) ltac:(pose proof (Rabs_pos t); lra)).
  apply (CVU_derivable (fun n s => pic (S n) s j) (fun n s => G (pic n s) j) (fun s => lim s j) (fun s => G (lim s) j) 0 r).
  - intros eps He. destruct (lim_unif r ltac:(destruct r; cbn; lra) (eps / (L + 1)) ltac:(apply Rdiv_lt_0_compat; lra)) as (N & HN).
    exists N. intros n s Hn Hs. unfold Boule in Hs. rewrite Rminus_0_r in Hs.
    eapply Rle_lt_trans; [apply (nrm_ub J ix (G (lim s) -v G (pic n s)) j Hj)|]. eapply Rle_lt_trans; [apply Lip|].
    specialize (HN n s Hn ltac:(lra)). apply Rle_lt_trans with (L * (eps / (L + 1))); [now apply Rmult_le_compat_l|].
    replace (L * (eps / (L + 1))) with (eps - eps / (L + 1)) by (field; lra).
    assert (0 < eps / (L + 1)) by (apply Rdiv_lt_0_compat; lra). lra.
  - intros s _. intros eps He. destruct (lim_cv s j Hj eps He) as (N & HN). exists N. intros n Hn. apply HN. lia.
  - intros n s _. now apply pic_der.
  - unfold Boule. cbn. rewrite Rminus_0_r. lra.
Qed.
Lemma picard : exists Y : R -> V, (forall j, In j ix -> Y 0 j = y0 j) /\
  forall t j, In j ix -> derivable_pt_lim (fun s => Y s j) t (G (Y t) j).
Proof. exists lim. split; [exact lim_0|exact lim_der]. Qed.
End Picard.

(** ** Gronwall's inequality *)
Lemma gronwall (f f' : R -> R) c d T : 0 <= c -> 0 <= d ->
  (forall t, 0 <= t <= T -> derivable_pt_lim f t (f' t)) -> (forall t, 0 <= t <= T -> f' t <= c * f t + d) ->
  forall t, 0 <= t <= T -> f t <= (f 0 + d * t) * exp (c * t).
Proof.
  intros Hc Hd D B t Ht.
  set (g := fun s => f s * exp (- c * s) - d * s). set (g' := fun s => f' s * exp (- c * s) + f s * (- c * exp (- c * s)) - d).
  assert (Dg : forall s, 0 <= s <= T -> derivable_pt_lim g s (g' s)).
  { intros s Hs. unfold g, g'. apply dpl_minus.
    - apply (derivable_pt_lim_mult f (fun s => exp (- c * s))); [now apply D|].
      apply dpl_eq with (exp (- c * s) * (- c)); [|ring]. apply (derivable_pt_lim_comp (fun s => - c * s) exp).
      + apply dpl_eq with (- c * 1); [|ring]. apply (dpl_scal (- c) (fun s => s)), dpl_id.
      + apply derivable_pt_lim_exp.
    - apply dpl_eq with (d * 1); [|ring]. apply (dpl_scal d (fun s => s)), dpl_id. }
  assert (N : forall s, 0 <= s <= T -> g' s <= 0).
  { intros s Hs. unfold g'. specialize (B s Hs). set (e := exp (- c * s)).
    assert (E0 : 0 < e) by apply exp_pos.
    assert (E1 : e <= 1). { unfold e. rewrite <- exp_0. destruct (Rle_lt_or_eq_dec (- c * s) 0 ltac:(nra)) as [H|H]; [left; now apply exp_increasing|rewrite H; lra]. }
    nra. }
  assert (G : g t <= g 0).
  { destruct (Req_dec t 0) as [->|Hne]; [lra|]. destruct (MVT_cor2 g g' 0 t) as (x & Ex & Hx); [lra|intros; apply Dg; lra|].
    specialize (N x ltac:(lra)). nra. }
  unfold g in G. rewrite !Rmult_0_r, exp_0 in G.
  assert (E : exp (- c * t) * exp (c * t) = 1) by (rewrite <- exp_plus; replace (- c * t + c * t) with 0 by ring; apply exp_0).
  pose proof (exp_pos (c * t)). replace (f t) with (f t * exp (- c * t) * exp (c * t)) by (rewrite Rmult_assoc, E; ring).
  apply Rmult_le_compat_r; lra.
Qed.

(** ** scalar product over a list of indices *)
Section Dot.
Variables (J : Type).
Notation V := (J -> R).
Fixpoint dotl (l : list J) (u v : V) : R := match l with [] => 0 | j :: l' => u j * v j + dotl l' u v end.
Lemma dotl_add l u v w : dotl l u (vadd J v w) = dotl l u v + dotl l u w.
Proof. induction l as [|j l IH]; cbn; [ring|]. rewrite IH. unfold vadd. ring. Qed.
Lemma dotl_scale l c u v : dotl l u (vscale J c v) = c * dotl l u v.
Proof. induction l as [|j l IH]; cbn; [ring|]. rewrite IH. unfold vscale. ring. Qed.
Lemma dotl_pos l u : 0 <= dotl l u u.
Proof. induction l as [|j l IH]; cbn; [lra|]. nra. Qed.
Lemma dotl_ext l u v u' v' : (forall j, In j l -> u j = u' j) -> (forall j, In j l -> v j = v' j) -> dotl l u v = dotl l u' v'.
Proof. intros H H'. induction l as [|j l IH]; cbn; [reflexivity|]. rewrite (H j), (H' j) by now left. rewrite IH; [reflexivity|intros; apply H; now right|intros; apply H'; now right]. Qed.
Lemma dotl_bd l u v m n : (forall j, In j l -> Rabs (u j) <= m) -> (forall j, In j l -> Rabs (v j) <= n) ->
  Rabs (dotl l u v) <= INR (length l) * (m * n).
Proof.
  intros Hu Hv. induction l as [|j l IH]; cbn [dotl length]; [rewrite Rabs_R0; cbn; lra|].
  rewrite S_INR. eapply Rle_trans; [apply Rabs_triang|].
  assert (Rabs (u j * v j) <= m * n) by (apply abs_mul; [apply Hu|apply Hv]; now left).
  assert (Rabs (dotl l u v) <= INR (length l) * (m * n)) by (apply IH; intros; [apply Hu|apply Hv]; now right). lra.
Qed.
Lemma nrm_dotl l u : nrm J l u ^ 2 <= dotl l u u.
Proof.
  unfold nrm. induction l as [|j l IH]; cbn [fold_right dotl]; [lra|].
  set (m := fold_right _ 0 l) in *. clearbody m. pose proof (Rle_0_sqr (u j)) as Q. unfold Rsqr in Q. pose proof (dotl_pos l u).
  unfold Rmax. destruct (Rle_dec (Rabs (u j)) m); [lra|]. rewrite <- Rsqr_pow2, <- Rsqr_abs. unfold Rsqr. lra.
Qed.
Lemma dotl_der l (X : R -> V) (X' : V) t : (forall j, In j l -> derivable_pt_lim (fun s => X s j) t (X' j)) ->
  derivable_pt_lim (fun s => dotl l (X s) (X s)) t (2 * dotl l (X t) X').
Proof.
  intros D. induction l as [|j l IH]; cbn [dotl]; [apply dpl_eq with 0; [apply dpl_const|ring]|].
  apply dpl_eq with ((X' j * X t j + X t j * X' j) + 2 * dotl l (X t) X'); [|ring].
  apply dpl_plus; [|apply IH; intros; apply D; now right].
  apply (derivable_pt_lim_mult (fun s => X s j) (fun s => X s j)); apply D; now left.
Qed.
End Dot.

(** ** quadratic systems whose quadratic part does no work *)
Section Quad.
Variables (J : Type) (ix : list J).
Notation V := (J -> R).
Notation nm := (nrm J ix).
Notation dot := (dotl J ix).
Notation "u +v v" := (vadd J u v) (at level 50, left associativity).
Notation "c *v u" := (vscale J c u) (at level 40, left associativity).
Notation "u -v v" := (vsub J u v) (at level 50, left associativity).
Variables (A : V -> V) (B : V -> V -> V).
Hypothesis A_add : forall u v, A (u +v v) = A u +v A v.
Hypothesis A_scale : forall c u, A (c *v u) = c *v A u.
Hypothesis B_add_l : forall u v w, B (u +v v) w = B u w +v B v w.
Hypothesis B_add_r : forall u v w, B w (u +v v) = B w u +v B w v.
Hypothesis B_scale_l : forall c u w, B (c *v u) w = c *v B u w.
Hypothesis B_scale_r : forall c u w, B w (c *v u) = c *v B w u.
Variables (CA CB : R).
Hypothesis HCA : 0 <= CA.
Hypothesis HCB : 0 <= CB.
Hypothesis A_bd : forall u, nm (A u) <= CA * nm u.
Hypothesis B_bd : forall u v, nm (B u v) <= CB * nm u * nm v.
Notation Fq := (F J A B).
Notation sol := (solves J ix A B).
Let N := INR (length ix).
Lemma N_pos : 0 <= N. Proof. apply pos_INR. Qed.

Lemma dot_lip u v K : nm v <= K * nm u -> 0 <= K -> dot u v <= N * K * dot u u.
Proof.
  intros H HK. eapply Rle_trans; [apply Rle_abs|].
  eapply Rle_trans; [apply (dotl_bd J ix u v (nm u) (nm v)); intros; now apply nrm_ub|]. fold N.
  pose proof (nrm_dotl J ix u) as S. pose proof (nrm_pos J ix u). pose proof N_pos.
  assert (nm u * nm v <= K * dot u u) by nra. rewrite Rmult_assoc. now apply Rmult_le_compat_l.
Qed.

(** *** uniqueness and continuous dependence *)
Lemma dependence Y Z T M : 0 <= M -> sol Y T -> sol Z T -> (forall t, 0 <= t <= T -> nm (Y t) <= M /\ nm (Z t) <= M) ->
  forall t, 0 <= t <= T -> dot (Y t -v Z t) (Y t -v Z t) <= dot (Y 0 -v Z 0) (Y 0 -v Z 0) * exp (2 * (N * (CA + 2 * CB * M)) * t).
Proof.
  intros HM HY HZ Hb t Ht. pose proof N_pos. assert (HK : 0 <= CA + 2 * CB * M) by nra.
  replace (dot (Y 0 -v Z 0) (Y 0 -v Z 0)) with (dot (Y 0 -v Z 0) (Y 0 -v Z 0) + 0 * t) by ring.
  apply (gronwall (fun s => dot (Y s -v Z s) (Y s -v Z s)) (fun s => 2 * dot (Y s -v Z s) (Fq (Y s) -v Fq (Z s))) _ 0 T);
    [nra|lra| | |exact Ht].
  - intros s Hs. apply (dotl_der J ix (fun s => Y s -v Z s) (Fq (Y s) -v Fq (Z s))). intros j Hj.
    apply (dpl_minus (fun s => Y s j)); [now apply HY|now apply HZ].
  - intros s Hs. destruct (Hb s Hs) as [B1 B2].
    pose proof (dot_lip (Y s -v Z s) (Fq (Y s) -v Fq (Z s)) (CA + 2 * CB * M)) as P.
    specialize (P ltac:(apply (F_lip J ix A B A_add A_scale B_add_l B_add_r B_scale_l B_scale_r CA CB); assumption) HK). lra.
Qed.
Lemma unique Y Z T : 0 <= T -> sol Y T -> sol Z T -> (forall j, In j ix -> Y 0 j = Z 0 j) ->
  forall t j, 0 <= t <= T -> In j ix -> Y t j = Z t j.
Proof.
  intros HT HY HZ H0 t j Ht Hj.
  destruct (solves_bounded J ix A B Y T HT HY) as (M1 & P1 & B1), (solves_bounded J ix A B Z T HT HZ) as (M2 & P2 & B2).
  pose proof (dependence Y Z T (M1 + M2) ltac:(lra) HY HZ) as D.
  assert (Hb : forall t, 0 <= t <= T -> nm (Y t) <= M1 + M2 /\ nm (Z t) <= M1 + M2).
  { intros s Hs. specialize (B1 s Hs). specialize (B2 s Hs). lra. }
  specialize (D Hb t Ht). replace (dot (Y 0 -v Z 0) (Y 0 -v Z 0)) with 0 in D.
  2:{ symmetry. rewrite (dotl_ext J ix _ _ (vzero J) (vzero J)) by (intros k Hk; unfold vsub, vzero; rewrite H0 by assumption; ring).
      clear. induction ix as [|k l IH]; cbn; [reflexivity|]. rewrite IH. unfold vzero. ring. }
  rewrite Rmult_0_l in D. pose proof (nrm_dotl J ix (Y t -v Z t)) as S. pose proof (nrm_pos J ix (Y t -v Z t)).
  assert (E : nm (Y t -v Z t) = 0) by nra. pose proof (nrm_ub J ix (Y t -v Z t) j Hj) as U. rewrite E in U. unfold vsub in U.
  pose proof (Rabs_pos (Y t j - Z t j)). assert (Rabs (Y t j - Z t j) = 0) by lra.
  destruct (Req_dec (Y t j - Z t j) 0); [lra|]. exfalso. now apply (Rabs_no_R0 (Y t j - Z t j)).
Qed.

(** *** existence *)
Hypothesis B_skew : forall u, dot u (B u u) = 0.
Section Cut.
Variable R0 : R.
Hypothesis HR : 0 < R0.
Definition cutf (u : V) : R := R0 / Rmax R0 (nm u).
Definition cut (u : V) : V := cutf u *v u.
Definition Gc (u : V) : V := A u +v B (cut u) (cut u).
Lemma cutm u : R0 <= Rmax R0 (nm u) /\ nm u <= Rmax R0 (nm u). Proof. split; [apply Rmax_l|apply Rmax_r]. Qed.
Lemma cutf_bd u : 0 <= cutf u <= 1 /\ cutf u * nm u <= R0.
Proof.
  destruct (cutm u) as [H1 H2]. unfold cutf. set (m := Rmax R0 (nm u)) in *. clearbody m. pose proof (nrm_pos J ix u).
  assert (0 < / m) by (apply Rinv_0_lt_compat; lra). assert (E : m * / m = 1) by (apply Rinv_r; lra). unfold Rdiv.
  repeat split; [apply Rmult_le_pos; lra| |]; [rewrite <- E; apply Rmult_le_compat_r; lra|].
  replace (R0 * / m * nm u) with (R0 * (nm u * / m)) by ring. rewrite <- (Rmult_1_r R0) at 2. apply Rmult_le_compat_l; [lra|].
  rewrite <- E. apply Rmult_le_compat_r; lra.
Qed.
Lemma cut_bd u : nm (cut u) <= R0.
Proof. eapply Rle_trans; [apply nrm_scale|]. destruct (cutf_bd u) as [[] ?]. rewrite Rabs_pos_eq; lra. Qed.
Lemma cut_id u : nm u <= R0 -> cut u = u.
Proof. intros H. unfold cut, cutf. rewrite Rmax_left by assumption. extensionality j. unfold vscale. field. lra. Qed.
Lemma cut_lip u v : nm (cut u -v cut v) <= 2 * nm (u -v v).
Proof.
  set (a := Rmax R0 (nm u)). set (b := Rmax R0 (nm v)). destruct (cutm u) as [A1 A2]. destruct (cutm v) as [B1 B2]. fold a in A1, A2. fold b in B1, B2.
  assert (E : cut u -v cut v = (cutf u) *v (u -v v) +v (cutf u - cutf v) *v v) by (extensionality j; unfold cut, vsub, vadd, vscale; ring).
  rewrite E. eapply Rle_trans; [apply nrm_add|].
  assert (D : Rabs (b - a) <= nm (u -v v)).
  { assert (T : Rabs (nm u - nm v) <= nm (u -v v)).
    { apply Rabs_le. assert (nm u <= nm (u -v v) + nm v).
      { replace (nm u) with (nm ((u -v v) +v v)) by (apply nrm_ext; intros; unfold vadd, vsub; ring). apply nrm_add. }
      assert (nm v <= nm u + nm (u -v v)).
      { replace (nm v) with (nm (u -v (u -v v))) by (apply nrm_ext; intros; unfold vsub; ring). apply nrm_sub. }
      lra. }
    unfold a, b. unfold Rmax. apply Rabs_le. assert (T' : - nm (u -v v) <= nm u - nm v <= nm (u -v v)) by (split; [pose proof (Rle_abs (- (nm u - nm v))) as Q; rewrite Rabs_Ropp in Q; lra|pose proof (Rle_abs (nm u - nm v)); lra]).
    pose proof (nrm_pos J ix (u -v v)). destruct (Rle_dec R0 (nm u)), (Rle_dec R0 (nm v)); lra. }
  assert (P1 : nm (cutf u *v (u -v v)) <= nm (u -v v)).
  { eapply Rle_trans; [apply nrm_scale|]. destruct (cutf_bd u) as [[] _]. rewrite Rabs_pos_eq by lra. pose proof (nrm_pos J ix (u -v v)). nra. }
  assert (P2 : nm ((cutf u - cutf v) *v v) <= nm (u -v v)).
  { eapply Rle_trans; [apply nrm_scale|]. unfold cutf. fold a b.
    replace (R0 / a - R0 / b) with (R0 / a * / b * (b - a)) by (field; lra). rewrite Rabs_mult.
    assert (0 < / b) by (apply Rinv_0_lt_compat; lra). assert (Hb1 : b * / b = 1) by (apply Rinv_r; lra).
    destruct (cutf_bd u) as [[C1 C2] _]. unfold cutf in C1, C2. fold a in C1, C2.
    rewrite (Rabs_pos_eq (R0 / a * / b)) by (apply Rmult_le_pos; lra).
    replace (R0 / a * / b * Rabs (b - a) * nm v) with (R0 / a * (nm v * / b) * Rabs (b - a)) by ring.
    assert (nm v * / b <= 1) by (rewrite <- Hb1; apply Rmult_le_compat_r; lra).
    assert (0 <= nm v * / b) by (apply Rmult_le_pos; [apply nrm_pos|lra]).
    assert (R0 / a * (nm v * / b) <= 1) by nra. pose proof (Rabs_pos (b - a)). nra. }
  lra.
Qed.
Lemma Gc_lip u v : nm (Gc u -v Gc v) <= (CA + 4 * CB * R0) * nm (u -v v).
Proof.
  set (x := cut u). set (y := cut v).
  assert (E : Gc u -v Gc v = A (u -v v) +v (B x (x -v y) +v B (x -v y) y)).
  { unfold Gc. fold x y. rewrite (A_sub J A A_add A_scale).
    replace (x -v y) with (x +v (-1) *v y) by (extensionality j; unfold vsub, vadd, vscale; ring).
    rewrite B_add_l, B_add_r, B_scale_l, B_scale_r. extensionality j. unfold vsub, vadd, vscale. ring. }
  rewrite E. eapply Rle_trans; [apply nrm_add|]. pose proof (nrm_add J ix (B x (x -v y)) (B (x -v y) y)).
  pose proof (A_bd (u -v v)). pose proof (B_bd x (x -v y)). pose proof (B_bd (x -v y) y).
  pose proof (cut_bd u) as Bx. pose proof (cut_bd v) as By. fold x in Bx. fold y in By. pose proof (cut_lip u v) as Lc. fold x y in Lc.
  pose proof (nrm_pos J ix (x -v y)). pose proof (nrm_pos J ix x). pose proof (nrm_pos J ix y).
  assert (CB * nm x * nm (x -v y) <= CB * R0 * (2 * nm (u -v v))) by (apply Rmult_le_compat; nra).
  assert (CB * nm (x -v y) * nm y <= CB * R0 * (2 * nm (u -v v))).
  { replace (CB * nm (x -v y) * nm y) with (CB * nm y * nm (x -v y)) by ring. apply Rmult_le_compat; nra. }
  lra.
Qed.
Lemma Gc_work u : dot u (Gc u) <= N * CA * dot u u.
Proof.
  unfold Gc. rewrite dotl_add. unfold cut at 1 2. rewrite B_scale_l, B_scale_r, !dotl_scale, B_skew, !Rmult_0_r, Rplus_0_r.
  now apply dot_lip.
Qed.
End Cut.

Lemma exists_solution y0 T : 0 <= T -> exists Y, sol Y T /\ (forall j, In j ix -> Y 0 j = y0 j) /\
  forall t, 0 <= t <= T -> dot (Y t) (Y t) <= dot y0 y0 * exp (2 * (N * CA) * t).
Proof.
  intros HT. pose proof N_pos. set (Q := dot y0 y0 * exp (2 * (N * CA) * T)).
  assert (HQ : 0 <= Q) by (apply Rmult_le_pos; [apply dotl_pos|left; apply exp_pos]).
  set (R0 := Q + 1). assert (HR : 0 < R0) by (unfold R0; lra).
  destruct (picard J ix (Gc R0) (CA + 4 * CB * R0) y0 ltac:(unfold R0; nra) (Gc_lip R0 HR)) as (Y & Y0 & DY).
  assert (E0 : dot (Y 0) (Y 0) = dot y0 y0) by (apply dotl_ext; intros; now apply Y0).
  assert (En : forall t, 0 <= t <= T -> dot (Y t) (Y t) <= dot y0 y0 * exp (2 * (N * CA) * t)).
  { intros t Ht. rewrite <- E0. replace (dot (Y 0) (Y 0)) with (dot (Y 0) (Y 0) + 0 * t) by ring.
    apply (gronwall (fun s => dot (Y s) (Y s)) (fun s => 2 * dot (Y s) (Gc R0 (Y s))) _ 0 T); [nra|lra| | |exact Ht].
    - intros s Hs. apply dotl_der. intros j Hj. now apply DY.
    - intros s Hs. pose proof (Gc_work R0 (Y s)). lra. }
  exists Y. split; [|split; [exact Y0|exact En]].
  intros t j Ht Hj. replace (Fq (Y t)) with (Gc R0 (Y t)); [now apply DY|].
  unfold Gc, F. rewrite (cut_id R0 HR); [reflexivity|].
  pose proof (nrm_dotl J ix (Y t)) as S. pose proof (nrm_pos J ix (Y t)). specialize (En t Ht).
  assert (exp (2 * (N * CA) * t) <= exp (2 * (N * CA) * T)).
  { assert (Hle : 2 * (N * CA) * t <= 2 * (N * CA) * T) by (apply Rmult_le_compat_l; nra).
    destruct (Rle_lt_or_eq_dec _ _ Hle) as [Hl|Hl]; [left; now apply exp_increasing|rewrite Hl; lra]. }
  assert (dot (Y t) (Y t) <= Q) by (eapply Rle_trans; [exact En|]; apply Rmult_le_compat_l; [apply dotl_pos|assumption]).
  unfold R0. nra.
Qed.
End Quad.
