(** Explicit one-step methods for quadratic systems y' = A y + B y y on a
    finite-dimensional space: Taylor coefficients, local and global order.
    A vector is a function on an index type; only the indices in the list
    [ix] are measured by the norm. *)
From Coq Require Import List Arith ZArith Lia Bool Reals Lra Psatz FunctionalExtensionality.
Import ListNotations.
Local Open Scope R_scope.

Section Ode.
Variables (J : Type) (ix : list J).
Notation V := (J -> R).
Definition vadd (u v : V) : V := fun j => u j + v j.
Definition vscale (c : R) (u : V) : V := fun j => c * u j.
Definition vsub (u v : V) : V := fun j => u j - v j.
Definition vzero : V := fun _ => 0.
Infix "+v" := vadd (at level 50, left associativity).
Infix "*v" := vscale (at level 40, left associativity).
Infix "-v" := vsub (at level 50, left associativity).

Definition nrm (u : V) : R := fold_right (fun j m => Rmax (Rabs (u j)) m) 0 ix.
Lemma nrm_pos u : 0 <= nrm u.
Proof. unfold nrm. induction ix; cbn; [lra|]. eapply Rle_trans; [apply IHl|apply Rmax_r]. Qed.
Lemma nrm_ub u j : In j ix -> Rabs (u j) <= nrm u.
Proof.
  unfold nrm. induction ix as [|k l IH]; cbn; [tauto|]. intros [->|H]; [apply Rmax_l|].
  eapply Rle_trans; [now apply IH|apply Rmax_r].
Qed.
Lemma nrm_le u c : 0 <= c -> (forall j, In j ix -> Rabs (u j) <= c) -> nrm u <= c.
Proof.
  intros Hc. unfold nrm. induction ix as [|k l IH]; cbn; intros H; [exact Hc|].
  apply Rmax_lub; [apply H; now left|]. apply IH. intros; apply H; now right.
Qed.
Lemma nrm_add u v : nrm (u +v v) <= nrm u + nrm v.
Proof.
  apply nrm_le; [pose proof (nrm_pos u); pose proof (nrm_pos v); lra|].
  intros j Hj. unfold vadd. eapply Rle_trans; [apply Rabs_triang|].
  apply Rplus_le_compat; now apply nrm_ub.
Qed.
Lemma nrm_scale c u : nrm (c *v u) <= Rabs c * nrm u.
Proof.
  apply nrm_le; [apply Rmult_le_pos; [apply Rabs_pos|apply nrm_pos]|].
  intros j Hj. unfold vscale. rewrite Rabs_mult. apply Rmult_le_compat_l; [apply Rabs_pos|now apply nrm_ub].
Qed.
Lemma nrm_sub u v : nrm (u -v v) <= nrm u + nrm v.
Proof.
  apply nrm_le; [pose proof (nrm_pos u); pose proof (nrm_pos v); lra|].
  intros j Hj. unfold vsub. eapply Rle_trans; [apply Rabs_triang|]. rewrite Rabs_Ropp.
  apply Rplus_le_compat; now apply nrm_ub.
Qed.
Lemma nrm_ext u v : (forall j, In j ix -> u j = v j) -> nrm u = nrm v.
Proof.
  intros H. apply Rle_antisym; (apply nrm_le; [apply nrm_pos|]); intros j Hj; [rewrite H|rewrite <- H]; auto; now apply nrm_ub.
Qed.
Lemma nrm_zero : nrm vzero = 0.
Proof. apply Rle_antisym; [|apply nrm_pos]. apply nrm_le; [lra|]. intros. unfold vzero. rewrite Rabs_R0. lra. Qed.
Lemma nrm_sub_tri u v w : nrm (u -v w) <= nrm (u -v v) + nrm (v -v w).
Proof.
  replace (u -v w) with ((u -v v) +v (v -v w)); [apply nrm_add|].
  extensionality j. unfold vsub, vadd. ring.
Qed.

(** ** Quadratic systems *)
Variables (A : V -> V) (B : V -> V -> V).
Hypothesis A_add : forall u v, A (u +v v) = A u +v A v.
Hypothesis A_scale : forall c u, A (c *v u) = c *v A u.
Hypothesis B_add_l : forall u v w, B (u +v v) w = B u w +v B v w.
Hypothesis B_add_r : forall u v w, B w (u +v v) = B w u +v B w v.
Hypothesis B_scale_l : forall c u w, B (c *v u) w = c *v B u w.
Hypothesis B_scale_r : forall c u w, B w (c *v u) = c *v B w u.
Definition F (y : V) : V := A y +v B y y.

Lemma A_zero : A vzero = vzero.
Proof. replace vzero with (0 *v vzero) at 1; [rewrite A_scale|]; extensionality j; unfold vscale, vzero; ring. Qed.
Lemma B_zero_l w : B vzero w = vzero.
Proof. replace vzero with (0 *v vzero) at 1; [rewrite B_scale_l|]; extensionality j; unfold vscale, vzero; ring. Qed.
Lemma B_zero_r w : B w vzero = vzero.
Proof. replace vzero with (0 *v vzero) at 1; [rewrite B_scale_r|]; extensionality j; unfold vscale, vzero; ring. Qed.

(** *** polynomials in t with coefficients in V *)
Fixpoint peval (p : list V) (t : R) : V :=
  match p with [] => vzero | a :: p' => a +v (t *v peval p' t) end.
Fixpoint padd (p q : list V) : list V :=
  match p, q with
  | [], _ => q
  | _, [] => p
  | a :: p', b :: q' => (a +v b) :: padd p' q'
  end.
Definition pscale (c : R) (p : list V) : list V := map (vscale c) p.
Definition pA (p : list V) : list V := map A p.
Fixpoint pB (p q : list V) : list V :=
  match p with [] => [] | a :: p' => padd (map (B a) q) (vzero :: pB p' q) end.
Definition pF (p : list V) : list V := padd (pA p) (pB p p).

Ltac vring := extensionality j; unfold vadd, vscale, vsub, vzero; try ring.
Lemma peval_add p q t : peval (padd p q) t = peval p t +v peval q t.
Proof.
  revert q. induction p as [|a p IH]; intros q; cbn; [vring|]. destruct q as [|b q]; cbn; [vring|]. rewrite IH. vring.
Qed.
Lemma peval_scale c p t : peval (pscale c p) t = c *v peval p t.
Proof. induction p as [|a p IH]; cbn; [vring|]. unfold pscale in IH. rewrite IH. vring. Qed.
Lemma peval_A p t : peval (pA p) t = A (peval p t).
Proof. induction p as [|a p IH]; cbn; [now rewrite A_zero|]. unfold pA in IH. now rewrite IH, A_add, A_scale. Qed.
Lemma peval_Br a q t : peval (map (B a) q) t = B a (peval q t).
Proof. induction q as [|b q IH]; cbn; [now rewrite B_zero_r|]. now rewrite IH, B_add_r, B_scale_r. Qed.
Lemma peval_B p q t : peval (pB p q) t = B (peval p t) (peval q t).
Proof.
  induction p as [|a p IH]; cbn [pB peval]; [now rewrite B_zero_l|].
  rewrite peval_add, peval_Br. cbn [peval]. rewrite IH, B_add_l, B_scale_l. vring.
Qed.
Lemma peval_F p t : peval (pF p) t = F (peval p t).
Proof. unfold pF, F. now rewrite peval_add, peval_A, peval_B. Qed.

(** *** Runge-Kutta *)
Definition vrk4 (dt : R) (y : V) : V :=
  let k1 := F y in
  let k2 := F (y +v (dt / 2) *v k1) in
  let k3 := F (y +v (dt / 2) *v k2) in
  let k4 := F (y +v dt *v k3) in
  y +v (dt / 6) *v (k1 +v 2 *v k2 +v 2 *v k3 +v k4).
Definition veuler (dt : R) (y : V) : V := y +v dt *v F y.

Definition q1 (y : V) : list V := pF [y].
Definition q2 (y : V) : list V := pF (y :: pscale (1 / 2) (q1 y)).
Definition q3 (y : V) : list V := pF (y :: pscale (1 / 2) (q2 y)).
Definition q4 (y : V) : list V := pF (y :: q3 y).
Definition qrk (y : V) : list V :=
  y :: pscale (1 / 6) (padd (padd (padd (q1 y) (pscale 2 (q2 y))) (pscale 2 (q3 y))) (q4 y)).

Lemma vrk4_poly y t : vrk4 t y = peval (qrk y) t.
Proof.
  assert (E1 : peval (q1 y) t = F y).
  { unfold q1. rewrite peval_F. f_equal. cbn. vring. }
  assert (E2 : peval (q2 y) t = F (y +v (t / 2) *v F y)).
  { unfold q2. rewrite peval_F. f_equal. cbn [peval]. rewrite peval_scale, E1. vring. unfold Rdiv. ring. }
  assert (E3 : peval (q3 y) t = F (y +v (t / 2) *v F (y +v (t / 2) *v F y))).
  { unfold q3. rewrite peval_F. f_equal. cbn [peval]. rewrite peval_scale, E2. vring. unfold Rdiv. ring. }
  assert (E4 : peval (q4 y) t = F (y +v t *v F (y +v (t / 2) *v F (y +v (t / 2) *v F y)))).
  { unfold q4. rewrite peval_F. f_equal. cbn [peval]. now rewrite E3. }
  unfold vrk4, qrk. cbn [peval]. rewrite peval_scale, !peval_add, !peval_scale, E1, E2, E3, E4.
  vring. unfold Rdiv. ring.
Qed.

(** the coefficients of the power series solution *)
Fixpoint vsum (n : nat) (f : nat -> V) : V :=
  match n with O => vzero | S k => vsum k f +v f k end.
Definition taylor (c : nat -> V) (y : V) : Prop :=
  c 0%nat = y /\
  forall k, (INR k + 1) *v c (S k) = A (c k) +v vsum (S k) (fun i => B (c i) (c (k - i)%nat)).

(** derivative of F at y *)
Definition Lin (y v : V) : V := A v +v B y v +v B v y.

Section T.
Variables (c : nat -> V) (y : V).
Hypothesis Hc : taylor c y.
Notation L := (Lin y).
Lemma c_1 : c 1%nat = F y.
Proof.
  destruct Hc as [H0 H]. specialize (H 0%nat). cbn [vsum INR Nat.sub] in H. rewrite H0 in H.
  extensionality j. apply (f_equal (fun v => v j)) in H. unfold F, vadd, vscale, vzero in *. lra.
Qed.
Lemma L_add u v : L (u +v v) = L u +v L v.
Proof. unfold Lin. rewrite A_add, B_add_l, B_add_r. vring. Qed.
Lemma L_scale a v : L (a *v v) = a *v L v.
Proof. unfold Lin. rewrite A_scale, B_scale_l, B_scale_r. vring. Qed.
Lemma c_2 : c 2%nat = (1 / 2) *v L (F y).
Proof.
  pose proof c_1 as E1. destruct Hc as [H0 H]. specialize (H 1%nat). cbn [vsum INR Nat.sub] in H. rewrite H0, E1 in H.
  extensionality j. apply (f_equal (fun v => v j)) in H. unfold Lin, vadd, vscale, vzero in *. lra.
Qed.
Lemma c_3 : c 3%nat = (1 / 6) *v L (L (F y)) +v (1 / 3) *v B (F y) (F y).
Proof.
  pose proof c_1 as E1. pose proof c_2 as E2. destruct Hc as [H0 H]. specialize (H 2%nat). cbn [vsum INR Nat.sub] in H.
  rewrite H0, E1, E2 in H.
  assert (K : (1 + 1 + 1) *v c 3%nat = (1 / 2) *v L (L (F y)) +v B (F y) (F y)).
  { rewrite H, <- (L_scale (1 / 2) (L (F y))). clear H. generalize ((1 / 2) *v L (F y)). generalize (F y). intros f u. unfold Lin. vring. }
  extensionality j. apply (f_equal (fun v => v j)) in K. unfold vadd, vscale in *. lra.
Qed.
Lemma c_4 : c 4%nat = (1 / 24) *v L (L (L (F y))) +v (1 / 12) *v L (B (F y) (F y))
  +v (1 / 8) *v (B (F y) (L (F y)) +v B (L (F y)) (F y)).
Proof.
  pose proof c_1 as E1. pose proof c_2 as E2. pose proof c_3 as E3. destruct Hc as [H0 H]. specialize (H 3%nat). cbn [vsum INR Nat.sub] in H.
  rewrite H0, E1, E2 in H.
  assert (K : (1 + 1 + 1 + 1) *v c 4%nat = L (c 3%nat) +v B (F y) ((1 / 2) *v L (F y)) +v B ((1 / 2) *v L (F y)) (F y)).
  { rewrite H. clear. generalize ((1 / 2) *v L (F y)) (F y) (c 3%nat). intros u f v. unfold Lin. vring. }
  rewrite E3, L_add, !L_scale, B_scale_l, B_scale_r in K.
  extensionality j. apply (f_equal (fun v => v j)) in K. unfold vadd, vscale in *. lra.
Qed.

Lemma F_exp v : F (y +v v) = F y +v L v +v B v v.
Proof. unfold F, Lin. rewrite A_add, B_add_l, !B_add_r. vring. Qed.

Lemma nth_padd k p q : nth k (padd p q) vzero = nth k p vzero +v nth k q vzero.
Proof.
  revert p q. induction k as [|k IH]; intros [|a p] [|b q]; cbn; try (vring; fail).
  apply IH.
Qed.
Lemma nth_pscale k a p : nth k (pscale a p) vzero = a *v nth k p vzero.
Proof. revert p. induction k as [|k IH]; intros [|b p]; cbn; try (vring; fail). apply IH. Qed.
Lemma nth_pA k p : nth k (pA p) vzero = A (nth k p vzero).
Proof. unfold pA. rewrite <- A_zero at 1. apply map_nth. Qed.
Lemma nth_pB_0 a p b q : nth 0 (pB (a :: p) (b :: q)) vzero = B a b.
Proof. cbn. vring. Qed.
Lemma nth_mapB k a q : nth k (map (B a) q) vzero = B a (nth k q vzero).
Proof. rewrite <- (B_zero_r a) at 1. apply map_nth. Qed.
Lemma nth_pB k p q : nth k (pB p q) vzero = vsum (S k) (fun i => B (nth i p vzero) (nth (k - i) q vzero)).
Proof.
  revert k. induction p as [|a p IH]; intros k; cbn [pB].
  - transitivity vzero; [now destruct k|]. symmetry.
    induction (S k) as [|m IHm]; cbn [vsum]; [reflexivity|]. rewrite IHm.
    replace (nth m [] vzero) with vzero by now destruct m. rewrite B_zero_l. vring.
  - rewrite nth_padd, nth_mapB.
    assert (S0 : forall m (f : nat -> V), vsum (S m) f = f 0%nat +v vsum m (fun i => f (S i))).
    { intros m f. induction m as [|m IHm]; [cbn; vring|]. rewrite <- (eq_refl : vsum (S m) f +v f (S m) = vsum (S (S m)) f), IHm. cbn [vsum]. vring. }
    rewrite S0. cbn [nth]. rewrite Nat.sub_0_r. f_equal. destruct k as [|k]; [reflexivity|]. cbn [nth]. rewrite IH. reflexivity.
Qed.
Lemma nth_pF k p : nth k (pF p) vzero = A (nth k p vzero) +v vsum (S k) (fun i => B (nth i p vzero) (nth (k - i) p vzero)).
Proof. unfold pF. now rewrite nth_padd, nth_pA, nth_pB. Qed.

Ltac ex := rewrite ?A_add, ?A_scale, ?B_add_l, ?B_add_r, ?B_scale_l, ?B_scale_r, ?L_add, ?L_scale.
Definition fy := F y.
Lemma q1_0 : nth 0 (q1 y) vzero = fy.
Proof. unfold q1. rewrite nth_pF. cbn [nth vsum Nat.sub]. unfold fy, F. vring. Qed.
Lemma q1_S k : nth (S k) (q1 y) vzero = vzero.
Proof. unfold q1, pF, pA. cbn. now destruct k. Qed.
Lemma coef_pF_1 p : nth 0 p vzero = y -> nth 1 (pF p) vzero = L (nth 1 p vzero).
Proof. intros H. rewrite nth_pF. cbn [vsum Nat.sub]. rewrite H. unfold Lin. vring. Qed.
Lemma coef_pF_0 p : nth 0 p vzero = y -> nth 0 (pF p) vzero = fy.
Proof. intros H. rewrite nth_pF. cbn [vsum Nat.sub]. rewrite H. unfold fy, F. vring. Qed.
Lemma coef_pF_2 p : nth 0 p vzero = y -> nth 2 (pF p) vzero = L (nth 2 p vzero) +v B (nth 1 p vzero) (nth 1 p vzero).
Proof. intros H. rewrite nth_pF. cbn [vsum Nat.sub]. rewrite H. unfold Lin. vring. Qed.
Lemma coef_pF_3 p : nth 0 p vzero = y -> nth 3 (pF p) vzero =
  L (nth 3 p vzero) +v B (nth 1 p vzero) (nth 2 p vzero) +v B (nth 2 p vzero) (nth 1 p vzero).
Proof. intros H. rewrite nth_pF. cbn [vsum Nat.sub]. rewrite H. unfold Lin. vring. Qed.

Lemma nth_cons_S (a : V) k p : nth (S k) (a :: p) vzero = nth k p vzero. Proof. reflexivity. Qed.
Lemma L_zero : L vzero = vzero.
Proof. unfold Lin. rewrite A_zero, B_zero_l, B_zero_r. vring. Qed.
Lemma vz_scale a : a *v vzero = vzero. Proof. vring. Qed.
Lemma vz_add u : vzero +v u = u. Proof. vring. Qed.
Lemma q2_0 : nth 0 (q2 y) vzero = fy. Proof. unfold q2. now rewrite coef_pF_0. Qed.
Lemma q2_1 : nth 1 (q2 y) vzero = (1 / 2) *v L fy.
Proof. unfold q2. rewrite coef_pF_1 by reflexivity. now rewrite nth_cons_S, nth_pscale, q1_0, L_scale. Qed.
Lemma q2_2 : nth 2 (q2 y) vzero = (1 / 4) *v B fy fy.
Proof.
  unfold q2. rewrite coef_pF_2 by reflexivity. rewrite !nth_cons_S, !nth_pscale, q1_0, q1_S, vz_scale, L_zero, vz_add.
  ex. vring. unfold Rdiv. field.
Qed.
Lemma q2_3 : nth 3 (q2 y) vzero = vzero.
Proof.
  unfold q2. rewrite coef_pF_3 by reflexivity. rewrite !nth_cons_S, !nth_pscale, q1_0, !q1_S, !vz_scale, L_zero, vz_add.
  rewrite B_zero_l, B_zero_r. vring.
Qed.
Lemma q3_0 : nth 0 (q3 y) vzero = fy. Proof. unfold q3. now rewrite coef_pF_0. Qed.
Lemma q3_1 : nth 1 (q3 y) vzero = (1 / 2) *v L fy.
Proof. unfold q3. rewrite coef_pF_1 by reflexivity. now rewrite nth_cons_S, nth_pscale, q2_0, L_scale. Qed.
Lemma q3_2 : nth 2 (q3 y) vzero = (1 / 4) *v L (L fy) +v (1 / 4) *v B fy fy.
Proof.
  unfold q3. rewrite coef_pF_2 by reflexivity. rewrite !nth_cons_S, !nth_pscale, q2_0, q2_1. ex. vring. field.
Qed.
Lemma q3_3 : nth 3 (q3 y) vzero = (1 / 8) *v L (B fy fy) +v (1 / 8) *v (B fy (L fy) +v B (L fy) fy).
Proof.
  unfold q3. rewrite coef_pF_3 by reflexivity. rewrite !nth_cons_S, !nth_pscale, q2_0, q2_1, q2_2. ex. vring. field.
Qed.
Lemma q4_0 : nth 0 (q4 y) vzero = fy. Proof. unfold q4. now rewrite coef_pF_0. Qed.
Lemma q4_1 : nth 1 (q4 y) vzero = L fy.
Proof. unfold q4. rewrite coef_pF_1 by reflexivity. now rewrite nth_cons_S, q3_0. Qed.
Lemma q4_2 : nth 2 (q4 y) vzero = (1 / 2) *v L (L fy) +v B fy fy.
Proof. unfold q4. rewrite coef_pF_2 by reflexivity. rewrite !nth_cons_S, q3_0, q3_1. ex. reflexivity. Qed.
Lemma q4_3 : nth 3 (q4 y) vzero = (1 / 4) *v L (L (L fy)) +v (1 / 4) *v L (B fy fy) +v (1 / 2) *v (B fy (L fy) +v B (L fy) fy).
Proof.
  unfold q4. rewrite coef_pF_3 by reflexivity. rewrite !nth_cons_S, q3_0, q3_1, q3_2. ex. vring.
Qed.

Lemma qrk_S k : nth (S k) (qrk y) vzero = (1 / 6) *v
  (nth k (q1 y) vzero +v 2 *v nth k (q2 y) vzero +v 2 *v nth k (q3 y) vzero +v nth k (q4 y) vzero).
Proof. unfold qrk. rewrite nth_cons_S, nth_pscale, !nth_padd, !nth_pscale. reflexivity. Qed.

Lemma qrk_taylor k : (k <= 4)%nat -> nth k (qrk y) vzero = c k.
Proof.
  intros Hk. destruct k as [|k]; [symmetry; apply Hc|]. rewrite qrk_S.
  destruct k as [|k]; [|destruct k as [|k]; [|destruct k as [|k]; [|destruct k as [|k]; [|lia]]]].
  - rewrite q1_0, q2_0, q3_0, q4_0, c_1. unfold fy. vring. field.
  - rewrite q1_S, q2_1, q3_1, q4_1, c_2. unfold fy. vring. field.
  - rewrite q1_S, q2_2, q3_2, q4_2, c_3. unfold fy. vring. field.
  - rewrite q1_S, q2_3, q3_3, q4_3, c_4. unfold fy. vring. field.
Qed.
End T.

(** linear systems: the degree-4 exponential polynomial *)
Fixpoint Apow (k : nat) (y : V) : V := match k with O => y | S k' => A (Apow k' y) end.
Lemma vrk4_linear y dt : (forall u v, B u v = vzero) ->
  vrk4 dt y = vsum 5 (fun k => (dt ^ k / INR (fact k)) *v Apow k y).
Proof.
  intros H. unfold vrk4, F. rewrite !H.
  assert (Z : forall u, u +v vzero = u) by (intros; vring). rewrite !Z.
  repeat rewrite ?A_add, ?A_scale. cbn [vsum Apow fact Nat.mul Nat.add INR pow]. vring. field.
Qed.

(** ** Orders *)
Variables (CA CB : R).
Hypothesis HCA : 0 <= CA.
Hypothesis HCB : 0 <= CB.
Hypothesis A_bd : forall u, nrm (A u) <= CA * nrm u.
Hypothesis B_bd : forall u v, nrm (B u v) <= CB * nrm u * nrm v.

Fixpoint psn (p : list V) : R := match p with [] => 0 | a :: p' => nrm a + psn p' end.
Lemma psn_pos p : 0 <= psn p.
Proof. induction p as [|a p IH]; cbn; [lra|]. pose proof (nrm_pos a). lra. Qed.
Lemma psn_eval p t : 0 <= t <= 1 -> nrm (peval p t) <= psn p.
Proof.
  intros Ht. induction p as [|a p IH]; cbn; [rewrite nrm_zero; lra|].
  eapply Rle_trans; [apply nrm_add|]. apply Rplus_le_compat_l.
  eapply Rle_trans; [apply nrm_scale|]. rewrite Rabs_pos_eq by lra. pose proof (nrm_pos (peval p t)). nra.
Qed.
Lemma psn_add p q : psn (padd p q) <= psn p + psn q.
Proof.
  revert q. induction p as [|a p IH]; intros q; cbn; [lra|]. destruct q as [|b q]; cbn; [lra|].
  pose proof (IH q). pose proof (nrm_add a b). lra.
Qed.
Lemma psn_scale a p : psn (pscale a p) <= Rabs a * psn p.
Proof. induction p as [|b p IH]; cbn; [lra|]. unfold pscale in IH. pose proof (nrm_scale a b). lra. Qed.
Lemma psn_A p : psn (pA p) <= CA * psn p.
Proof. induction p as [|b p IH]; cbn; [lra|]. unfold pA in IH. pose proof (A_bd b). lra. Qed.
Lemma psn_Br a q : psn (map (B a) q) <= CB * nrm a * psn q.
Proof. induction q as [|b q IH]; cbn; [lra|]. pose proof (B_bd a b). lra. Qed.
Lemma psn_B p q : psn (pB p q) <= CB * psn p * psn q.
Proof.
  induction p as [|a p IH]; cbn [pB psn]; [lra|]. eapply Rle_trans; [apply psn_add|]. cbn [psn]. rewrite nrm_zero.
  pose proof (psn_Br a q). lra.
Qed.
Lemma psn_F p K : psn p <= K -> psn (pF p) <= CA * K + CB * K * K.
Proof.
  intros H. unfold pF. eapply Rle_trans; [apply psn_add|]. pose proof (psn_A p). pose proof (psn_B p p). pose proof (psn_pos p).
  assert (CB * psn p * psn p <= CB * K * K) by (rewrite !Rmult_assoc; apply Rmult_le_compat_l; [assumption|nra]).
  nra.
Qed.
Lemma psn_skipn k p : psn (skipn k p) <= psn p.
Proof.
  revert p. induction k as [|k IH]; intros p; [cbn; lra|]. destruct p as [|a p]; cbn; [lra|].
  pose proof (IH p). pose proof (nrm_pos a). lra.
Qed.
Lemma peval_split k p t : peval p t = vsum k (fun i => (t ^ i) *v nth i p vzero) +v (t ^ k) *v peval (skipn k p) t.
Proof.
  revert p. induction k as [|k IH]; intros p; [cbn; vring|].
  rewrite (IH p). cbn [vsum]. 
  assert (E : peval (skipn k p) t = nth k p vzero +v t *v peval (skipn (S k) p) t).
  { clear IH. revert p. induction k as [|k IH]; intros p; destruct p as [|a p]; cbn [skipn nth peval]; try (vring; fail).
    apply IH. }
  rewrite E. cbn [pow]. vring.
Qed.

(** bounds on the rk4 polynomial, uniform on balls *)
Lemma q_bounds M : 0 <= M -> exists K, 0 <= K /\ forall y, nrm y <= M -> psn (qrk y) <= K.
Proof.
  intros HM. set (f := fun K => CA * K + CB * K * K).
  assert (Hf : forall K, 0 <= K -> 0 <= f K) by (intros; unfold f; apply Rplus_le_le_0_compat; repeat apply Rmult_le_pos; assumption).
  set (K1 := f M). set (K2 := f (M + K1)). set (K3 := f (M + K2)). set (K4 := f (M + K3)).
  assert (0 <= K1) by (apply Hf; lra). assert (0 <= K2) by (apply Hf; lra). assert (0 <= K3) by (apply Hf; lra). assert (0 <= K4) by (apply Hf; lra).
  exists (M + (K1 + 2 * K2 + 2 * K3 + K4)). split; [lra|]. intros y Hy.
  assert (B1 : psn (q1 y) <= K1). { apply psn_F. cbn. lra. }
  assert (Hh : forall p, psn (pscale (1 / 2) p) <= psn p).
  { intros p. eapply Rle_trans; [apply psn_scale|]. rewrite Rabs_pos_eq by lra. pose proof (psn_pos p). lra. }
  assert (B2 : psn (q2 y) <= K2). { apply psn_F. cbn [psn]. pose proof (Hh (q1 y)). lra. }
  assert (B3 : psn (q3 y) <= K3). { apply psn_F. cbn [psn]. pose proof (Hh (q2 y)). lra. }
  assert (B4 : psn (q4 y) <= K4). { apply psn_F. cbn [psn]. lra. }
  unfold qrk. cbn [psn].
  pose proof (psn_scale (1 / 6) (padd (padd (padd (q1 y) (pscale 2 (q2 y))) (pscale 2 (q3 y))) (q4 y))) as S6.
  rewrite Rabs_pos_eq in S6 by lra.
  pose proof (psn_add (padd (padd (q1 y) (pscale 2 (q2 y))) (pscale 2 (q3 y))) (q4 y)).
  pose proof (psn_add (padd (q1 y) (pscale 2 (q2 y))) (pscale 2 (q3 y))).
  pose proof (psn_add (q1 y) (pscale 2 (q2 y))).
  pose proof (psn_scale 2 (q2 y)) as S2. pose proof (psn_scale 2 (q3 y)) as S3. rewrite Rabs_pos_eq in S2, S3 by lra.
  pose proof (psn_pos (q1 y)). pose proof (psn_pos (q2 y)). pose proof (psn_pos (q3 y)). pose proof (psn_pos (q4 y)).
  lra.
Qed.

(** F on balls *)
Lemma F_bd R0 u : 0 <= R0 -> nrm u <= R0 -> nrm (F u) <= CA * R0 + CB * R0 * R0.
Proof.
  intros H0 Hu. unfold F. eapply Rle_trans; [apply nrm_add|]. pose proof (A_bd u). pose proof (B_bd u u). pose proof (nrm_pos u).
  assert (CB * nrm u * nrm u <= CB * R0 * R0) by (rewrite !Rmult_assoc; apply Rmult_le_compat_l; [assumption|nra]). nra.
Qed.
Lemma A_sub u v : A (u -v v) = A u -v A v.
Proof. replace (u -v v) with (u +v (-1) *v v) by vring. rewrite A_add, A_scale. vring. Qed.
Lemma F_lip R0 u v : nrm u <= R0 -> nrm v <= R0 -> nrm (F u -v F v) <= (CA + 2 * CB * R0) * nrm (u -v v).
Proof.
  intros Hu Hv. replace (F u -v F v) with (A (u -v v) +v (B u (u -v v) +v B (u -v v) v)).
  2:{ unfold F. replace (u -v v) with (u +v (-1) *v v) by vring. rewrite A_add, A_scale, B_add_l, B_add_r, B_scale_l, B_scale_r. vring. }
  eapply Rle_trans; [apply nrm_add|]. pose proof (nrm_add (B u (u -v v)) (B (u -v v) v)).
  pose proof (A_bd (u -v v)). pose proof (B_bd u (u -v v)). pose proof (B_bd (u -v v) v).
  pose proof (nrm_pos (u -v v)). pose proof (nrm_pos u). pose proof (nrm_pos v).
  assert (CB * nrm u * nrm (u -v v) <= CB * R0 * nrm (u -v v)) by (apply Rmult_le_compat_r; [assumption|nra]).
  assert (CB * nrm (u -v v) * nrm v <= CB * nrm (u -v v) * R0) by (apply Rmult_le_compat_l; [nra|assumption]).
  nra.
Qed.

(** ** Solutions *)
Definition solves (Y : R -> V) (T : R) : Prop :=
  forall t j, 0 <= t <= T -> In j ix -> derivable_pt_lim (fun s => Y s j) t (F (Y t) j).

Lemma mvt_bound (g g' : R -> R) T K k :
  0 <= K ->
  (forall t, 0 <= t <= T -> derivable_pt_lim g t (g' t)) -> g 0 = 0 ->
  (forall t, 0 <= t <= T -> Rabs (g' t) <= K * t ^ k) ->
  forall t, 0 <= t <= T -> Rabs (g t) <= K * t ^ S k.
Proof.
  intros HK Hd H0 Hb t Ht. destruct (Req_dec t 0) as [->|Hn].
  - rewrite H0, Rabs_R0, pow_i by lia. lra.
  - destruct (MVT_cor2 g g' 0 t) as (c & Ec & Hc); [lra|intros c Hc; apply Hd; lra|].
    rewrite H0 in Ec. replace (g t) with (g' c * t) by lra. rewrite Rabs_mult, (Rabs_pos_eq t) by lra.
    cbn [pow]. rewrite <- Rmult_assoc, (Rmult_comm (K * t)), <- Rmult_assoc. apply Rmult_le_compat_r; [lra|].
    eapply Rle_trans; [apply Hb; lra|]. rewrite (Rmult_comm (t ^ k)). apply Rmult_le_compat_l; [assumption|]. apply pow_incr. lra.
Qed.
Lemma bd_ext (g : R -> V) (G : R -> V) T :
  (forall t j, 0 <= t <= T -> In j ix -> derivable_pt_lim (fun s => g s j) t (G t j)) ->
  (forall j, In j ix -> g 0 j = 0) ->
  forall K k, 0 <= K -> (forall t, 0 <= t <= T -> nrm (G t) <= K * t ^ k) ->
  forall t, 0 <= t <= T -> nrm (g t) <= K * t ^ S k.
Proof.
  intros Hd H0 K k HK Hb t Ht. apply nrm_le; [apply Rmult_le_pos; [assumption|apply pow_le; lra]|].
  intros j Hj. apply (mvt_bound (fun s => g s j) (fun s => G s j) T); auto.
  intros s Hs. eapply Rle_trans; [now apply nrm_ub|auto].
Qed.

(** derivative of a polynomial *)
Fixpoint pder (p : list V) (t : R) : V :=
  match p with [] => vzero | a :: p' => peval p' t +v t *v pder p' t end.
Lemma peval_der p t j : derivable_pt_lim (fun s => peval p s j) t (pder p t j).
Proof.
  revert t. induction p as [|a p IH]; intros t; cbn.
  - apply derivable_pt_lim_const.
  - replace ((peval p t +v t *v pder p t) j) with (0 + (1 * peval p t j + t * pder p t j)) by (unfold vadd, vscale; ring).
    change (derivable_pt_lim (plus_fct (fct_cte (a j)) (mult_fct id (fun s => peval p s j))) t (0 + (1 * peval p t j + t * pder p t j))).
    apply derivable_pt_lim_plus; [apply derivable_pt_lim_const|].
    apply (derivable_pt_lim_mult id (fun s => peval p s j)); [apply derivable_pt_lim_id|apply IH].
Qed.

(** an approximate solution P (polynomial with defect O(t^m)) stays within
    O(t^(m+1)) of the exact one *)
Lemma defect M K Q m : 0 <= M -> 0 <= K -> 0 <= Q ->
  exists C, 0 <= C /\ forall Y P P' T, T <= 1 -> solves Y T ->
    (forall t, 0 <= t <= T -> nrm (Y t) <= M) ->
    (forall t, 0 <= t <= T -> nrm (P t) <= K) ->
    (forall t j, 0 <= t <= T -> In j ix -> derivable_pt_lim (fun s => P s j) t (P' t j)) ->
    (forall t, 0 <= t <= T -> nrm (P' t -v F (P t)) <= Q * t ^ m) ->
    (forall j, In j ix -> P 0 j = Y 0 j) ->
    forall t, 0 <= t <= T -> nrm (P t -v Y t) <= C * t ^ S m.
Proof.
  intros HM HK HQ. set (Lp := CA + 2 * CB * (M + K)).
  assert (HL : 0 <= Lp). { unfold Lp. apply Rplus_le_le_0_compat; [assumption|]. repeat apply Rmult_le_pos; lra. }
  assert (G : forall k, (k <= S m)%nat -> exists C, 0 <= C /\ forall Y P P' T, T <= 1 -> solves Y T ->
    (forall t, 0 <= t <= T -> nrm (Y t) <= M) ->
    (forall t, 0 <= t <= T -> nrm (P t) <= K) ->
    (forall t j, 0 <= t <= T -> In j ix -> derivable_pt_lim (fun s => P s j) t (P' t j)) ->
    (forall t, 0 <= t <= T -> nrm (P' t -v F (P t)) <= Q * t ^ m) ->
    (forall j, In j ix -> P 0 j = Y 0 j) ->
    forall t, 0 <= t <= T -> nrm (P t -v Y t) <= C * t ^ k).
  2:{ apply G. lia. }
  induction k as [|k IH]; intros Hk.
  - exists (M + K). split; [lra|]. intros Y P P' T HT HY HYb HPb HP HD H0 t Ht. cbn. rewrite Rmult_1_r.
    eapply Rle_trans; [apply nrm_sub|]. pose proof (HYb t Ht). pose proof (HPb t Ht). lra.
  - destruct IH as (C & HC & IH); [lia|]. exists (Lp * C + Q).
    split; [apply Rplus_le_le_0_compat; [apply Rmult_le_pos; assumption|assumption]|].
    intros Y P P' T HT HY HYb HPb HP HD H0.
    apply (bd_ext (fun t => P t -v Y t) (fun t => P' t -v F (Y t)) T).
    + intros t j Ht Hj. unfold vsub. apply (derivable_pt_lim_minus (fun s => P s j) (fun s => Y s j)); [now apply HP|now apply HY].
    + intros j Hj. unfold vsub. rewrite H0 by assumption. ring.
    + apply Rplus_le_le_0_compat; [apply Rmult_le_pos; assumption|assumption].
    + intros t Ht. eapply Rle_trans; [apply (nrm_sub_tri _ (F (P t)))|].
      pose proof (HD t Ht). pose proof (F_lip (M + K) (P t) (Y t)) as FL.
      pose proof (HYb t Ht). pose proof (HPb t Ht). specialize (FL ltac:(lra) ltac:(lra)). fold Lp in FL.
      pose proof (IH Y P P' T HT HY HYb HPb HP HD H0 t Ht) as B1.
      assert (t ^ m <= t ^ k).
      { replace m with (k + (m - k))%nat by lia. rewrite pow_add. rewrite <- (Rmult_1_r (t ^ k)) at 2.
        apply Rmult_le_compat_l; [apply pow_le; lra|]. rewrite <- (pow1 (m - k)). apply pow_incr. lra. }
      assert (0 <= t ^ k) by (apply pow_le; lra).
      assert (Lp * nrm (P t -v Y t) <= Lp * (C * t ^ k)) by (apply Rmult_le_compat_l; assumption).
      nra.
Qed.

(** *** local error of rk4 *)
Lemma rk4_local M : 0 <= M -> exists C, 0 <= C /\ forall Y T, T <= 1 -> solves Y T ->
  (forall t, 0 <= t <= T -> nrm (Y t) <= M) ->
  forall dt, 0 <= dt <= T -> nrm (vrk4 dt (Y 0) -v Y dt) <= C * dt ^ 5.
Proof.
  intros HM. destruct (q_bounds M HM) as (K & HK & Hq).
  set (Pf := fun y => firstn 5 (qrk y)).
  assert (HPf : forall p : list V, psn (firstn 5 p) <= psn p).
  { assert (G : forall k (p : list V), psn (firstn k p) <= psn p).
    { induction k as [|k IH]; intros p; cbn; [apply psn_pos|]. destruct p as [|a p]; cbn; [lra|]. pose proof (IH p). lra. }
    intros; apply G. }
  set (KF := CA * K + CB * K * K).
  assert (HKF : 0 <= KF) by (unfold KF; apply Rplus_le_le_0_compat; repeat apply Rmult_le_pos; assumption).
  destruct (defect M K KF 4 HM HK HKF) as (C & HC & HD).
  exists (C + K). split; [lra|]. intros Y T HT HY HYb dt Hdt.
  set (y := Y 0). assert (Hy : nrm y <= M) by (apply HYb; lra).
  pose proof (Hq y Hy) as Hqy.
  (* the truncated series *)
  set (c := fix c (k : nat) := match k with O => y | S k' => nth (S k') (qrk y) vzero end).
  assert (EP : forall t, peval (Pf y) t = vsum 5 (fun i => (t ^ i) *v nth i (qrk y) vzero)).
  { intros t. rewrite (peval_split 5 (Pf y) t).
    replace (skipn 5 (Pf y)) with (@nil V).
    - cbn [peval]. rewrite vz_scale.
      transitivity (vsum 5 (fun i => t ^ i *v nth i (Pf y) vzero)); [vring|].
      unfold Pf. reflexivity.
    - unfold Pf. reflexivity. }
  eapply Rle_trans; [apply (nrm_sub_tri _ (peval (Pf y) dt))|].
  assert (R1 : nrm (vrk4 dt y -v peval (Pf y) dt) <= K * dt ^ 5).
  { rewrite vrk4_poly, EP, (peval_split 5 (qrk y) dt).
    replace (_ -v _) with (dt ^ 5 *v peval (skipn 5 (qrk y)) dt) by vring.
    eapply Rle_trans; [apply nrm_scale|]. rewrite Rabs_pos_eq by (apply pow_le; lra). rewrite Rmult_comm.
    apply Rmult_le_compat_r; [apply pow_le; lra|]. eapply Rle_trans; [apply psn_eval; lra|].
    eapply Rle_trans; [apply psn_skipn|assumption]. }
  assert (R2 : nrm (peval (Pf y) dt -v Y dt) <= C * dt ^ 5).
  { apply (HD Y (fun t => peval (Pf y) t) (fun t => pder (Pf y) t) T); auto.
    - intros t Ht. eapply Rle_trans; [apply psn_eval; lra|]. eapply Rle_trans; [apply HPf|assumption].
    - intros t j _ _. apply peval_der.
    - intros t Ht. rewrite <- peval_F.
      replace (pder (Pf y) t -v peval (pF (Pf y)) t) with ((-1 * t ^ 4) *v peval (skipn 4 (pF (Pf y))) t).
      + eapply Rle_trans; [apply nrm_scale|].
        replace (Rabs (-1 * t ^ 4)) with (t ^ 4).
        2:{ rewrite Rabs_mult, (Rabs_pos_eq (t ^ 4)) by (apply pow_le; lra). replace (Rabs (-1)) with 1; [ring|]. rewrite Rabs_left; lra. }
        rewrite Rmult_comm. apply Rmult_le_compat_r; [apply pow_le; lra|].
        eapply Rle_trans; [apply psn_eval; lra|]. eapply Rle_trans; [apply psn_skipn|]. apply psn_F.
        eapply Rle_trans; [apply HPf|assumption].
      + rewrite (peval_split 4 (pF (Pf y)) t).
        assert (N0 : nth 0 (Pf y) vzero = y) by reflexivity.
        cbn [vsum]. rewrite (coef_pF_0 y _ N0), (coef_pF_1 y _ N0), (coef_pF_2 y _ N0), (coef_pF_3 y _ N0).
        pose proof (qrk_S y 0) as N1. pose proof (qrk_S y 1) as N2. pose proof (qrk_S y 2) as N3. pose proof (qrk_S y 3) as N4.
        rewrite q1_0, q2_0, q3_0, q4_0 in N1. rewrite q1_S, q2_1, q3_1, q4_1 in N2. rewrite q1_S, q2_2, q3_2, q4_2 in N3.
        rewrite q1_S, q2_3, q3_3, q4_3 in N4.
        assert (D : pder (Pf y) t = nth 1 (qrk y) vzero +v (2 * t) *v nth 2 (qrk y) vzero +v (3 * t ^ 2) *v nth 3 (qrk y) vzero +v (4 * t ^ 3) *v nth 4 (qrk y) vzero).
        { change (Pf y) with [nth 0 (qrk y) vzero; nth 1 (qrk y) vzero; nth 2 (qrk y) vzero; nth 3 (qrk y) vzero; nth 4 (qrk y) vzero].
          cbn [pder peval]. vring. }
        rewrite D.
        change (nth 1 (Pf y) vzero) with (nth 1 (qrk y) vzero). change (nth 2 (Pf y) vzero) with (nth 2 (qrk y) vzero).
        change (nth 3 (Pf y) vzero) with (nth 3 (qrk y) vzero).
        rewrite N1, N2, N3, N4. fold (fy y).
        repeat rewrite ?L_add, ?L_scale, ?B_add_l, ?B_add_r, ?B_scale_l, ?B_scale_r, ?vz_add.
        vring. field.
    - intros j _. cbn. unfold vadd, vscale. fold y. ring. }
  lra.
Qed.


(** *** local error of Euler *)
Lemma euler_local M : 0 <= M -> exists C, 0 <= C /\ forall Y T, T <= 1 -> solves Y T ->
  (forall t, 0 <= t <= T -> nrm (Y t) <= M) ->
  forall dt, 0 <= dt <= T -> nrm (veuler dt (Y 0) -v Y dt) <= C * dt ^ 2.
Proof.
  intros HM. set (KF := CA * M + CB * M * M).
  assert (HKF : 0 <= KF) by (unfold KF; apply Rplus_le_le_0_compat; repeat apply Rmult_le_pos; assumption).
  set (Q := (CA + 2 * CB * (M + KF)) * KF).
  assert (HQ : 0 <= Q) by (unfold Q; repeat (apply Rmult_le_pos || apply Rplus_le_le_0_compat); lra).
  destruct (defect M (M + KF) Q 1 HM ltac:(lra) HQ) as (C & HC & HD).
  exists C. split; [exact HC|]. intros Y T HT HY HYb dt Hdt. set (y := Y 0).
  assert (Hy : nrm y <= M) by (apply HYb; lra).
  pose proof (F_bd M y HM Hy) as HF. fold KF in HF.
  assert (Hp : forall t, 0 <= t <= T -> nrm (veuler t y) <= M + KF).
  { intros t Ht. unfold veuler. eapply Rle_trans; [apply nrm_add|]. pose proof (nrm_scale t (F y)) as S1.
    rewrite Rabs_pos_eq in S1 by lra. pose proof (nrm_pos (F y)). nra. }
  apply (HD Y (fun t => veuler t y) (fun _ => F y) T); auto.
  - intros t j _ _. unfold veuler, vadd, vscale.
    assert (D : derivable_pt_lim (plus_fct (fct_cte (y j)) (mult_fct id (fct_cte (F y j)))) t (0 + (1 * F y j + t * 0))).
    { apply derivable_pt_lim_plus; [apply derivable_pt_lim_const|].
      apply (derivable_pt_lim_mult id (fct_cte (F y j))); [apply derivable_pt_lim_id|apply derivable_pt_lim_const]. }
    replace (0 + (1 * F y j + t * 0)) with (F y j) in D by ring. exact D.
  - intros t Ht. pose proof (F_lip (M + KF) y (veuler t y) ltac:(lra) (Hp t Ht)) as FL.
    eapply Rle_trans; [exact FL|]. unfold Q. rewrite pow_1.
    replace (y -v veuler t y) with ((- t) *v F y) by (unfold veuler; vring).
    rewrite (Rmult_assoc (CA + 2 * CB * (M + KF))). apply Rmult_le_compat_l.
    + apply Rplus_le_le_0_compat; [assumption|]. repeat apply Rmult_le_pos; lra.
    + eapply Rle_trans; [apply nrm_scale|]. rewrite Rabs_Ropp, Rabs_pos_eq by lra.
      rewrite Rmult_comm. apply Rmult_le_compat_r; lra.
  - intros j _. unfold veuler, vadd, vscale. fold y. ring.
Qed.

(** *** stability of the two methods on balls *)
Definition BL (s : R -> V -> V) : Prop := forall R0, 0 <= R0 -> exists R1 Lm, 0 <= R1 /\ 0 <= Lm /\
  forall dt u v, 0 <= dt <= 1 -> nrm u <= R0 -> nrm v <= R0 ->
    nrm (s dt u) <= R1 /\ nrm (s dt u -v s dt v) <= Lm * nrm (u -v v).
Lemma BL_id : BL (fun _ u => u).
Proof. intros R0 H. exists R0, 1. split; [lra|]. split; [lra|]. intros. split; [assumption|lra]. Qed.
Lemma BL_add s r : BL s -> BL r -> BL (fun dt u => s dt u +v r dt u).
Proof.
  intros Hs Hr R0 H0. destruct (Hs R0 H0) as (R1 & L1 & A1 & A2 & A3), (Hr R0 H0) as (R2 & L2 & B1 & B2 & B3).
  exists (R1 + R2), (L1 + L2). split; [lra|]. split; [lra|]. intros dt u v Hd Hu Hv.
  destruct (A3 dt u v Hd Hu Hv), (B3 dt u v Hd Hu Hv). split.
  - eapply Rle_trans; [apply nrm_add|]. lra.
  - replace (_ -v _) with ((s dt u -v s dt v) +v (r dt u -v r dt v)) by vring.
    eapply Rle_trans; [apply nrm_add|]. lra.
Qed.
Lemma BL_scale (f : R -> R) K s : 0 <= K -> (forall dt, 0 <= dt <= 1 -> Rabs (f dt) <= K) -> BL s -> BL (fun dt u => f dt *v s dt u).
Proof.
  intros HK Hf Hs R0 H0. destruct (Hs R0 H0) as (R1 & L1 & A1 & A2 & A3).
  exists (K * R1), (K * L1). split; [apply Rmult_le_pos; lra|]. split; [apply Rmult_le_pos; lra|]. intros dt u v Hd Hu Hv.
  destruct (A3 dt u v Hd Hu Hv) as [P1 P2]. pose proof (Hf dt Hd). pose proof (Rabs_pos (f dt)). split.
  - eapply Rle_trans; [apply nrm_scale|]. apply Rmult_le_compat; auto using nrm_pos.
  - replace (_ -v _) with (f dt *v (s dt u -v s dt v)) by vring.
    eapply Rle_trans; [apply nrm_scale|]. rewrite Rmult_assoc. apply Rmult_le_compat; auto using nrm_pos.
Qed.
Lemma BL_F s : BL s -> BL (fun dt u => F (s dt u)).
Proof.
  intros Hs R0 H0. destruct (Hs R0 H0) as (R1 & L1 & A1 & A2 & A3).
  assert (K0 : 0 <= CA + 2 * CB * R1) by (apply Rplus_le_le_0_compat; [assumption|repeat apply Rmult_le_pos; lra]).
  exists (CA * R1 + CB * R1 * R1), ((CA + 2 * CB * R1) * L1).
  split; [apply Rplus_le_le_0_compat; repeat apply Rmult_le_pos; assumption|].
  split; [apply Rmult_le_pos; assumption|]. intros dt u v Hd Hu Hv.
  destruct (A3 dt u v Hd Hu Hv) as [P1 P2]. destruct (A3 dt v u Hd Hv Hu) as [P3 _]. split; [now apply F_bd|].
  eapply Rle_trans; [apply (F_lip R1); assumption|]. rewrite (Rmult_assoc (CA + 2 * CB * R1)). apply Rmult_le_compat_l; assumption.
Qed.
(** a method y + dt * s with bounded Lipschitz increment *)
Definition stable (Phi : R -> V -> V) : Prop := forall R0, 0 <= R0 -> exists Lm, 0 <= Lm /\
  forall dt u v, 0 <= dt <= 1 -> nrm u <= R0 -> nrm v <= R0 ->
    nrm (Phi dt u -v Phi dt v) <= (1 + Lm * dt) * nrm (u -v v).
Lemma stable_incr (Phi s : R -> V -> V) : (forall dt u, Phi dt u = u +v dt *v s dt u) -> BL s -> stable Phi.
Proof.
  intros HP Hs R0 H0. destruct (Hs R0 H0) as (R1 & L1 & A1 & A2 & A3). exists L1. split; [assumption|].
  intros dt u v Hd Hu Hv. destruct (A3 dt u v Hd Hu Hv) as [_ P2]. rewrite !HP.
  replace (_ -v _) with ((u -v v) +v dt *v (s dt u -v s dt v)) by vring.
  eapply Rle_trans; [apply nrm_add|]. pose proof (nrm_scale dt (s dt u -v s dt v)) as S1. rewrite Rabs_pos_eq in S1 by lra.
  pose proof (nrm_pos (u -v v)). assert (dt * nrm (s dt u -v s dt v) <= dt * (L1 * nrm (u -v v))) by (apply Rmult_le_compat_l; lra). lra.
Qed.
Lemma rk4_stable : stable vrk4.
Proof.
  set (k1 := fun (dt : R) u => F u). set (k2 := fun dt u => F (u +v (dt / 2) *v k1 dt u)).
  set (k3 := fun dt u => F (u +v (dt / 2) *v k2 dt u)). set (k4 := fun dt u => F (u +v dt *v k3 dt u)).
  apply (stable_incr vrk4 (fun dt u => (1 / 6) *v (k1 dt u +v 2 *v k2 dt u +v 2 *v k3 dt u +v k4 dt u))).
  { intros dt u. unfold vrk4, k4, k3, k2, k1. vring. unfold Rdiv. ring. }
  assert (H1 : BL k1) by (apply (BL_F (fun _ u => u)), BL_id).
  assert (Hh : forall dt, 0 <= dt <= 1 -> Rabs (dt / 2) <= 1) by (intros; rewrite Rabs_pos_eq; lra).
  assert (H2 : BL k2).
  { apply (BL_F (fun dt u => u +v (dt / 2) *v k1 dt u)), (BL_add (fun _ u => u)); [apply BL_id|].
    apply (BL_scale (fun dt => dt / 2) 1); [lra|exact Hh|exact H1]. }
  assert (H3 : BL k3).
  { apply (BL_F (fun dt u => u +v (dt / 2) *v k2 dt u)), (BL_add (fun _ u => u)); [apply BL_id|].
    apply (BL_scale (fun dt => dt / 2) 1); [lra|exact Hh|exact H2]. }
  assert (H4 : BL k4).
  { apply (BL_F (fun dt u => u +v dt *v k3 dt u)), (BL_add (fun _ u => u)); [apply BL_id|].
    apply (BL_scale (fun dt => dt) 1); [lra|intros; rewrite Rabs_pos_eq; lra|exact H3]. }
  assert (Hc : forall a, 0 <= a -> forall s, BL s -> BL (fun dt u => a *v s dt u)).
  { intros a Ha s Hs. apply (BL_scale (fun _ => a) a); [assumption| |assumption]. intros. rewrite Rabs_pos_eq; lra. }
  apply Hc; [lra|].
  apply (BL_add (fun dt u => k1 dt u +v 2 *v k2 dt u +v 2 *v k3 dt u)); [|exact H4].
  apply (BL_add (fun dt u => k1 dt u +v 2 *v k2 dt u) (fun dt u => 2 *v k3 dt u)); [|apply Hc; [lra|exact H3]].
  apply (BL_add k1); [exact H1|]. apply Hc; [lra|exact H2].
Qed.
Lemma euler_stable : stable veuler.
Proof.
  apply (stable_incr veuler (fun _ u => F u)); [reflexivity|]. apply (BL_F (fun _ u => u)), BL_id.
Qed.

(** *** solutions are bounded; time shift *)
Lemma solves_bounded Y T : 0 <= T -> solves Y T -> exists M, 0 <= M /\ forall t, 0 <= t <= T -> nrm (Y t) <= M.
Proof.
  intros HT HY. unfold solves in HY. unfold nrm. revert HY.
  cut (forall l, (forall j, In j l -> In j ix) -> (forall t j, 0 <= t <= T -> In j ix -> derivable_pt_lim (fun s => Y s j) t (F (Y t) j)) ->
    exists M, 0 <= M /\ forall t, 0 <= t <= T -> fold_right (fun j m => Rmax (Rabs (Y t j)) m) 0 l <= M).
  { intros G HY. apply (G ix); auto. }
  induction l as [|j l IH]; intros Hl HY.
  - exists 0. split; [lra|]. cbn. intros; lra.
  - destruct IH as (M & HM & IH); [intros; apply Hl; now right|assumption|].
    assert (Cn : forall c, 0 <= c <= T -> continuity_pt (fun s => Rabs (Y s j)) c).
    { intros c Hc. apply (continuity_pt_comp (fun s => Y s j) Rabs).
      - apply derivable_continuous_pt. exists (F (Y c) j). apply HY; [lra|]. apply Hl. now left.
      - apply Rcontinuity_abs. }
    destruct (continuity_ab_maj (fun s => Rabs (Y s j)) 0 T HT Cn) as (Mx & HMx & _).
    exists (Rmax (Rabs (Y Mx j)) M). split; [eapply Rle_trans; [exact HM|apply Rmax_r]|].
    intros t Ht. cbn. apply Rmax_lub.
    + eapply Rle_trans; [|apply Rmax_l]. now apply HMx.
    + eapply Rle_trans; [|apply Rmax_r]. now apply IH.
Qed.
Lemma solves_shift Y T t0 T' : 0 <= t0 -> t0 + T' <= T -> solves Y T -> solves (fun s => Y (t0 + s)) T'.
Proof.
  intros H0 H1 HY t j Ht Hj.
  replace (F (Y (t0 + t)) j) with (F (Y (t0 + t)) j * (0 + 1)) by ring.
  apply (derivable_pt_lim_comp (plus_fct (fct_cte t0) id) (fun s => Y s j)).
  - apply derivable_pt_lim_plus; [apply derivable_pt_lim_const|apply derivable_pt_lim_id].
  - unfold plus_fct, fct_cte, id. apply HY; [lra|assumption].
Qed.

(** *** global error *)
Fixpoint viter (f : V -> V) (k : nat) (y : V) : V := match k with O => y | S k' => viter f k' (f y) end.
Lemma viter_S f k y : viter f (S k) y = f (viter f k y).
Proof. revert y. induction k as [|k IH]; intros y; [reflexivity|]. cbn [viter] in *. now rewrite IH. Qed.
Lemma exp_pow x k : 0 <= x -> (1 + x) ^ k <= exp (INR k * x).
Proof.
  intros Hx. induction k as [|k IH]; [cbn; rewrite Rmult_0_l, exp_0; lra|].
  cbn [pow]. rewrite S_INR. replace ((INR k + 1) * x) with (x + INR k * x) by ring. rewrite exp_plus.
  apply Rmult_le_compat; [lra|apply pow_le; lra| |exact IH]. apply exp_ineq1_le.
Qed.

Definition local_order (q : nat) (Phi : R -> V -> V) : Prop :=
  forall M, 0 <= M -> exists C, 0 <= C /\ forall Y T, T <= 1 -> solves Y T ->
    (forall t, 0 <= t <= T -> nrm (Y t) <= M) ->
    forall dt, 0 <= dt <= T -> nrm (Phi dt (Y 0) -v Y dt) <= C * dt ^ S q.

Lemma global_order q Phi : (1 <= q)%nat -> local_order q Phi -> stable Phi ->
  forall Y T, 0 <= T -> solves Y T ->
  exists C h0, 0 <= C /\ 0 < h0 /\ forall dt k, 0 < dt <= h0 -> INR k * dt <= T ->
    nrm (viter (Phi dt) k (Y 0) -v Y (INR k * dt)) <= C * dt ^ q.
Proof.
  intros Hq Hloc Hst Y T HT HY. destruct (solves_bounded Y T HT HY) as (M & HM & HYb).
  destruct (Hloc M HM) as (C & HC & HL). destruct (Hst (M + 1) ltac:(lra)) as (Lm & HLm & HS).
  set (G := C * T * exp (Lm * T)).
  assert (HG : 0 <= G) by (unfold G; repeat apply Rmult_le_pos; try assumption; left; apply exp_pos).
  exists G, (Rmin 1 (/ (G + 1))). split; [exact HG|].
  assert (Hinv : 0 < / (G + 1)) by (apply Rinv_0_lt_compat; lra).
  split; [apply Rmin_glb_lt; lra|].
  intros dt k Hdt. 
  assert (Hd1 : dt <= 1) by (eapply Rle_trans; [apply Hdt|apply Rmin_l]).
  assert (Hd2 : dt <= / (G + 1)) by (eapply Rle_trans; [apply Hdt|apply Rmin_r]).
  assert (Hpq : dt ^ q <= dt).
  { destruct q as [|q]; [lia|]. cbn [pow]. rewrite <- (Rmult_1_r dt) at 3. apply Rmult_le_compat_l; [lra|].
    rewrite <- (pow1 q). apply pow_incr. lra. }
  assert (HG1 : G * dt ^ q <= 1).
  { apply Rle_trans with (G * dt); [apply Rmult_le_compat_l; assumption|].
    apply Rle_trans with ((G + 1) * / (G + 1)); [|rewrite Rinv_r by lra; lra].
    apply Rmult_le_compat; lra. }
  set (E := fun k => C * dt ^ S q * (INR k * (1 + Lm * dt) ^ k)).
  assert (HE : forall k, INR k * dt <= T -> E k <= G * dt ^ q).
  { intros m Hm. unfold E, G. cbn [pow].
    replace (C * (dt * dt ^ q) * (INR m * (1 + Lm * dt) ^ m)) with (C * dt ^ q * ((INR m * dt) * (1 + Lm * dt) ^ m)) by ring.
    replace (C * T * exp (Lm * T) * dt ^ q) with (C * dt ^ q * (T * exp (Lm * T))) by ring.
    apply Rmult_le_compat_l; [apply Rmult_le_pos; [assumption|apply pow_le; lra]|].
    assert (0 <= Lm * dt) by (apply Rmult_le_pos; lra).
    apply Rmult_le_compat; [apply Rmult_le_pos; [apply pos_INR|lra]|apply pow_le; lra|exact Hm|].
    eapply Rle_trans; [apply exp_pow; assumption|].
    assert (INR m * (Lm * dt) <= Lm * T).
    { replace (INR m * (Lm * dt)) with (Lm * (INR m * dt)) by ring. apply Rmult_le_compat_l; assumption. }
    destruct (Rle_lt_or_eq_dec _ _ H0) as [Hlt|Heq]; [left; now apply exp_increasing|rewrite Heq; lra]. }
  intros Hk. apply Rle_trans with (E k); [|now apply HE]. revert Hk.
  induction k as [|k IH]; intros Hk.
  - cbn [viter INR]. rewrite Rmult_0_l. unfold E. cbn [INR]. rewrite Rmult_0_l, Rmult_0_r.
    apply nrm_le; [lra|]. intros j _. unfold vsub. rewrite Rminus_diag_eq, Rabs_R0 by reflexivity. lra.
  - rewrite viter_S. rewrite S_INR in Hk.
    assert (Hk' : INR k * dt <= T) by lra. assert (Hk0 : 0 <= INR k * dt) by (apply Rmult_le_pos; [apply pos_INR|lra]).
    specialize (IH Hk'). pose proof (HE k Hk') as HEk.
    set (u := viter (Phi dt) k (Y 0)) in *. set (v := Y (INR k * dt)) in *.
    assert (Hv : nrm v <= M) by (apply HYb; lra).
    assert (Hu : nrm u <= M + 1).
    { replace u with ((u -v v) +v v) by vring. eapply Rle_trans; [apply nrm_add|]. lra. }
    eapply Rle_trans; [apply (nrm_sub_tri _ (Phi dt v))|].
    pose proof (HS dt u v ltac:(lra) Hu ltac:(lra)) as S1.
    pose proof (HL (fun s => Y (INR k * dt + s)) dt Hd1) as L1.
    specialize (L1 (solves_shift Y T (INR k * dt) dt Hk0 ltac:(lra) HY)).
    specialize (L1 ltac:(intros t Ht; apply HYb; lra) dt ltac:(lra)). cbv beta in L1.
    rewrite Rplus_0_r in L1. fold v in L1. replace (INR k * dt + dt) with (INR (S k) * dt) in L1 by (rewrite S_INR; ring).
    assert (0 <= Lm * dt) by (apply Rmult_le_pos; lra).
    assert (0 <= C * dt ^ S q) by (apply Rmult_le_pos; [assumption|apply pow_le; lra]).
    apply Rle_trans with ((1 + Lm * dt) * E k + C * dt ^ S q).
    { apply Rplus_le_compat; [|exact L1]. eapply Rle_trans; [exact S1|]. apply Rmult_le_compat_l; [lra|exact IH]. }
    unfold E. rewrite S_INR. 
    assert (P1 : 1 <= (1 + Lm * dt) ^ S k) by (apply pow_R1_Rle; lra).
    replace ((1 + Lm * dt) * (C * dt ^ S q * (INR k * (1 + Lm * dt) ^ k)) + C * dt ^ S q)
      with (C * dt ^ S q * (INR k * (1 + Lm * dt) ^ S k + 1)) by (cbn [pow]; ring).
    apply Rmult_le_compat_l; [assumption|]. lra.
Qed.

Lemma rk4_global Y T : 0 <= T -> solves Y T ->
  exists C h0, 0 <= C /\ 0 < h0 /\ forall dt k, 0 < dt <= h0 -> INR k * dt <= T ->
    nrm (viter (vrk4 dt) k (Y 0) -v Y (INR k * dt)) <= C * dt ^ 4.
Proof. apply (global_order 4); [lia|exact rk4_local|exact rk4_stable]. Qed.
Lemma euler_global Y T : 0 <= T -> solves Y T ->
  exists C h0, 0 <= C /\ 0 < h0 /\ forall dt k, 0 < dt <= h0 -> INR k * dt <= T ->
    nrm (viter (veuler dt) k (Y 0) -v Y (INR k * dt)) <= C * dt ^ 1.
Proof. apply (global_order 1); [lia|exact euler_local|exact euler_stable]. Qed.
End Ode.
