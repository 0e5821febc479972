(** Accuracy of the grid's stencils on sampled smooth fields. *)
From Coq Require Import List Arith ZArith Lia Bool Reals Lra Psatz.
From Verif Require Import Num NdArray NdFacts Spec GradFacts SumFacts LapFacts GradProps SpecHW SpecPlasma HWFacts RhsFacts SpecSmooth SmoothFacts.
Import ListNotations.
Local Open Scope R_scope.

(** ** sampling a periodic field *)
Lemma periodic_Z L (u : R -> R) : (forall x, u (x + L) = u x) -> forall (q : Z) x, u (x + IZR q * L) = u x.
Proof.
  intros H.
  assert (P : forall n x, u (x + INR n * L) = u x).
  { induction n as [|n IH]; intros x; [cbn; f_equal; ring|]. rewrite S_INR.
    replace (x + (INR n + 1) * L) with ((x + INR n * L) + L) by ring. now rewrite H. }
  intros q x. destruct (Z_le_gt_dec 0 q).
  - rewrite <- (Z2Nat.id q), <- INR_IZR_INZ by lia. apply P.
  - rewrite <- (P (Z.to_nat (- q)) (x + IZR q * L)). f_equal.
    rewrite INR_IZR_INZ, Z2Nat.id, opp_IZR by lia. ring.
Qed.
Lemma sh_coord n i k : (0 < n)%nat -> exists q : Z, INR (sh n i k) = INR i + IZR k + IZR q * INR n.
Proof.
  intros H. exists (- ((Z.of_nat i + k) / Z.of_nat n))%Z. unfold sh. rewrite INR_IZR_INZ, pidx_mod by assumption.
  rewrite Zmod_eq_full by lia. rewrite minus_IZR, mult_IZR, plus_IZR, opp_IZR, !INR_IZR_INZ. ring.
Qed.

Section S.
Variables (ny nx : nat) (h : R).
Hypothesis Hy : (0 < ny)%nat.
Hypothesis Hx : (0 < nx)%nat.
Hypothesis Hh : 0 < h.
Local Notation per := (periodic (INR ny * h) (INR nx * h)).
Local Notation agree := (agree ny nx).
Implicit Types u v w : pfield.

Lemma sample_y u i k x : per u -> u (INR (sh ny i k) * h) x = u (INR i * h + IZR k * h) x.
Proof.
  intros P. destruct (sh_coord ny i k Hy) as [q E]. rewrite E.
  replace ((INR i + IZR k + IZR q * INR ny) * h) with ((INR i * h + IZR k * h) + IZR q * (INR ny * h)) by ring.
  apply (periodic_Z (INR ny * h) (fun t => u t x)). intros t. apply (P t x).
Qed.
Lemma sample_x u j k y : per u -> u y (INR (sh nx j k) * h) = u y (INR j * h + IZR k * h).
Proof.
  intros P. destruct (sh_coord nx j k Hx) as [q E]. rewrite E.
  replace ((INR j + IZR k + IZR q * INR nx) * h) with ((INR j * h + IZR k * h) + IZR q * (INR nx * h)) by ring.
  apply (periodic_Z (INR nx * h) (u y)). intros t. apply (P y t).
Qed.
Lemma sample_sh u i j a b : per u ->
  sample h u (sh ny i a) (sh nx j b) = u (INR i * h + IZR a * h) (INR j * h + IZR b * h).
Proof. intros P. unfold sample. now rewrite sample_y, sample_x. Qed.

(** ** gradients *)
Lemma cdy_smooth M u D i j : smooth 3 M u D -> per u ->
  Rabs (cdy ny h (sample h u) i j - D 1%nat 0%nat (INR i * h) (INR j * h)) <= M * h ^ 2 / 6.
Proof.
  intros (E & Dx & Dy & B) P. unfold cdy, sample. rewrite !sample_y by assumption.
  pose proof (central1 (fun k t => D k 0%nat t (INR j * h)) M h Hh (fun k x Hk => Dy k 0%nat x _ ltac:(lia)) (fun x => B 3%nat 0%nat x _ ltac:(lia)) (INR i * h)) as C.
  cbn beta in C. rewrite !E in C. cbn [ndiv nsub nmul nofZ NumR].
  replace (INR i * h + 1 * h) with (INR i * h + h) by ring. replace (INR i * h + -1 * h) with (INR i * h - h) by ring. exact C.
Qed.
Lemma cdx_smooth M u D i j : smooth 3 M u D -> per u ->
  Rabs (cdx nx h (sample h u) i j - D 0%nat 1%nat (INR i * h) (INR j * h)) <= M * h ^ 2 / 6.
Proof.
  intros (E & Dx & Dy & B) P. unfold cdx, sample. rewrite !sample_x by assumption.
  pose proof (central1 (fun k t => D 0%nat k (INR i * h) t) M h Hh (fun k x Hk => Dx 0%nat k _ x ltac:(lia)) (fun x => B 0%nat 3%nat _ x ltac:(lia)) (INR j * h)) as C.
  cbn beta in C. rewrite !E in C. cbn [ndiv nsub nmul nofZ NumR].
  replace (INR j * h + 1 * h) with (INR j * h + h) by ring. replace (INR j * h + -1 * h) with (INR j * h - h) by ring. exact C.
Qed.

(** ** the five-point Laplacian as an operator on continuous fields *)
Definition Lh u : pfield := fun y x => (u (y + h) x - 2 * u y x + u (y - h) x) / h ^ 2 + (u y (x + h) - 2 * u y x + u y (x - h)) / h ^ 2.
Fixpoint Lhi (m : nat) u : pfield := match m with O => u | S m' => Lh (Lhi m' u) end.

Lemma per_Lh u : per u -> per (Lh u).
Proof.
  intros P y x. unfold Lh. split.
  - replace (y + INR ny * h + h) with (y + h + INR ny * h) by ring. replace (y + INR ny * h - h) with (y - h + INR ny * h) by ring.
    now rewrite !(proj1 (P _ _)).
  - replace (x + INR nx * h + h) with (x + h + INR nx * h) by ring. replace (x + INR nx * h - h) with (x - h + INR nx * h) by ring.
    now rewrite !(proj2 (P _ _)).
Qed.
Lemma per_Lhi m u : per u -> per (Lhi m u).
Proof. intros P. induction m; [exact P|]. now apply per_Lh. Qed.
Lemma lap5_sample u : per u -> agree (lap5 ny nx h (sample h u)) (sample h (Lh u)).
Proof.
  intros P i j Hi Hj. unfold lap5.
  unfold sample, Lh. rewrite !sample_y, !sample_x by assumption.
  cbn [ndiv nsub nmul nadd nofZ npow NumR].
  replace (INR i * h + 1 * h) with (INR i * h + h) by ring. replace (INR i * h + -1 * h) with (INR i * h - h) by ring.
  replace (INR j * h + 1 * h) with (INR j * h + h) by ring. replace (INR j * h + -1 * h) with (INR j * h - h) by ring.
  field. lra.
Qed.
Lemma lap_iter_sample m u : per u -> agree (lap_iter m ny nx h (sample h u)) (sample h (Lhi m u)).
Proof.
  intros P. induction m as [|m IH]; intros i j Hi Hj; [reflexivity|]. cbn [lap_iter Lhi].
  rewrite <- (lap5_sample (Lhi m u) (per_Lhi m u P) i j Hi Hj). now apply lap5_ext.
Qed.
End S.

(** ** families of derivatives under the Laplacians *)
Section F.
Variable h : R.
Hypothesis Hh : 0 < h.
Implicit Types u v w : pfield.
Implicit Types D : nat -> nat -> pfield.
Local Notation Lh := (Lh h).
Local Notation Lhi := (Lhi h).

Lemma Lh_dx D a b y x k : (a + b < k)%nat ->
  (forall a b y x, (a + b < k)%nat -> derivable_pt_lim (fun s => D a b y s) x (D a (S b) y x)) ->
  derivable_pt_lim (fun s => Lh (D a b) y s) x (Lh (D a (S b)) y x).
Proof.
  intros Hk H. unfold SmoothStencil.Lh.
  apply (dpl_ext (fun s => / h ^ 2 * ((D a b (y + h) s - 2 * D a b y s + D a b (y - h) s) + (D a b y (s + h) - 2 * D a b y s + D a b y (s + - h)))));
    [intros s; replace (s + - h) with (s - h) by ring; field; lra|].
  eapply dpl_eq.
  - apply dpl_scal. apply dpl_plus; apply dpl_plus; try apply dpl_minus; try apply dpl_scal; try (now apply H).
    + apply dpl_shiftr. now apply H.
    + apply dpl_shiftr. now apply H.
  - replace (x + - h) with (x - h) by ring. field. lra.
Qed.
Lemma Lh_dy D a b y x k : (a + b < k)%nat ->
  (forall a b y x, (a + b < k)%nat -> derivable_pt_lim (fun s => D a b s x) y (D (S a) b y x)) ->
  derivable_pt_lim (fun s => Lh (D a b) s x) y (Lh (D (S a) b) y x).
Proof.
  intros Hk H. unfold SmoothStencil.Lh.
  apply (dpl_ext (fun s => / h ^ 2 * ((D a b (s + h) x - 2 * D a b s x + D a b (s + - h) x) + (D a b s (x + h) - 2 * D a b s x + D a b s (x - h)))));
    [intros s; replace (s + - h) with (s - h) by ring; field; lra|].
  eapply dpl_eq.
  - apply dpl_scal. apply dpl_plus; apply dpl_plus; try apply dpl_minus; try apply dpl_scal; try (now apply H).
    + apply (dpl_shiftr (fun t => D a b t x)). now apply H.
    + apply (dpl_shiftr (fun t => D a b t x)). now apply H.
  - replace (y + - h) with (y - h) by ring. field. lra.
Qed.
Lemma Lh_bd k M u D a b y x : smooth k M u D -> (2 + (a + b) <= k)%nat -> Rabs (Lh (D a b) y x) <= 2 * M.
Proof.
  intros (E & Dx & Dy & B) Hk. unfold SmoothStencil.Lh. replace (2 * M) with (M + M) by ring. apply abs_add.
  - apply (central2_bd (fun k t => D (k + a)%nat b t x) M h Hh); [intros l t Hl; apply Dy; lia|intros t; apply B; lia].
  - apply (central2_bd (fun k t => D a (k + b)%nat y t) M h Hh); [intros l t Hl; apply Dx; lia|intros t; apply B; lia].
Qed.
Lemma Lh_err k M u D a b y x : smooth k M u D -> (4 + (a + b) <= k)%nat ->
  Rabs (Lh (D a b) y x - dlap D a b y x) <= M * h ^ 2 / 6.
Proof.
  intros (E & Dx & Dy & B) Hk. unfold SmoothStencil.Lh, dlap.
  match goal with |- Rabs (?p + ?q - (?r + ?s)) <= _ => replace (p + q - (r + s)) with ((p - r) + (q - s)) by ring end.
  replace (M * h ^ 2 / 6) with (M * h ^ 2 / 12 + M * h ^ 2 / 12) by field. apply abs_add.
  - apply (central2 (fun k t => D (k + a)%nat b t x) M h Hh); [intros l t Hl; apply Dy; lia|intros t; apply B; lia].
  - apply (central2 (fun k t => D a (k + b)%nat y t) M h Hh); [intros l t Hl; apply Dx; lia|intros t; apply B; lia].
Qed.
Lemma smooth_Lh k M u D : smooth (2 + k) M u D -> smooth k (2 * M) (Lh u) (fun a b => Lh (D a b)).
Proof.
  intros H. pose proof H as (E & Dx & Dy & B). split; [|split; [|split]].
  - intros y x. unfold SmoothStencil.Lh. now rewrite !E.
  - intros a b y x Hk. apply (Lh_dx D a b y x (2 + k)); [lia|exact Dx].
  - intros a b y x Hk. apply (Lh_dy D a b y x (2 + k)); [lia|]. intros. now apply Dy.
  - intros a b y x Hk. apply (Lh_bd _ _ _ _ _ _ _ _ H). lia.
Qed.
Lemma smooth_dlap k M u D : smooth (2 + k) M u D -> smooth k (2 * M) (dlap D 0%nat 0%nat) (dlap D).
Proof.
  intros (E & Dx & Dy & B). split; [reflexivity|]. split; [|split].
  - intros a b y x Hk. unfold dlap. apply dpl_plus; apply Dx; lia.
  - intros a b y x Hk. unfold dlap. apply dpl_plus.
    + apply (Dy (2 + a)%nat b). lia.
    + apply (Dy a (2 + b)%nat). lia.
  - intros a b y x Hk. unfold dlap. replace (2 * M) with (M + M) by ring. apply abs_add; apply B; lia.
Qed.
Lemma smooth_err k M u D : smooth (4 + k) M u D ->
  smooth k (M * h ^ 2 / 6) (fun y x => Lh u y x - dlap D 0%nat 0%nat y x) (fun a b y x => Lh (D a b) y x - dlap D a b y x).
Proof.
  intros H. pose proof H as (E & Dx & Dy & B). split; [|split; [|split]].
  - intros y x. unfold SmoothStencil.Lh. now rewrite !E.
  - intros a b y x Hk. apply dpl_minus.
    + apply (Lh_dx D a b y x (4 + k)); [lia|exact Dx].
    + unfold dlap. apply dpl_plus; apply Dx; lia.
  - intros a b y x Hk. apply dpl_minus.
    + apply (Lh_dy D a b y x (4 + k)); [lia|]. intros. now apply Dy.
    + unfold dlap. apply dpl_plus.
      * apply (Dy (2 + a)%nat b). lia.
      * apply (Dy a (2 + b)%nat). lia.
  - intros a b y x Hk. apply (Lh_err _ _ _ _ _ _ _ _ H). lia.
Qed.
Lemma Lhi_S_r m u y x : Lhi (S m) u y x = Lhi m (Lh u) y x.
Proof.
  revert y x. induction m as [|m IH]; intros y x; [reflexivity|].
  change (Lhi (S (S m)) u y x) with (Lh (Lhi (S m) u) y x). change (Lhi (S m) (Lh u) y x) with (Lh (Lhi m (Lh u)) y x).
  unfold SmoothStencil.Lh at 1 2. now rewrite !IH.
Qed.
Lemma Lhi_sub m u v y x : Lhi m (fun y x => u y x - v y x) y x = Lhi m u y x - Lhi m v y x.
Proof.
  revert y x. induction m as [|m IH]; intros y x; [reflexivity|]. cbn [SmoothStencil.Lhi]. unfold SmoothStencil.Lh. rewrite !IH. field. lra.
Qed.
Lemma Lhi_bd m : forall M u D, smooth (2 * m) M u D -> forall y x, Rabs (Lhi m u y x) <= 2 ^ m * M.
Proof.
  induction m as [|m IH]; intros M u D H y x.
  - destruct H as (E & _ & _ & B). cbn [SmoothStencil.Lhi pow]. rewrite <- E, Rmult_1_l. apply B. lia.
  - rewrite Lhi_S_r. replace (2 * S m)%nat with (2 + 2 * m)%nat in H by lia.
    replace (2 ^ S m * M) with (2 ^ m * (2 * M)) by (cbn; ring). exact (IH _ _ _ (smooth_Lh _ _ _ _ H) y x).
Qed.
Lemma dlap_ext D D' : (forall a b y x, D a b y x = D' a b y x) -> forall a b y x, dlap D a b y x = dlap D' a b y x.
Proof. intros H a b y x. unfold dlap. now rewrite !H. Qed.
Lemma dlap_iter_S_r m D a b y x : dlap_iter (S m) D a b y x = dlap_iter m (dlap D) a b y x.
Proof. revert a b y x. induction m as [|m IH]; intros; [reflexivity|]. cbn [dlap_iter] in *. apply dlap_ext. exact IH. Qed.
Lemma Lhi_err m : forall M u D, smooth (2 + 2 * m) M u D -> forall y x,
  Rabs (Lhi m u y x - dlap_iter m D 0%nat 0%nat y x) <= INR m * 2 ^ m / 12 * M * h ^ 2.
Proof.
  induction m as [|m IH]; intros M u D H y x.
  - destruct H as (E & _). cbn [SmoothStencil.Lhi dlap_iter INR pow]. rewrite E. rewrite Rminus_diag_eq, Rabs_R0 by reflexivity. lra.
  - rewrite Lhi_S_r, dlap_iter_S_r.
    replace (2 + 2 * S m)%nat with (4 + 2 * m)%nat in H by lia.
    pose proof (Lhi_bd m _ _ _ (smooth_err _ _ _ _ H) y x) as P. rewrite Lhi_sub in P.
    replace (4 + 2 * m)%nat with (2 + (2 + 2 * m))%nat in H by lia.
    pose proof (IH _ _ _ (smooth_dlap _ _ _ _ H) y x) as Q.
    pose proof (abs_add _ _ _ _ P Q) as T.
    match goal with |- Rabs ?a <= _ => match type of T with Rabs ?b <= _ => replace a with b by ring end end.
    eapply Rle_trans; [exact T|]. apply Req_le. rewrite S_INR. cbn [pow]. field.
Qed.
End F.

Section T.
Variables (ny nx : nat) (h : R).
Hypothesis Hy : (0 < ny)%nat.
Hypothesis Hx : (0 < nx)%nat.
Hypothesis Hh : 0 < h.
Lemma lap_smooth m M u D i j : smooth (2 + 2 * m) M u D -> periodic (INR ny * h) (INR nx * h) u -> (i < ny)%nat -> (j < nx)%nat ->
  Rabs (lap_iter m ny nx h (sample h u) i j - dlap_iter m D 0%nat 0%nat (INR i * h) (INR j * h)) <= INR m * 2 ^ m / 12 * M * h ^ 2.
Proof.
  intros H P Hi Hj. rewrite (lap_iter_sample ny nx h Hy Hx Hh m u P i j Hi Hj). apply (Lhi_err h Hh m M u D H).
Qed.
End T.
