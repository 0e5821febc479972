(** Second-order accuracy of Arakawa's bracket and of the average over y, and
    the right-hand side as a whole. *)
From Coq Require Import List Arith ZArith Lia Bool Reals Lra Psatz.
From Verif Require Import Num NdArray NdFacts Spec GradFacts SumFacts LapFacts GradProps SpecHW SpecPlasma HWFacts RhsFacts SpecSmooth SmoothFacts SmoothStencil.
Import ListNotations.
Local Open Scope R_scope.

(** ** Taylor expansion in both variables *)
Section T2.
Variables (M : R) (D : nat -> nat -> pfield).
Lemma taylor2d1 u y x t s : smooth 1 M u D -> Rabs (u (y + t) (x + s) - u y x) <= M * (Rabs t + Rabs s).
Proof.
  intros (E & Dx & Dy & B).
  pose proof (taylor1 (fun k z => D 0%nat k (y + t) z) M (fun z => Dx 0%nat 0%nat _ z ltac:(lia)) (fun z => B 0%nat 1%nat _ z ltac:(lia)) x s) as P.
  pose proof (taylor1 (fun k z => D k 0%nat z x) M (fun z => Dy 0%nat 0%nat z _ ltac:(lia)) (fun z => B 1%nat 0%nat z _ ltac:(lia)) y t) as Q.
  cbn beta in P, Q. rewrite !E in P, Q. pose proof (abs_add _ _ _ _ P Q) as T.
  match goal with |- Rabs ?a <= _ => match type of T with Rabs ?b <= _ => replace a with b by ring end end. lra.
Qed.
Lemma taylor2d2 u y x t s : smooth 2 M u D ->
  Rabs (u (y + t) (x + s) - (u y x + (t * D 1%nat 0%nat y x + s * D 0%nat 1%nat y x))) <= M * (Rabs t + Rabs s) ^ 2 / 2.
Proof.
  intros (E & Dx & Dy & B).
  pose proof (taylor2 (fun k z => D 0%nat k (y + t) z) M (fun k z Hk => Dx 0%nat k _ z ltac:(lia)) (fun z => B 0%nat 2%nat _ z ltac:(lia)) x s) as P.
  pose proof (taylor2 (fun k z => D k 0%nat z x) M (fun k z Hk => Dy k 0%nat z _ ltac:(lia)) (fun z => B 2%nat 0%nat z _ ltac:(lia)) y t) as Q.
  pose proof (taylor1 (fun k z => D k 1%nat z x) M (fun z => Dy 0%nat 1%nat z _ ltac:(lia)) (fun z => B 1%nat 1%nat z _ ltac:(lia)) y t) as W.
  cbn beta in P, Q, W. rewrite !E in P, Q.
  pose proof (abs_mul s _ (Rabs s) _ (Rle_refl _) W) as W'.
  pose proof (abs_add _ _ _ _ (abs_add _ _ _ _ P Q) W') as T.
  match goal with |- Rabs ?a <= _ => match type of T with Rabs ?b <= _ => replace a with b by ring end end.
  eapply Rle_trans; [exact T|]. apply Req_le. field.
Qed.
Lemma taylor2d3 u y x t s : smooth 3 M u D ->
  Rabs (u (y + t) (x + s) - (u y x + (t * D 1%nat 0%nat y x + s * D 0%nat 1%nat y x)
    + (t ^ 2 / 2 * D 2%nat 0%nat y x + t * s * D 1%nat 1%nat y x + s ^ 2 / 2 * D 0%nat 2%nat y x))) <= M * (Rabs t + Rabs s) ^ 3 / 6.
Proof.
  intros (E & Dx & Dy & B).
  pose proof (taylor3 (fun k z => D 0%nat k (y + t) z) M (fun k z Hk => Dx 0%nat k _ z ltac:(lia)) (fun z => B 0%nat 3%nat _ z ltac:(lia)) x s) as P.
  pose proof (taylor3 (fun k z => D k 0%nat z x) M (fun k z Hk => Dy k 0%nat z _ ltac:(lia)) (fun z => B 3%nat 0%nat z _ ltac:(lia)) y t) as Q.
  pose proof (taylor2 (fun k z => D k 1%nat z x) M (fun k z Hk => Dy k 1%nat z _ ltac:(lia)) (fun z => B 2%nat 1%nat z _ ltac:(lia)) y t) as W.
  pose proof (taylor1 (fun k z => D k 2%nat z x) M (fun z => Dy 0%nat 2%nat z _ ltac:(lia)) (fun z => B 1%nat 2%nat z _ ltac:(lia)) y t) as V.
  cbn beta in P, Q, W, V. rewrite !E in P, Q.
  pose proof (abs_mul s _ (Rabs s) _ (Rle_refl _) W) as W'.
  assert (S2 : Rabs (s ^ 2 / 2) <= Rabs s ^ 2 / 2).
  { unfold Rdiv. rewrite Rabs_mult, <- RPow_abs, (Rabs_pos_eq (/ 2)) by lra. apply Rle_refl. }
  pose proof (abs_mul _ _ _ _ S2 V) as V'.
  pose proof (abs_add _ _ _ _ (abs_add _ _ _ _ (abs_add _ _ _ _ P Q) W') V') as T.
  match goal with |- Rabs ?a <= _ => match type of T with Rabs ?b <= _ => replace a with b by field end end.
  eapply Rle_trans; [exact T|]. apply Req_le. field.
Qed.
End T2.

(** ** the bracket's nine-point stencil *)
Definition jst (F G : Z -> Z -> R) : R :=
  (F 0%Z 1%Z - F 0%Z (-1)%Z) * (G 1%Z 0%Z - G (-1)%Z 0%Z) - (F 1%Z 0%Z - F (-1)%Z 0%Z) * (G 0%Z 1%Z - G 0%Z (-1)%Z)
  + (F 0%Z 1%Z * (G 1%Z 1%Z - G (-1)%Z 1%Z) - F 0%Z (-1)%Z * (G 1%Z (-1)%Z - G (-1)%Z (-1)%Z)
  - F 1%Z 0%Z * (G 1%Z 1%Z - G 1%Z (-1)%Z) + F (-1)%Z 0%Z * (G (-1)%Z 1%Z - G (-1)%Z (-1)%Z))
  + (G 1%Z 0%Z * (F 1%Z 1%Z - F 1%Z (-1)%Z) - G (-1)%Z 0%Z * (F (-1)%Z 1%Z - F (-1)%Z (-1)%Z)
  - G 0%Z 1%Z * (F 1%Z 1%Z - F (-1)%Z 1%Z) + G 0%Z (-1)%Z * (F 1%Z (-1)%Z - F (-1)%Z (-1)%Z)).

(** centre 0, edges <= e, corners <= c *)
Definition nine (e c : R) (F : Z -> Z -> R) : Prop :=
  Rabs (F 0%Z 1%Z) <= e /\ Rabs (F 0%Z (-1)%Z) <= e /\ Rabs (F 1%Z 0%Z) <= e /\ Rabs (F (-1)%Z 0%Z) <= e /\
  Rabs (F 1%Z 1%Z) <= c /\ Rabs (F 1%Z (-1)%Z) <= c /\ Rabs (F (-1)%Z 1%Z) <= c /\ Rabs (F (-1)%Z (-1)%Z) <= c.
Lemma jst_bd F G e c e' c' : nine e c F -> nine e' c' G -> Rabs (jst F G) <= 8 * (e * e' + e * c' + c * e').
Proof.
  intros (A1 & A2 & A3 & A4 & A5 & A6 & A7 & A8) (B1 & B2 & B3 & B4 & B5 & B6 & B7 & B8). unfold jst.
  replace (8 * (e * e' + e * c' + c * e')) with
    ((e + e) * (e' + e') + (e + e) * (e' + e') + (e * (c' + c') + e * (c' + c') + e * (c' + c') + e * (c' + c'))
     + (e' * (c + c) + e' * (c + c) + e' * (c + c) + e' * (c + c))) by ring.
  repeat first [apply abs_mul | apply abs_sub | apply abs_add]; assumption.
Qed.
Lemma jst_add_l F F' G : jst (fun a b => F a b + F' a b) G = jst F G + jst F' G.
Proof. unfold jst. ring. Qed.
Lemma jst_add_r F G G' : jst F (fun a b => G a b + G' a b) = jst F G + jst F G'.
Proof. unfold jst. ring. Qed.
Lemma jst_const F G c d : jst (fun a b => F a b - c) (fun a b => G a b - d) = jst F G.
Proof. unfold jst. ring. Qed.
Lemma jst_ext F G F' G' : (forall a b, F a b = F' a b) -> (forall a b, G a b = G' a b) -> jst F G = jst F' G'.
Proof. intros H K. unfold jst. now rewrite !H, !K. Qed.

Lemma bracket_point h P Q Mp Mq u v y x : 0 < h -> smooth 3 Mp u P -> smooth 3 Mq v Q ->
  Rabs (jst (fun a b => u (y + IZR a * h) (x + IZR b * h)) (fun a b => v (y + IZR a * h) (x + IZR b * h)) / 3 / (4 * h ^ 2)
        - bracket P Q y x) <= 4 * Mp * Mq * h ^ 2.
Proof.
  intros Hh Hu Hv.
  assert (Hu1 : smooth 1 Mp u P) by (destruct Hu as (E & Dx & Dy & B); repeat split; intros; auto with arith; try (apply Dx; lia); try (apply Dy; lia); apply B; lia).
  assert (Hv1 : smooth 1 Mq v Q) by (destruct Hv as (E & Dx & Dy & B); repeat split; intros; auto with arith; try (apply Dx; lia); try (apply Dy; lia); apply B; lia).
  assert (Hv2 : smooth 2 Mq v Q) by (destruct Hv as (E & Dx & Dy & B); repeat split; intros; auto with arith; try (apply Dx; lia); try (apply Dy; lia); apply B; lia).
  assert (Pb : forall a b, (a + b <= 3)%nat -> Rabs (P a b y x) <= Mp) by (intros; apply Hu; lia).
  assert (Qb : forall a b, (a + b <= 3)%nat -> Rabs (Q a b y x) <= Mq) by (intros; apply Hv; lia).
  assert (P0 : 0 <= Mp) by (eapply Rle_trans; [apply Rabs_pos|apply (Pb 0%nat 0%nat); lia]).
  assert (Q0 : 0 <= Mq) by (eapply Rle_trans; [apply Rabs_pos|apply (Qb 0%nat 0%nat); lia]).
  set (F := fun a b => u (y + IZR a * h) (x + IZR b * h)).
  set (G := fun a b => v (y + IZR a * h) (x + IZR b * h)).
  set (L := fun (D : nat -> nat -> pfield) (a b : Z) => IZR a * h * D 1%nat 0%nat y x + IZR b * h * D 0%nat 1%nat y x).
  set (S := fun (D : nat -> nat -> pfield) (a b : Z) => (IZR a * h) ^ 2 / 2 * D 2%nat 0%nat y x + IZR a * h * (IZR b * h) * D 1%nat 1%nat y x + (IZR b * h) ^ 2 / 2 * D 0%nat 2%nat y x).
  set (rF := fun a b => F a b - (u y x + L P a b + S P a b)).
  set (rG := fun a b => G a b - (v y x + L Q a b + S Q a b)).
  set (sG := fun a b => G a b - (v y x + L Q a b)).
  set (G0 := fun a b => G a b - v y x).
  assert (Split : jst F G = jst (L P) (L Q) + (jst (L P) (S Q) + jst (S P) (L Q)) + (jst (L P) rG + jst (S P) sG + jst rF G0)).
  { rewrite <- (jst_const F G (u y x) (v y x)).
    rewrite (jst_ext (fun a b => F a b - u y x) (fun a b => G a b - v y x) (fun a b => L P a b + S P a b + rF a b) G0) by (intros; unfold rF, G0; ring).
    rewrite (jst_add_l (fun a b => L P a b + S P a b) rF G0), (jst_add_l (L P) (S P) G0).
    rewrite (jst_ext (L P) G0 (L P) (fun a b => L Q a b + S Q a b + rG a b)) by (intros; unfold rG, G0; ring).
    rewrite (jst_add_r (L P) (fun a b => L Q a b + S Q a b) rG), (jst_add_r (L P) (L Q) (S Q)).
    rewrite (jst_ext (S P) G0 (S P) (fun a b => L Q a b + sG a b)) by (intros; unfold sG, G0; ring).
    rewrite (jst_add_r (S P) (L Q) sG). ring. }
  assert (Main : jst (L P) (L Q) = 12 * h ^ 2 * bracket P Q y x) by (unfold jst, L, bracket; ring).
  assert (Odd : jst (L P) (S Q) + jst (S P) (L Q) = 0) by (unfold jst, L, S; field).
  assert (Ah : Rabs h <= h) by (rewrite Rabs_pos_eq; lra).
  assert (N1 : nine (Mp * h) (2 * Mp * h) (L P)).
  { unfold nine, L.
    assert (X : Rabs (h * P 1%nat 0%nat y x) <= h * Mp) by (apply abs_mul; [assumption|apply Pb; lia]).
    assert (Y : Rabs (h * P 0%nat 1%nat y x) <= h * Mp) by (apply abs_mul; [assumption|apply Pb; lia]).
    repeat split; apply Rabs_le; revert X Y; unfold Rabs; repeat destruct Rcase_abs; intros; lra. }
  assert (N2 : nine (Mp * h ^ 2 / 2) (2 * Mp * h ^ 2) (S P)).
  { unfold nine, S.
    assert (H2 : Rabs (h ^ 2) <= h ^ 2) by (rewrite Rabs_pos_eq; [lra|apply pow_le; lra]).
    assert (X : Rabs (h ^ 2 * P 2%nat 0%nat y x) <= h ^ 2 * Mp) by (apply abs_mul; [assumption|apply Pb; lia]).
    assert (Y : Rabs (h ^ 2 * P 1%nat 1%nat y x) <= h ^ 2 * Mp) by (apply abs_mul; [assumption|apply Pb; lia]).
    assert (Z : Rabs (h ^ 2 * P 0%nat 2%nat y x) <= h ^ 2 * Mp) by (apply abs_mul; [assumption|apply Pb; lia]).
    repeat split; apply Rabs_le; revert X Y Z; unfold Rabs; repeat destruct Rcase_abs; intros; lra. }
  assert (I1 : Rabs (1 * h) = h) by (rewrite Rmult_1_l; apply Rabs_pos_eq; lra).
  assert (I2 : Rabs (-1 * h) = h) by (replace (-1 * h) with (- h) by ring; rewrite Rabs_Ropp; apply Rabs_pos_eq; lra).
  assert (I3 : Rabs (0 * h) = 0) by (rewrite Rmult_0_l; apply Rabs_R0).
  assert (N3 : nine (Mp * h ^ 3 / 6) (8 * Mp * h ^ 3 / 6) rF).
  { unfold nine, rF, F, L, S.
    repeat split; (eapply Rle_trans; [apply (taylor2d3 Mp P u); assumption|]; rewrite ?I1, ?I2, ?I3; apply Req_le; field). }
  assert (N4 : nine (Mq * h ^ 3 / 6) (8 * Mq * h ^ 3 / 6) rG).
  { unfold nine, rG, G, L, S.
    repeat split; (eapply Rle_trans; [apply (taylor2d3 Mq Q v); assumption|]; rewrite ?I1, ?I2, ?I3; apply Req_le; field). }
  assert (N5 : nine (Mq * h ^ 2 / 2) (2 * Mq * h ^ 2) sG).
  { unfold nine, sG, G, L.
    repeat split; (eapply Rle_trans; [apply (taylor2d2 Mq Q v); assumption|]; rewrite ?I1, ?I2, ?I3; apply Req_le; field). }
  assert (N6 : nine (Mq * h) (2 * Mq * h) G0).
  { unfold nine, G0, G.
    repeat split; (eapply Rle_trans; [apply (taylor2d1 Mq Q v); assumption|]; rewrite ?I1, ?I2, ?I3; apply Req_le; ring). }
  pose proof (abs_add _ _ _ _ (abs_add _ _ _ _ (jst_bd _ _ _ _ _ _ N1 N4) (jst_bd _ _ _ _ _ _ N2 N5)) (jst_bd _ _ _ _ _ _ N3 N6)) as T.
  rewrite Split, Main, Odd.
  match goal with |- Rabs ?a <= _ => match type of T with Rabs ?b <= _ => replace a with (b / (12 * h ^ 2)) by (field; lra) end end.
  assert (0 < h ^ 2) by (apply pow_lt; lra).
  apply abs_div; [lra|]. eapply Rle_trans; [exact T|].
  assert (0 <= Mp * Mq * h ^ 4) by (apply Rmult_le_pos; [now apply Rmult_le_pos|apply pow_le; lra]). lra.
Qed.

(** ** the average over y *)
Lemma smooth_le k k' M u D : (k' <= k)%nat -> smooth k M u D -> smooth k' M u D.
Proof. intros H (E & Dx & Dy & B). repeat split; intros; auto; [apply Dx|apply Dy|apply B]; lia. Qed.
Lemma mean_point (f : nat -> R -> R) (F : R -> R) M h n : 0 < h -> (0 < n)%nat ->
  (forall k x, (k < 2)%nat -> derivable_pt_lim (f k) x (f (S k) x)) -> (forall x, Rabs (f 2%nat x) <= M) ->
  (forall x, derivable_pt_lim F x (f 0%nat x)) -> (forall x, f 0%nat (x + INR n * h) = f 0%nat x) ->
  Rabs (rsum n (fun i => f 0%nat (INR i * h)) / INR n - (F (INR n * h) - F 0) / (INR n * h)) <= M * h ^ 2 / 24.
Proof.
  intros Hh Hn D B DF Per.
  assert (Pn : 0 < INR n) by (apply lt_0_INR; lia).
  set (g := fun k => match k with O => F | S k' => f k' end).
  assert (Dg : forall k x, (k < 3)%nat -> derivable_pt_lim (g k) x (g (S k) x)) by (intros [|k] x Hk; [apply DF|apply D; lia]).
  assert (Cell : forall x, Rabs (h * f 0%nat x - (F (x + h / 2) - F (x - h / 2))) <= M * h ^ 3 / 24).
  { intros x. pose proof (taylor3 g M Dg B x (h / 2)) as P. pose proof (taylor3 g M Dg B x (- (h / 2))) as Q.
    rewrite Rabs_Ropp in Q. rewrite (Rabs_pos_eq (h / 2)) in P, Q by lra. cbn [g] in P, Q.
    replace (x + - (h / 2)) with (x - h / 2) in Q by ring.
    pose proof (abs_sub _ _ _ _ Q P) as T.
    match goal with |- Rabs ?a <= _ => match type of T with Rabs ?b <= _ => replace a with b by field end end.
    eapply Rle_trans; [exact T|]. apply Req_le. field. }
  (* the integral over one period does not depend on where it starts *)
  assert (Shift : forall t, F (t + INR n * h) - F t = F (INR n * h) - F 0).
  { intros t. set (q := fun s => F (s + INR n * h) - F s).
    assert (Dq : forall s, derivable_pt_lim q s 0).
    { intros s. unfold q. apply dpl_eq with (f 0%nat (s + INR n * h) - f 0%nat s); [|rewrite Per; ring].
      apply dpl_minus; [apply dpl_shiftr|]; apply DF. }
    assert (Hq : q t = q 0).
    { destruct (Rtotal_order t 0) as [Hlt|[->|Hgt]]; [|reflexivity|].
      - destruct (MVT_cor2 q (fun _ => 0) t 0 Hlt) as (c & Ec & _); [intros; apply Dq|]. lra.
      - destruct (MVT_cor2 q (fun _ => 0) 0 t Hgt) as (c & Ec & _); [intros; apply Dq|]. lra. }
    unfold q in Hq. rewrite Rplus_0_l in Hq. exact Hq. }
  assert (Sum : forall m, Rabs (h * rsum m (fun i => f 0%nat (INR i * h)) - (F (INR m * h - h / 2) - F (- (h / 2)))) <= INR m * (M * h ^ 3 / 24)).
  { induction m as [|m IH].
    - cbn [rsum INR]. replace (0 * h - h / 2) with (- (h / 2)) by ring. rewrite Rminus_diag_eq, Rabs_R0 by ring. lra.
    - cbn [rsum]. pose proof (abs_add _ _ _ _ IH (Cell (INR m * h))) as T. rewrite S_INR.
      replace ((INR m + 1) * h - h / 2) with (INR m * h + h / 2) by field.
      match goal with |- Rabs ?a <= _ => match type of T with Rabs ?b <= _ => replace a with b by ring end end. lra. }
  specialize (Sum n). replace (INR n * h - h / 2) with (- (h / 2) + INR n * h) in Sum by ring. rewrite Shift in Sum.
  assert (0 < INR n * h) by (apply Rmult_lt_0_compat; lra).
  match goal with |- Rabs ?a <= _ => match type of Sum with Rabs ?b <= _ => replace a with (b / (INR n * h)) by (field; lra) end end.
  apply abs_div; [assumption|]. eapply Rle_trans; [exact Sum|]. apply Req_le. field.
Qed.

Section R.
Variables (ny nx : nat) (h : R).
Hypothesis Hy : (0 < ny)%nat.
Hypothesis Hx : (0 < nx)%nat.
Hypothesis Hh : 0 < h.
Local Notation Ly := (INR ny * h).
Local Notation per := (periodic (INR ny * h) (INR nx * h)).
Local Notation Y i := (INR i * h).

Lemma bracket_smooth Mp Mq u v P Q i j : smooth 3 Mp u P -> smooth 3 Mq v Q -> per u -> per v -> (i < ny)%nat -> (j < nx)%nat ->
  Rabs (jacobian ny nx h (sample h u) (sample h v) i j - bracket P Q (Y i) (Y j)) <= 4 * Mp * Mq * h ^ 2.
Proof.
  intros Hu Hv Pu Pv Hi Hj.
  replace (jacobian ny nx h (sample h u) (sample h v) i j) with
    (jst (fun a b => u (Y i + IZR a * h) (Y j + IZR b * h)) (fun a b => v (Y i + IZR a * h) (Y j + IZR b * h)) / 3 / (4 * h ^ 2)).
  - now apply bracket_point.
  - unfold jacobian, jac_pp, jac_px, jac_xp. rewrite !(sample_sh ny nx h Hy Hx) by assumption. unfold jst. reflexivity.
Qed.
Lemma yavg_smooth M u D U j : smooth 2 M u D -> per u -> antider_y u U -> 
  Rabs (yavg ny (sample h u) j - mean_y Ly U (Y j)) <= M * h ^ 2 / 24.
Proof.
  intros (E & Dx & Dy & B) P A. unfold yavg, mean_y, sample.
  rewrite (rsum_ext ny (fun i => u (Y i) (Y j)) (fun i => D 0%nat 0%nat (Y i) (Y j))) by (intros; now rewrite E).
  apply (mean_point (fun k t => D k 0%nat t (Y j)) (fun t => U t (Y j)) M h ny Hh Hy).
  - intros k t Hk. apply Dy. lia.
  - intros t. apply B. lia.
  - intros t. rewrite E. apply A.
  - intros t. rewrite !E. apply P.
Qed.
Lemma coupling_smooth p Mp Mq u v P Q PU QU i j : smooth 2 Mp u P -> smooth 2 Mq v Q -> per u -> per v ->
  (pzon p = true -> antider_y u PU /\ antider_y v QU) ->
  Rabs (pc1 p * coupling p ny (sample h u) (sample h v) i j - pc1 p * pde_coupling p Ly P Q PU QU (Y i) (Y j)) <= zerr p Mp Mq * h ^ 2.
Proof.
  intros Hu Hv Pu Pv A. unfold coupling, pde_coupling, zerr, ydev. destruct (pzon p).
  - destruct (A eq_refl) as [AP AQ].
    pose proof (yavg_smooth _ _ _ _ j Hu Pu AP) as X. pose proof (yavg_smooth _ _ _ _ j Hv Pv AQ) as Z.
    pose proof (abs_mul (pc1 p) _ _ _ (Rle_refl _) (abs_sub _ _ _ _ Z X)) as T.
    destruct Hu as (E & _), Hv as (E' & _). rewrite E, E'. unfold sample at 1 3.
    match goal with |- Rabs ?a <= _ => match type of T with Rabs ?b <= _ => replace a with b by ring end end.
    eapply Rle_trans; [exact T|]. apply Req_le. field.
  - destruct Hu as (E & _), Hv as (E' & _). rewrite E, E'. unfold sample. rewrite Rminus_diag_eq, Rabs_R0 by reflexivity. lra.
Qed.
Lemma hyper_smooth p M u D i j : smooth (2 + 2 * pN p) M u D -> per u -> (i < ny)%nat -> (j < nx)%nat ->
  Rabs (hyper p ny nx h (sample h u) i j - pde_hyper p D (Y i) (Y j)) <= Rabs (pnu p) * (INR (pN p) * 2 ^ pN p / 12 * M) * h ^ 2.
Proof.
  intros H P Hi Hj. unfold hyper, pde_hyper. pose proof (lap_smooth ny nx h Hy Hx Hh (pN p) M u D i j H P Hi Hj) as T.
  rewrite <- Rmult_minus_distr_l, Rmult_assoc, Rabs_mult, pow_1_abs, Rmult_1_l.
  pose proof (abs_mul (pnu p) _ _ _ (Rle_refl _) T) as T'.
  eapply Rle_trans; [exact T'|]. apply Req_le. ring.
Qed.

Lemma rhs_n_smooth p Mp Mq u v P Q PU QU i j : smooth (3 + 2 * pN p) Mp u P -> smooth (3 + 2 * pN p) Mq v Q -> per u -> per v ->
  (pzon p = true -> antider_y u PU /\ antider_y v QU) -> (i < ny)%nat -> (j < nx)%nat ->
  Rabs (rhs_n p ny nx h (sample h u) (sample h v) i j - pde_n p Ly P Q PU QU (Y i) (Y j)) <= err_n p Mp Mq * h ^ 2.
Proof.
  intros Hu Hv Pu Pv A Hi Hj. unfold rhs_n, pde_n, err_n.
  pose proof (coupling_smooth p Mp Mq u v P Q PU QU i j (smooth_le (3 + 2 * pN p) 2 _ _ _ ltac:(lia) Hu) (smooth_le (3 + 2 * pN p) 2 _ _ _ ltac:(lia) Hv) Pu Pv A) as T1.
  pose proof (bracket_smooth Mp Mq u v P Q i j (smooth_le (3 + 2 * pN p) 3 _ _ _ ltac:(lia) Hu) (smooth_le (3 + 2 * pN p) 3 _ _ _ ltac:(lia) Hv) Pu Pv Hi Hj) as T2.
  pose proof (cdy_smooth ny nx h Hy Hx Hh Mp u P i j (smooth_le (3 + 2 * pN p) 3 _ _ _ ltac:(lia) Hu) Pu) as T3.
  pose proof (hyper_smooth p Mq v Q i j (smooth_le (3 + 2 * pN p) (2 + 2 * pN p) _ _ _ ltac:(lia) Hv) Pv Hi Hj) as T4.
  pose proof (abs_mul (ppb p) _ _ _ (Rle_refl _) T2) as T2'. pose proof (abs_mul (pkap p) _ _ _ (Rle_refl _) T3) as T3'.
  pose proof (abs_add _ _ _ _ (abs_sub _ _ _ _ (abs_sub _ _ _ _ T1 T2') T3') T4) as T.
  match goal with |- Rabs ?a <= _ => match type of T with Rabs ?b <= _ => replace a with b by ring end end.
  eapply Rle_trans; [exact T|]. apply Req_le. field.
Qed.
Lemma rhs_o_smooth p Mp Mq Mo u v w P Q O PU QU i j : smooth (3 + 2 * pN p) Mp u P -> smooth (3 + 2 * pN p) Mq v Q -> smooth (3 + 2 * pN p) Mo w O ->
  per u -> per v -> per w ->
  (pzon p = true -> antider_y u PU /\ antider_y v QU) -> (i < ny)%nat -> (j < nx)%nat ->
  Rabs (rhs_o p ny nx h (sample h u) (sample h v) (sample h w) i j - pde_o p Ly P Q O PU QU (Y i) (Y j)) <= err_o p Mp Mq Mo * h ^ 2.
Proof.
  intros Hu Hv Hw Pu Pv Pw A Hi Hj. unfold rhs_o, pde_o, err_o.
  pose proof (coupling_smooth p Mp Mq u v P Q PU QU i j (smooth_le (3 + 2 * pN p) 2 _ _ _ ltac:(lia) Hu) (smooth_le (3 + 2 * pN p) 2 _ _ _ ltac:(lia) Hv) Pu Pv A) as T1.
  pose proof (bracket_smooth Mp Mo u w P O i j (smooth_le (3 + 2 * pN p) 3 _ _ _ ltac:(lia) Hu) (smooth_le (3 + 2 * pN p) 3 _ _ _ ltac:(lia) Hw) Pu Pw Hi Hj) as T2.
  pose proof (hyper_smooth p Mo w O i j (smooth_le (3 + 2 * pN p) (2 + 2 * pN p) _ _ _ ltac:(lia) Hw) Pw Hi Hj) as T4.
  pose proof (abs_mul (ppb p) _ _ _ (Rle_refl _) T2) as T2'.
  pose proof (abs_add _ _ _ _ (abs_sub _ _ _ _ T1 T2') T4) as T.
  match goal with |- Rabs ?a <= _ => match type of T with Rabs ?b <= _ => replace a with b by ring end end.
  eapply Rle_trans; [exact T|]. apply Req_le. field.
Qed.
End R.
