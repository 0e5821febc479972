(** Stability of the discrete operators in the mean square, and consistency of
    the Poisson solver on samples of smooth fields. *)
From Coquelicot Require Import Coquelicot.
From Coq Require Import List Arith ZArith Lia Bool Reals Lra Psatz.
From Verif Require Import Num NdArray NdFacts Spec GradFacts SumFacts LapFacts Cplx DftFacts SpecFourier PoissonFacts SpecHW SpecPlasma SpecConv HWFacts StepFacts
  RhsFacts SpecSmooth SmoothFacts SmoothStencil SmoothBracket OdeExist NormFacts SymbolFacts.
From Verif Require RunHWWit.
Import ListNotations.
Local Open Scope R_scope.

(** a weighted sum of absolute values of fields *)
Definition wsumf (l : list (R * field)) : field := fun i j => fold_right (fun q s => fst q * Rabs (snd q i j) + s) 0 l.
Definition wsumn (g : field -> R) (l : list (R * field)) : R := fold_right (fun q s => fst q * g (snd q) + s) 0 l.
Fixpoint dots (l : list (R * R)) : R := match l with [] => 0 | q :: l => fst q * snd q + dots l end.
Lemma dots_abs l : Rabs (dots l) <= fold_right (fun q s => Rabs (fst q) * Rabs (snd q) + s) 0 l.
Proof.
  induction l as [|q l IH]; cbn; [rewrite Rabs_R0; lra|]. eapply Rle_trans; [apply Rabs_triang|]. rewrite Rabs_mult. lra.
Qed.

Section S.
Variables (ny nx : nat) (h : R).
Hypothesis Hy : (0 < ny)%nat.
Hypothesis Hx : (0 < nx)%nat.
Hypothesis Hh : 0 < h.
Local Notation rms := (nm ny nx).
Local Notation grn := (gn ny nx h).
Local Notation per := (periodic (INR ny * h) (INR nx * h)).
Lemma nm_wsum l : Forall (fun q => 0 <= fst q) l -> rms (wsumf l) <= wsumn rms l.
Proof.
  induction 1 as [|q l Hq Hl IH]; cbn [wsumf wsumn fold_right].
  - rewrite (nm_ext ny nx _ (fconst 0)) by (intros i j _ _; reflexivity). rewrite nm_const by assumption. rewrite Rabs_R0. lra.
  - eapply Rle_trans; [apply (nm_add ny nx Hy Hx (fun i j => fst q * Rabs (snd q i j)) (wsumf l))|].
    apply Rplus_le_compat; [|exact IH]. apply nm_mul; try assumption. intros i j _ _. rewrite Rabs_mult, Rabs_Rabsolu, (Rabs_pos_eq (fst q)) by exact Hq. lra.
Qed.

(** ** the bracket with a smooth second argument *)
Lemma lip_x M u D y x x' : smooth 1 M u D -> Rabs (u y x - u y x') <= M * Rabs (x - x').
Proof.
  intros (E & Dx & _ & B). 
  destruct (Req_dec x x') as [->|Hn]; [rewrite !Rminus_diag_eq, Rabs_R0 by reflexivity; lra|].
  assert (G : forall a b, a < b -> Rabs (u y b - u y a) <= M * (b - a)).
  { intros a b Hab. destruct (MVT_cor2 (fun s => u y s) (fun s => D 0%nat 1%nat y s) a b Hab) as (c & Ec & _).
    - intros c _. apply (dpl_ext (fun s => D 0%nat 0%nat y s)); [intros; apply E|]. apply Dx. lia.
    - rewrite Ec, Rabs_mult, (Rabs_pos_eq (b - a)) by lra. apply Rmult_le_compat_r; [lra|]. apply B. lia. }
  destruct (Rlt_dec x x').
  - rewrite Rabs_minus_sym, (Rabs_minus_sym x), (Rabs_pos_eq (x' - x)) by lra. now apply G.
  - rewrite (Rabs_pos_eq (x - x')) by lra. apply G. lra.
Qed.
Lemma lip_y M u D y y' x : smooth 1 M u D -> Rabs (u y x - u y' x) <= M * Rabs (y - y').
Proof.
  intros (E & _ & Dy & B). 
  destruct (Req_dec y y') as [->|Hn]; [rewrite !Rminus_diag_eq, Rabs_R0 by reflexivity; lra|].
  assert (G : forall a b, a < b -> Rabs (u b x - u a x) <= M * (b - a)).
  { intros a b Hab. destruct (MVT_cor2 (fun s => u s x) (fun s => D 1%nat 0%nat s x) a b Hab) as (c & Ec & _).
    - intros c _. apply (dpl_ext (fun s => D 0%nat 0%nat s x)); [intros; apply E|]. apply Dy. lia.
    - rewrite Ec, Rabs_mult, (Rabs_pos_eq (b - a)) by lra. apply Rmult_le_compat_r; [lra|]. apply B. lia. }
  destruct (Rlt_dec y y').
  - rewrite Rabs_minus_sym, (Rabs_minus_sym y), (Rabs_pos_eq (y' - y)) by lra. now apply G.
  - rewrite (Rabs_pos_eq (y - y')) by lra. apply G. lra.
Qed.
Lemma smooth_pos k M u D : smooth k M u D -> 0 <= M.
Proof. intros (_ & _ & _ & B). eapply Rle_trans; [apply Rabs_pos|apply (B 0%nat 0%nat 0 0); lia]. Qed.

Local Notation SX f a b := (fun i j => fdx nx f (sh ny i a) (sh nx j b)).
Local Notation SY f a b := (fun i j => fdy ny f (sh ny i a) (sh nx j b)).
Definition jlist (f : field) (c : R) : list (R * field) :=
  [(4 * c, SX f 0 0); (4 * c, SX f 0 (-1)); (4 * c, SY f 0 0); (4 * c, SY f (-1) 0);
   (c, SX f 1 0); (c, SX f 1 (-1)); (c, SX f (-1) 0); (c, SX f (-1) (-1));
   (c, SY f 0 1); (c, SY f (-1) 1); (c, SY f 0 (-1)); (c, SY f (-1) (-1))].
Lemma jac_bound M u D f : smooth 1 M u D -> per u -> rms (jacobian ny nx h f (sample h u)) <= 2 * M * grn f.
Proof.
  intros Hu Pu. pose proof (smooth_pos _ _ _ _ Hu) as HM.
  apply Rle_trans with (/ (12 * h ^ 2) * rms (wsumf (jlist f (M * h)))).
  - apply nm_mul; [assumption|assumption|left; apply Rinv_0_lt_compat; nra|]. intros i j Hi Hj.
    unfold jacobian. set (g := sample h u).
    replace ((jac_pp ny nx f g i j + jac_px ny nx f g i j + jac_xp ny nx f g i j) / 3 / (4 * h ^ 2)) with
      (/ (12 * h ^ 2) * (jac_pp ny nx f g i j + jac_px ny nx f g i j + jac_xp ny nx f g i j)) by (field; lra).
    rewrite Rabs_mult, (Rabs_pos_eq (/ _)) by (left; apply Rinv_0_lt_compat; nra). apply Rmult_le_compat_l; [left; apply Rinv_0_lt_compat; nra|].
    assert (GX : forall a b b', Rabs (g (sh ny i a) (sh nx j b) - g (sh ny i a) (sh nx j b')) <= M * (Rabs (IZR b - IZR b') * h)).
    { intros a b b'. unfold g. rewrite !sample_sh by assumption. eapply Rle_trans; [eapply lip_x; exact Hu|]. right. f_equal.
      replace (INR j * h + IZR b * h - (INR j * h + IZR b' * h)) with ((IZR b - IZR b') * h) by ring. rewrite Rabs_mult, (Rabs_pos_eq h) by lra. reflexivity. }
    assert (GY : forall a a' b, Rabs (g (sh ny i a) (sh nx j b) - g (sh ny i a') (sh nx j b)) <= M * (Rabs (IZR a - IZR a') * h)).
    { intros a a' b. unfold g. rewrite !sample_sh by assumption. eapply Rle_trans; [eapply lip_y; exact Hu|]. right. f_equal.
      replace (INR i * h + IZR a * h - (INR i * h + IZR a' * h)) with ((IZR a - IZR a') * h) by ring. rewrite Rabs_mult, (Rabs_pos_eq h) by lra. reflexivity. }
    set (G := fun a b => g (sh ny i a) (sh nx j b)) in *. set (F := fun a b => f (sh ny i a) (sh nx j b)).
    assert (EX : forall a b, fdx nx f (sh ny i a) (sh nx j b) = F a (b + 1)%Z - F a b) by (intros; unfold fdx, F; now rewrite sh_sh).
    assert (EY : forall a b, fdy ny f (sh ny i a) (sh nx j b) = F (a + 1)%Z b - F a b) by (intros; unfold fdy, F; now rewrite sh_sh).
    assert (R2 : forall x y, x - y = 2 \/ x - y = -2 -> Rabs (x - y) = 2) by (intros x y [E|E]; rewrite E; [apply Rabs_pos_eq; lra|rewrite Rabs_left; lra]).
    assert (R1 : forall x y, x - y = 1 \/ x - y = -1 -> Rabs (x - y) = 1) by (intros x y [E|E]; rewrite E; [apply Rabs_pos_eq; lra|rewrite Rabs_left; lra]).
    assert (GX2 : forall a, Rabs (G a 1%Z - G a (-1)%Z) <= 2 * (M * h)).
    { intros a. eapply Rle_trans; [apply GX|]. rewrite R2 by (left; lra). lra. }
    assert (GY2 : forall b, Rabs (G 1%Z b - G (-1)%Z b) <= 2 * (M * h)).
    { intros b. eapply Rle_trans; [apply GY|]. rewrite R2 by (left; lra). lra. }
    assert (GX1 : forall a b, (b = 1 \/ b = -1)%Z -> Rabs (G a b - G a 0%Z) <= M * h).
    { intros a b Hb. eapply Rle_trans; [apply GX|]. rewrite R1 by (destruct Hb as [-> | ->]; [left|right]; lra). lra. }
    assert (GY1 : forall a b, (a = 1 \/ a = -1)%Z -> Rabs (G a b - G 0%Z b) <= M * h).
    { intros a b Ha. eapply Rle_trans; [apply GY|]. rewrite R1 by (destruct Ha as [-> | ->]; [left|right]; lra). lra. }
    pose (L := [ (G 1%Z 0%Z - G (-1)%Z 0%Z + (G 1%Z 1%Z - G (-1)%Z 1%Z), F 0%Z (0 + 1)%Z - F 0%Z 0%Z); (G 1%Z 0%Z - G (-1)%Z 0%Z + (G 1%Z (-1)%Z - G (-1)%Z (-1)%Z), F 0%Z (-1 + 1)%Z - F 0%Z (-1)%Z);
                 (- ((G 0%Z 1%Z - G 0%Z (-1)%Z) + (G 1%Z 1%Z - G 1%Z (-1)%Z)), F (0 + 1)%Z 0%Z - F 0%Z 0%Z); (- ((G 0%Z 1%Z - G 0%Z (-1)%Z) + (G (-1)%Z 1%Z - G (-1)%Z (-1)%Z)), F (-1 + 1)%Z 0%Z - F (-1)%Z 0%Z);
                 (G 1%Z 0%Z - G 0%Z 0%Z, F 1%Z (0 + 1)%Z - F 1%Z 0%Z); (G 1%Z 0%Z - G 0%Z 0%Z, F 1%Z (-1 + 1)%Z - F 1%Z (-1)%Z);
                 (- (G (-1)%Z 0%Z - G 0%Z 0%Z), F (-1)%Z (0 + 1)%Z - F (-1)%Z 0%Z); (- (G (-1)%Z 0%Z - G 0%Z 0%Z), F (-1)%Z (-1 + 1)%Z - F (-1)%Z (-1)%Z);
                 (- (G 0%Z 1%Z - G 0%Z 0%Z), F (0 + 1)%Z 1%Z - F 0%Z 1%Z); (- (G 0%Z 1%Z - G 0%Z 0%Z), F (-1 + 1)%Z 1%Z - F (-1)%Z 1%Z);
                 (G 0%Z (-1)%Z - G 0%Z 0%Z, F (0 + 1)%Z (-1)%Z - F 0%Z (-1)%Z); (G 0%Z (-1)%Z - G 0%Z 0%Z, F (-1 + 1)%Z (-1)%Z - F (-1)%Z (-1)%Z) ]).
    replace (jac_pp ny nx f g i j + jac_px ny nx f g i j + jac_xp ny nx f g i j) with (dots L).
    2:{ unfold L, dots, jac_pp, jac_px, jac_xp. cbn [fst snd Z.add Z.opp Z.pos_sub]. 
        unfold F, G. ring. }
    eapply Rle_trans; [apply dots_abs|]. unfold L. rewrite (Rabs_pos_eq (wsumf _ i j)).
    2:{ unfold wsumf, jlist. cbn [fold_right fst snd]. assert (0 <= M * h) by nra. repeat (apply Rplus_le_le_0_compat; [apply Rmult_le_pos; [lra|apply Rabs_pos]|]). lra. }
    unfold wsumf, jlist. cbn [fold_right fst snd]. rewrite !EX, !EY.
    repeat (apply Rplus_le_compat; [apply Rmult_le_compat_r; [apply Rabs_pos|]|]); try lra; rewrite ?Rabs_Ropp;
      try solve [apply GX1; auto]; try solve [apply GY1; auto]; try (eapply Rle_trans; [apply Rabs_triang|]);
      try (pose proof (GX2 0%Z); pose proof (GX2 1%Z); pose proof (GX2 (-1)%Z); pose proof (GY2 0%Z); pose proof (GY2 1%Z); pose proof (GY2 (-1)%Z); lra).
  - assert (0 <= M * h) by nra.
    apply Rle_trans with (/ (12 * h ^ 2) * wsumn rms (jlist f (M * h))).
    + apply Rmult_le_compat_l; [left; apply Rinv_0_lt_compat; nra|]. apply nm_wsum. unfold jlist. repeat (apply List.Forall_cons; [cbn [fst]; lra|]); apply List.Forall_nil.
    + unfold wsumn, jlist. cbn [fold_right fst snd]. pose proof (fdx_gn ny nx h Hy Hx Hh f) as X. pose proof (fdy_gn ny nx h Hy Hx Hh f) as Y.
      repeat rewrite (nm_shift ny nx Hy Hx (fdx nx f)). repeat rewrite (nm_shift ny nx Hy Hx (fdy ny f)).
      apply Rle_trans with (/ (12 * h ^ 2) * (24 * (M * h) * (h * grn f))); [|right; field; lra].
      apply Rmult_le_compat_l; [left; apply Rinv_0_lt_compat; nra|]. nra.
Qed.

(** ** central difference in y *)
Lemma cdy_bound f : rms (cdy ny h f) <= grn f.
Proof.
  apply Rle_trans with (/ (2 * h) * rms (wsumf [(1, SY f 0 0); (1, SY f (-1) 0)])).
  - apply nm_mul; [assumption|assumption|left; apply Rinv_0_lt_compat; lra|]. intros i j Hi Hj. rewrite cdy_R.
    replace ((f (sh ny i 1) j - f (sh ny i (-1)) j) / (2 * h)) with (/ (2 * h) * (f (sh ny i 1) j - f (sh ny i (-1)) j)) by (field; lra).
    rewrite Rabs_mult, (Rabs_pos_eq (/ _)) by (left; apply Rinv_0_lt_compat; lra). apply Rmult_le_compat_l; [left; apply Rinv_0_lt_compat; lra|].
    unfold wsumf. cbn [fold_right fst snd]. rewrite (Rabs_pos_eq (_ + _)) by (repeat apply Rplus_le_le_0_compat; try apply Rmult_le_pos; try apply Rabs_pos; lra).
    unfold fdy. rewrite !sh_sh, !(sh_0 nx j Hj) by assumption. cbn [Z.add Z.opp Z.pos_sub]. rewrite !(sh_0 ny i Hi).
    replace (f (sh ny i 1) j - f (sh ny i (-1)) j) with ((f (sh ny i 1) j - f i j) + (f i j - f (sh ny i (-1)) j)) by ring.
    eapply Rle_trans; [apply Rabs_triang|]. lra.
  - apply Rle_trans with (/ (2 * h) * wsumn rms [(1, SY f 0 0); (1, SY f (-1) 0)]).
    + apply Rmult_le_compat_l; [left; apply Rinv_0_lt_compat; lra|]. apply nm_wsum. repeat (apply List.Forall_cons; [cbn [fst]; lra|]); apply List.Forall_nil.
    + unfold wsumn. cbn [fold_right fst snd]. pose proof (fdy_gn ny nx h Hy Hx Hh f) as Y. repeat rewrite (nm_shift ny nx Hy Hx (fdy ny f)).
      apply Rle_trans with (/ (2 * h) * (2 * (h * grn f))); [|right; field; lra]. apply Rmult_le_compat_l; [left; apply Rinv_0_lt_compat; lra|]. lra.
Qed.

(** ** deviations from the row average *)
Lemma ydev_rms f : rms (ydev ny f) <= rms f.
Proof.
  apply nm_le_sq; [apply nm_pos|]. rewrite nm_sq by assumption. unfold ip. apply Rmult_le_compat_r; [left; apply Rinv_0_lt_compat; now apply cells_gt|].
  unfold inner. rewrite (gsum_swap ny nx), (gsum_swap ny nx (fun i j => f i j * f i j)). apply rsum_le. intros j _.
  pose proof (lt_0_INR ny Hy) as Py. set (m := yavg ny f j).
  rewrite (rsum_ext ny (fun i => ydev ny f i j * ydev ny f i j) (fun i => f i j * f i j + ((-2 * m) * f i j + m * m))) by (intros; unfold ydev; fold m; ring).
  rewrite rsum_add, rsum_add, rsum_scal, rsum_const.
  assert (E : rsum ny (fun i => f i j) = INR ny * m) by (unfold m, yavg; field; lra). rewrite E. nra.
Qed.
Lemma coupling_rms p f g : rms (coupling p ny f g) <= rms f + rms g.
Proof.
  unfold coupling. destruct (pzon p).
  - eapply Rle_trans; [apply (nm_sub ny nx Hy Hx (ydev ny f) (ydev ny g))|]. pose proof (ydev_rms f). pose proof (ydev_rms g). lra.
  - apply (nm_sub ny nx Hy Hx f g).
Qed.
Lemma hyper_ip p f : 0 <= pnu p -> ip ny nx f (hyper p ny nx h f) <= 0.
Proof.
  intros Hnu. destruct (hyper_form (pN p) ny nx h f Hy Hx (Rgt_not_eq _ _ Hh)) as [F _].
  replace (ip ny nx f (hyper p ny nx h f)) with (pnu p * ((-1) ^ (pN p + 1) * inner ny nx f (lap_iter (pN p) ny nx h f)) / (INR ny * INR nx)).
  - pose proof (cells_gt ny nx Hy Hx). assert (0 < / (INR ny * INR nx)) by (now apply Rinv_0_lt_compat).
    unfold Rdiv. set (q := (-1) ^ (pN p + 1) * _) in *. clearbody q. set (c := / (INR ny * INR nx)) in *. clearbody c.
    assert (pnu p * q <= 0) by nra. nra.
  - unfold ip, hyper. f_equal. unfold inner. rewrite <- !gsum_scal. apply gsum_ext. intros. ring.
Qed.

(** ** the mean of a sample of a field with vanishing integral *)
Lemma rect (f : nat -> R -> R) M n : (0 < n)%nat ->
  (forall k x, (k < 2)%nat -> derivable_pt_lim (f k) x (f (S k) x)) -> (forall x, Rabs (f 2%nat x) <= M) ->
  (forall x, f 0%nat (x + INR n * h) = f 0%nat x) ->
  Rabs (rsum n (fun i => f 0%nat (INR i * h)) / INR n - RInt (f 0%nat) 0 (INR n * h) / (INR n * h)) <= M * h ^ 2 / 24.
Proof.
  intros Hn D B Per.
  assert (C : forall t, continuity_pt (f 0%nat) t) by (intros t; apply derivable_continuous_pt; exists (f 1%nat t); apply D; lia).
  pose proof (mean_point f (anti (f 0%nat)) M h n Hh Hn D B (anti_der _ C) Per) as P. rewrite anti_0, Rminus_0_r in P. exact P.
Qed.
Lemma ex_RInt_sm (f : R -> R) a b : (forall t, continuity_pt f t) -> ex_RInt f a b.
Proof. intros C. apply (@ex_RInt_continuous R_CompleteNormedModule). intros z _. apply continuity_pt_filterlim, C. Qed.
Lemma mean_sample M u D : smooth 2 M u D -> per u -> 
  is_RInt (fun x => RInt (fun y => u y x) 0 (INR ny * h)) 0 (INR nx * h) 0 ->
  Rabs (gmean ny nx (sample h u)) <= M * h ^ 2 / 12.
Proof.
  intros Hu Pu I. pose proof (INRy ny h Hy Hh) as Py. pose proof (INRx nx h Hx Hh) as Px.
  set (Ly := INR ny * h) in *. set (Lx := INR nx * h) in *. pose proof Hu as (E & Dx & Dy & B).
  assert (Cx : forall y t, continuity_pt (fun x => u y x) t).
  { intros y t. apply derivable_continuous_pt. exists (D 0%nat 1%nat y t). apply (dpl_ext (fun s => D 0%nat 0%nat y s)); [intros; apply E|apply Dx; lia]. }
  set (A := fun x => rsum ny (fun i => u (INR i * h) x) / INR ny).
  set (C := fun x => RInt (fun y => u y x) 0 Ly / Ly).
  assert (S1 : forall x, Rabs (A x - C x) <= M * h ^ 2 / 24).
  { intros x. pose proof (rect (fun k t => D k 0%nat t x) M ny Hy) as R. cbv beta in R. unfold A, C.
    rewrite (rsum_ext ny (fun i => u (INR i * h) x) (fun i => D 0%nat 0%nat (INR i * h) x)) by (intros; now rewrite E).
    rewrite (RInt_ext (fun y => u y x) (fun y => D 0%nat 0%nat y x)) by (intros; now rewrite E).
    apply R; [intros k t Hk; apply Dy; lia|intros t; apply B; lia|intros t; rewrite !E; apply Pu]. }
  assert (IA : is_RInt A 0 Lx (rsum ny (fun i => RInt (fun x => u (INR i * h) x) 0 Lx) / INR ny)).
  { unfold A. assert (G : forall n, is_RInt (fun x => rsum n (fun i => u (INR i * h) x)) 0 Lx (rsum n (fun i => RInt (fun x => u (INR i * h) x) 0 Lx))).
    { induction n as [|n IH]; cbn [rsum]. 
      - pose proof (@is_RInt_const R_NormedModule 0 Lx 0) as K. refine (eq_ind _ (is_RInt (fun _ => 0) 0 Lx) K 0 _). unfold Hierarchy.scal; cbn; unfold Hierarchy.mult; cbn; ring.
      - apply (@is_RInt_plus R_NormedModule _ _ 0 Lx _ _ IH). apply (@RInt_correct R_CompleteNormedModule), ex_RInt_sm. intros t. apply Cx. }
    specialize (G ny). apply (@is_RInt_scal R_NormedModule _ 0 Lx (/ INR ny)) in G. unfold Hierarchy.scal in G; cbn in G; unfold Hierarchy.mult in G; cbn in G.
    apply (is_RInt_ext (fun x => / INR ny * rsum ny (fun i => u (INR i * h) x))); [intros x _; exact (Rmult_comm _ _)|].
    unfold Rdiv. rewrite Rmult_comm. exact G. }
  assert (IC : is_RInt C 0 Lx 0).
  { apply (@is_RInt_scal R_NormedModule _ 0 Lx (/ Ly)) in I. unfold Hierarchy.scal in I; cbn in I; unfold Hierarchy.mult in I; cbn in I. rewrite Rmult_0_r in I.
    apply (is_RInt_ext (fun x => / Ly * RInt (fun y => u y x) 0 Ly)); [intros x _; exact (Rmult_comm _ _)|exact I]. }
  assert (S2 : Rabs (rsum ny (fun i => RInt (fun x => u (INR i * h) x) 0 Lx) / INR ny) <= Lx * (M * h ^ 2 / 24)).
  { pose proof (@is_RInt_minus R_NormedModule _ _ 0 Lx _ _ IA IC) as K.
    pose proof (@norm_RInt_le R_NormedModule _ (fun _ => M * h ^ 2 / 24) 0 Lx _ (Hierarchy.scal (Lx - 0) (M * h ^ 2 / 24)) ltac:(lra)
      (fun x _ => S1 x) K (@is_RInt_const R_NormedModule 0 Lx (M * h ^ 2 / 24))) as Q.
    unfold Hierarchy.minus, Hierarchy.plus, Hierarchy.opp, Hierarchy.norm, Hierarchy.scal in Q; cbn in Q; unfold Hierarchy.mult, Hierarchy.abs in Q; cbn in Q. rewrite Ropp_0, Rplus_0_r, Rminus_0_r in Q. exact Q. }
  assert (S3 : forall i, Rabs (rsum nx (fun j => u (INR i * h) (INR j * h)) / INR nx - RInt (fun x => u (INR i * h) x) 0 Lx / Lx) <= M * h ^ 2 / 24).
  { intros i. pose proof (rect (fun k t => D 0%nat k (INR i * h) t) M nx Hx) as R. cbv beta in R.
    rewrite (rsum_ext nx (fun j => u (INR i * h) (INR j * h)) (fun j => D 0%nat 0%nat (INR i * h) (INR j * h))) by (intros; now rewrite E).
    rewrite (RInt_ext (fun x => u (INR i * h) x) (fun x => D 0%nat 0%nat (INR i * h) x)) by (intros; now rewrite E).
    apply R; [intros k t Hk; apply Dx; lia|intros t; apply B; lia|intros t; rewrite !E; apply Pu]. }
  pose proof (lt_0_INR ny Hy) as Ny. pose proof (lt_0_INR nx Hx) as Nx.
  assert (S4 : Rabs (gmean ny nx (sample h u) - rsum ny (fun i => RInt (fun x => u (INR i * h) x) 0 Lx) / INR ny / Lx) <= M * h ^ 2 / 24).
  { unfold gmean, gsum, sample. replace (rsum ny (fun i => rsum nx (fun j => u (INR i * h) (INR j * h))) / (INR ny * INR nx) - rsum ny (fun i => RInt (fun x => u (INR i * h) x) 0 Lx) / INR ny / Lx)
      with (/ INR ny * rsum ny (fun i => rsum nx (fun j => u (INR i * h) (INR j * h)) / INR nx - RInt (fun x => u (INR i * h) x) 0 Lx / Lx)).
    - rewrite Rabs_mult, (Rabs_pos_eq (/ INR ny)) by (left; now apply Rinv_0_lt_compat).
      apply Rle_trans with (/ INR ny * (INR ny * (M * h ^ 2 / 24))); [|right; field; lra]. apply Rmult_le_compat_l; [left; now apply Rinv_0_lt_compat|].
      rewrite <- rsum_const. clear - S3. induction ny as [|n IH]; cbn [rsum]; [rewrite Rabs_R0; lra|].
      eapply Rle_trans; [apply Rabs_triang|]. apply Rplus_le_compat; auto.
    - rewrite rsum_sub. unfold Rdiv. rewrite !rsum_scal_r. field. repeat split; lra. }
  apply Rle_trans with (M * h ^ 2 / 24 + M * h ^ 2 / 24); [|right; field].
  replace (gmean ny nx (sample h u)) with ((gmean ny nx (sample h u) - rsum ny (fun i => RInt (fun x => u (INR i * h) x) 0 Lx) / INR ny / Lx) + rsum ny (fun i => RInt (fun x => u (INR i * h) x) 0 Lx) / INR ny / Lx) by ring.
  eapply Rle_trans; [apply Rabs_triang|]. apply Rplus_le_compat; [exact S4|].
  unfold Rdiv at 1. rewrite Rabs_mult, (Rabs_pos_eq (/ Lx)) by (left; now apply Rinv_0_lt_compat).
  apply Rle_trans with (Lx * (M * h ^ 2 / 24) * / Lx); [apply Rmult_le_compat_r; [left; now apply Rinv_0_lt_compat|exact S2]|right; field; lra].
Qed.

(** ** the solver applied to the sampled Laplacian *)
Lemma hn0 : h <> 0. Proof. lra. Qed.
Lemma gn_const c : grn (fconst c) = 0.
Proof.
  pose proof (gn_sq ny nx h Hy Hx Hh (fconst c)) as G.
  assert (Z : ip ny nx (fdx nx (fconst c)) (fdx nx (fconst c)) + ip ny nx (fdy ny (fconst c)) (fdy ny (fconst c)) = 0).
  { unfold ip, inner, fdx, fdy, fconst. rewrite !(gsum_ext ny nx _ (fun _ _ => 0)) by (intros; ring). rewrite gsum_zero. unfold Rdiv. ring. }
  rewrite Z in G. assert (0 < h ^ 2) by nra. apply Rmult_integral in G as [G|G]; [lra|]. rewrite <- Rsqr_pow2 in G. now apply Rsqr_0_uniq in G.
Qed.
Definition pcon (g M : R) : R := 8 * M + M / 12 + (1 + / g) * (M / 6).
Lemma poisson_err M u D w c : smooth 6 M u D -> per u -> (forall y x, dlap D 0%nat 0%nat y x = w y x - c) ->
  is_RInt (fun x => RInt (fun y => u y x) 0 (INR ny * h)) 0 (INR nx * h) 0 ->
  let r := fsub (invlap ny nx h (sample h w)) (sample h u) in
  rms r <= pcon (gap ny nx h) M * h ^ 2 /\ grn r <= pcon (gap ny nx h) M * h ^ 2.
Proof.
  intros Hu Pu Hw I r. pose proof (smooth_pos _ _ _ _ Hu) as HM. set (fs := sample h u) in *.
  set (tau := fun i j => sample h w i j - c - lap5 ny nx h fs i j).
  pose proof (gap_pos ny nx h Hy Hx Hh) as G. assert (IG : 0 < / gap ny nx h) by (now apply Rinv_0_lt_compat).
  assert (Tb : rms tau <= M * h ^ 2 / 6).
  { apply nm_bd; [assumption|assumption|nra|]. intros i j Hi Hj. unfold tau, fs.
    pose proof (lap_smooth ny nx h Hy Hx Hh 1 M u D i j (smooth_le 6 (2 + 2 * 1) M u D ltac:(lia) Hu) Pu Hi Hj) as L.
    cbn [lap_iter dlap_iter] in L. rewrite Hw in L. unfold sample at 1. rewrite Rabs_minus_sym.
    replace (lap5 ny nx h (sample h u) i j - (w (INR i * h) (INR j * h) - c)) with (lap5 ny nx h (sample h u) i j - (w (INR i * h) (INR j * h) - c)) by ring.
    eapply Rle_trans; [exact L|]. cbn [INR pow]. lra. }
  assert (L1 : rms (lap5 ny nx h fs) <= 2 * M).
  { apply nm_bd; [assumption|assumption|lra|]. intros i j Hi Hj. unfold fs. rewrite (lap5_sample ny nx h Hy Hx Hh u Pu i j Hi Hj).
    pose proof (Lhi_bd h Hh 1 M u D (smooth_le 6 (2 * 1) M u D ltac:(lia) Hu) (INR i * h) (INR j * h)) as B. cbn [Lhi pow] in B. unfold sample. lra. }
  assert (L2 : rms (lap_iter 2 ny nx h fs) <= 4 * M).
  { apply nm_bd; [assumption|assumption|lra|]. intros i j Hi Hj. unfold fs. rewrite (lap_iter_sample ny nx h Hy Hx Hh 2 u Pu i j Hi Hj).
    pose proof (Lhi_bd h Hh 2 M u D (smooth_le 6 (2 * 2) M u D ltac:(lia) Hu) (INR i * h) (INR j * h)) as B. unfold sample. cbn [pow] in B. lra. }
  set (m := gmean ny nx fs). pose proof (mean_sample M u D (smooth_le 6 2 M u D ltac:(lia) Hu) Pu I) as Mb. fold fs in Mb. fold m in Mb.
  set (q := rmult ny nx (idm0 ny nx h) fs).
  assert (R : agree ny nx r (fadd (fadd q (invlap ny nx h tau)) (fconst (- m)))).
  { intros i j Hi Hj. unfold r, fsub, fadd, fconst.
    assert (E : invlap ny nx h (sample h w) i j = invlap ny nx h (fadd (fscale 1 (fadd (fscale 1 (lap5 ny nx h fs)) (fscale 1 tau))) (fscale c (fconst 1))) i j).
    { apply invlap_ext; try assumption. intros a b _ _. unfold tau, fadd, fscale, fconst. ring. }
    rewrite E, !(invlap_lin ny nx h Hy Hx hn0), (invlap_lap5_err ny nx h Hy Hx Hh fs i j Hi Hj). 
    rewrite (RunHWWit.invlap_const ny nx h 1 i j Hy Hx hn0 Hi Hj). fold m q. ring. }
  pose proof (idm0_nm ny nx h Hy Hx Hh fs) as Q1. pose proof (idm0_gn ny nx h Hy Hx Hh fs) as Q2. fold q in Q1, Q2.
  pose proof (invlap_nm ny nx h Hy Hx Hh tau) as T1. pose proof (invlap_gn ny nx h Hy Hx Hh tau) as T2.
  pose proof (nm_pos ny nx tau) as Pt. assert (Hh2 : 0 < h ^ 2) by nra. set (H2 := h ^ 2) in *.
  assert (T3 : (1 + / gap ny nx h) * rms tau <= (1 + / gap ny nx h) * (M / 6) * H2).
  { replace ((1 + / gap ny nx h) * (M / 6) * H2) with ((1 + / gap ny nx h) * (M * H2 / 6)) by (unfold Rdiv; ring). apply Rmult_le_compat_l; lra. }
  unfold pcon. set (kk := (1 + / gap ny nx h) * (M / 6)) in *. split.
  - rewrite (nm_ext ny nx _ _ R). eapply Rle_trans; [apply nm_add; assumption|]. rewrite nm_const, Rabs_Ropp by assumption.
    eapply Rle_trans; [apply Rplus_le_compat_r, nm_add; assumption|].
    assert (A : rms (rmult ny nx (idm0 ny nx h) fs) <= 4 / 3 * H2 * (2 * M)) by (eapply Rle_trans; [exact Q1|]; apply Rmult_le_compat_l; lra).
    fold q in A. assert (0 <= M * H2) by nra. nra.
  - rewrite (gn_ext ny nx h _ _ R). eapply Rle_trans; [apply gn_add; assumption|]. rewrite gn_const, Rplus_0_r.
    eapply Rle_trans; [apply gn_add; assumption|].
    assert (A : grn q <= 4 / 3 * H2 * (4 * M + 2 * M)) by (eapply Rle_trans; [exact Q2|]; apply Rmult_le_compat_l; lra).
    assert (0 <= M * H2) by nra. nra.
Qed.
End S.
