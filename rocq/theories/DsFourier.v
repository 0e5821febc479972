(** Facts about Fourier resampling of real signals. *)
From Coq Require Import List Arith ZArith Reals Lra Lia Bool.
From Verif Require Import Num NdArray NdFacts Spec SumFacts Cplx DftFacts ModelRunHW ModelDownsample SpecDownsample DsFacts.
Import ListNotations.
Local Open Scope R_scope.

Definition cw (num k : nat) : R := if (k =? 0)%nat || (2 * k =? num)%nat then 1 else 2.
Definition rY (num nx : nat) (f : nat -> R) : nat -> C := resample_spec num nx (rfft1 nx f).
Lemma resample1_eq num nx f j : (0 < num)%nat -> (0 < nx)%nat ->
  resample1 num nx f j = / INR nx * rsum (num / 2 + 1) (fun k => cw num k * re (Cmul (rY num nx f k) (wn num (Z.of_nat k * Z.of_nat j)))).
Proof.
  intros P Q. unfold resample1, irfft1. rewrite nsum_rsum. fold (rY num nx f). unfold cw.
  apply INR_pos in P, Q. field. lra.
Qed.

Lemma Cadd_re a b : re (Cadd a b) = re a + re b. Proof. reflexivity. Qed.
Lemma Cscal_re a b : re (Cscal a b) = a * re b. Proof. reflexivity. Qed.
Lemma rfft1_ext nx f g k : (forall i, (i < nx)%nat -> f i = g i) -> rfft1 nx f k = rfft1 nx g k.
Proof. intro E. apply csum_ext. intros i Hi. now rewrite E. Qed.
Lemma rfft1_lin nx a b f g k : rfft1 nx (fun i => a * f i + b * g i) k = Cadd (Cscal a (rfft1 nx f k)) (Cscal b (rfft1 nx g k)).
Proof.
  unfold rfft1. rewrite <- !csum_scal, <- csum_add. apply csum_ext. intros i _. apply C_eq; cbn; ring.
Qed.
Lemma spec_ext num nx X Y k : (forall k, (k <= Nat.min num nx / 2)%nat -> X k = Y k) -> resample_spec num nx X k = resample_spec num nx Y k.
Proof.
  intros E. unfold resample_spec. destruct (Nat.leb_spec k (Nat.min num nx / 2)); [|reflexivity]. now rewrite E.
Qed.
Lemma spec_lin num nx a b X Y k :
  resample_spec num nx (fun k => Cadd (Cscal a (X k)) (Cscal b (Y k))) k = Cadd (Cscal a (resample_spec num nx X k)) (Cscal b (resample_spec num nx Y k)).
Proof.
  unfold resample_spec. destruct (_ <=? _)%nat; [|apply C_eq; cbn; ring].
  destruct (_ && _); [|reflexivity]. destruct (_ <? _)%nat; [apply C_eq; cbn; ring|]. destruct (_ <? _)%nat; [apply C_eq; cbn; ring|reflexivity].
Qed.
Lemma resample1_ext num nx f g j : (0 < num)%nat -> (0 < nx)%nat -> (forall i, (i < nx)%nat -> f i = g i) -> resample1 num nx f j = resample1 num nx g j.
Proof.
  intros P Q E. rewrite !resample1_eq by assumption. f_equal. apply rsum_ext. intros k _. do 3 f_equal.
  apply spec_ext. intros. now apply rfft1_ext.
Qed.
Lemma resample1_lin num nx a b f g j : (0 < num)%nat -> (0 < nx)%nat ->
  resample1 num nx (fun i => a * f i + b * g i) j = a * resample1 num nx f j + b * resample1 num nx g j.
Proof.
  intros P Q. rewrite !resample1_eq by assumption.
  rewrite (rsum_ext _ _ (fun k => a * (cw num k * re (Cmul (rY num nx f k) (wn num (Z.of_nat k * Z.of_nat j)))) + b * (cw num k * re (Cmul (rY num nx g k) (wn num (Z.of_nat k * Z.of_nat j)))))).
  - rewrite rsum_add, !rsum_scal. ring.
  - intros k _. unfold rY. rewrite (spec_ext _ _ _ (fun k => Cadd (Cscal a (rfft1 nx f k)) (Cscal b (rfft1 nx g k)))) by (intros; apply rfft1_lin).
    rewrite spec_lin. cbn [Cmul Cadd Cscal re im]. ring.
Qed.
Lemma resample1_zero num nx j : (0 < num)%nat -> (0 < nx)%nat -> resample1 num nx (fun _ => 0) j = 0.
Proof.
  intros P Q. pose proof (resample1_lin num nx 0 0 (fun _ => 0) (fun _ => 0) j P Q) as L.
  rewrite (resample1_ext num nx (fun _ => 0) (fun _ => 0 * 0 + 0 * 0) j) by (assumption || (intros; ring)). rewrite L. ring.
Qed.
Lemma resample1_scal num nx c f j : (0 < num)%nat -> (0 < nx)%nat -> resample1 num nx (fun i => c * f i) j = c * resample1 num nx f j.
Proof.
  intros P Q. rewrite (resample1_ext num nx _ (fun i => c * f i + 0 * 0)) by (assumption || (intros; ring)).
  rewrite (resample1_lin num nx c 0 f (fun _ => 0)) by assumption. ring.
Qed.
Lemma resample1_sum num nx M (f : nat -> nat -> R) j : (0 < num)%nat -> (0 < nx)%nat ->
  resample1 num nx (fun i => rsum M (fun m => f m i)) j = rsum M (fun m => resample1 num nx (f m) j).
Proof.
  intros P Q. induction M as [|M IH]; cbn [rsum]; [now apply resample1_zero|].
  rewrite (resample1_ext num nx _ (fun i => 1 * rsum M (fun m => f m i) + 1 * f M i)) by (assumption || (intros; ring)).
  rewrite resample1_lin by assumption. rewrite IH. ring.
Qed.

(** one Fourier mode below both Nyquist frequencies *)
Lemma rfft1_mode nx c m k : (0 < nx)%nat -> (2 * m < nx)%nat -> (2 * k <= nx)%nat ->
  rfft1 nx (fun i => re (Cmul c (wn nx (Z.of_nat m * Z.of_nat i)))) k
  = if (k =? m)%nat then (if (m =? 0)%nat then RtoC (INR nx * re c) else Cscal (INR nx / 2) c) else C0.
Proof.
  intros P M K. unfold rfft1.
  rewrite (csum_ext nx _ (fun i => Cadd (Cmul (Cscal (1/2) c) (wn nx ((Z.of_nat m - Z.of_nat k) * Z.of_nat i)))
                                       (Cmul (Cscal (1/2) (Cconj c)) (wn nx ((- Z.of_nat m - Z.of_nat k) * Z.of_nat i))))).
  2:{ intros i _. replace ((Z.of_nat m - Z.of_nat k) * Z.of_nat i)%Z with (Z.of_nat m * Z.of_nat i + - (Z.of_nat k * Z.of_nat i))%Z by ring.
      replace ((- Z.of_nat m - Z.of_nat k) * Z.of_nat i)%Z with (- (Z.of_nat m * Z.of_nat i) + - (Z.of_nat k * Z.of_nat i))%Z by ring.
      rewrite !wn_add, <- (wn_conj nx (Z.of_nat m * Z.of_nat i)). apply C_eq; cbn; field. }
  rewrite csum_add, !csum_mul, !csum_wn by exact P.
  assert (NE : forall z, (- Z.of_nat nx < z < Z.of_nat nx)%Z -> (z mod Z.of_nat nx =? 0)%Z = (z =? 0)%Z).
  { intros z Hz. destruct (Z.eqb_spec z 0) as [->|Nz]; [rewrite Z.mod_0_l by lia; reflexivity|].
    apply Z.eqb_neq. intro E. apply Z.mod_divide in E; [|lia]. destruct E as [q E]. assert (q = 0)%Z by nia. subst q. lia. }
  rewrite !NE by lia.
  destruct (Nat.eqb_spec k m) as [->|N].
  - rewrite Z.sub_diag. change (0 =? 0)%Z with true. cbv iota.
    destruct (Nat.eqb_spec m 0) as [->|N0].
    + change (- Z.of_nat 0 - Z.of_nat 0 =? 0)%Z with true. cbv iota. apply C_eq; cbn; field.
    + destruct (Z.eqb_spec (- Z.of_nat m - Z.of_nat m) 0); [lia|]. apply C_eq; cbn; field.
  - destruct (Z.eqb_spec (Z.of_nat m - Z.of_nat k) 0); [lia|]. destruct (Z.eqb_spec (- Z.of_nat m - Z.of_nat k) 0); [lia|].
    apply C_eq; cbn; ring.
Qed.
Lemma half_le n k : (k <= n / 2)%nat <-> (2 * k <= n)%nat.
Proof.
  pose proof (Nat.div_mod_eq n 2). assert (n mod 2 < 2)%nat by (apply Nat.mod_upper_bound; lia). lia.
Qed.
Lemma resample1_mode num nx c m j : (2 * m < num)%nat -> (2 * m < nx)%nat ->
  resample1 num nx (fun i => re (Cmul c (wn nx (Z.of_nat m * Z.of_nat i)))) j = re (Cmul c (wn num (Z.of_nat m * Z.of_nat j))).
Proof.
  intros M1 M2. rewrite resample1_eq by lia.
  assert (L : (m < num / 2 + 1)%nat) by (assert ((m <= num / 2)%nat) by (apply half_le; lia); lia).
  assert (Y : forall k, rY num nx (fun i => re (Cmul c (wn nx (Z.of_nat m * Z.of_nat i)))) k
      = if (k =? m)%nat then (if (m =? 0)%nat then RtoC (INR nx * re c) else Cscal (INR nx / 2) c) else C0).
  { intro k. unfold rY, resample_spec. destruct (Nat.leb_spec k (Nat.min num nx / 2)) as [Hk|Hk].
    - apply half_le in Hk. rewrite rfft1_mode by lia. destruct (Nat.eqb_spec k m) as [->|N].
      + destruct (Nat.eqb_spec m (Nat.min num nx / 2)) as [E|E].
        * assert (H : Nat.even (Nat.min num nx) = false).
          { destruct (Nat.even (Nat.min num nx)) eqn:Ev; [|reflexivity]. apply Nat.even_spec in Ev. destruct Ev as [q Ev].
            rewrite Ev in E. replace (2 * q)%nat with (q * 2)%nat in E by lia. rewrite Nat.div_mul in E by lia. lia. }
          rewrite H. reflexivity.
        * rewrite andb_false_r. reflexivity.
      + destruct (_ && _); [|reflexivity]. repeat (destruct (_ <? _)%nat); try reflexivity; apply C_eq; cbn; ring.
    - destruct (Nat.eqb_spec k m) as [->|N]; [|reflexivity].
      assert ((m <= Nat.min num nx / 2)%nat) by (apply half_le; lia). lia. }
  rewrite (rsum_single _ m); [|exact L|].
  - rewrite Y, Nat.eqb_refl. unfold cw. assert (Pn : 0 < INR nx) by (apply INR_pos; lia).
    destruct (Nat.eqb_spec m 0) as [->|N].
    + cbn [orb Z.of_nat Z.mul]. rewrite wn_0. cbn. field. lra.
    + destruct (Nat.eqb_spec (2 * m) num); [lia|]. cbn [orb]. cbn [Cmul Cscal re im]. field. lra.
  - intros k _ N. rewrite Y. destruct (Nat.eqb_spec k m); [contradiction|]. cbn. ring.
Qed.

Lemma mode_trig n a b k i : (0 < n)%nat ->
  a * cos (2 * PI * INR k * (INR i / INR n)) + b * sin (2 * PI * INR k * (INR i / INR n))
  = re (Cmul (mkC a (- b)) (wn n (Z.of_nat k * Z.of_nat i))).
Proof.
  intro P. apply INR_pos in P. unfold wn, cis. cbn [Cmul re im]. rewrite mult_IZR, <- !INR_IZR_INZ.
  replace (2 * PI * (INR k * INR i) / INR n) with (2 * PI * INR k * (INR i / INR n)) by (field; lra). ring.
Qed.
Lemma resample1_trig num nx K a b j : (2 * K < num)%nat -> (2 * K < nx)%nat ->
  resample1 num nx (fun i => trig K a b (INR i / INR nx)) j = trig K a b (INR j / INR num).
Proof.
  intros H1 H2. unfold trig. rewrite resample1_sum by lia. apply rsum_ext. intros k Hk.
  rewrite (resample1_ext num nx _ (fun i => re (Cmul (mkC (a k) (- b k)) (wn nx (Z.of_nat k * Z.of_nat i))))) by (lia || (intros; apply mode_trig; lia)).
  rewrite resample1_mode by lia. symmetry. apply mode_trig. lia.
Qed.
Lemma resample1_const num nx c j : (0 < num)%nat -> (0 < nx)%nat -> resample1 num nx (fun _ => c) j = c.
Proof.
  intros P Q. pose proof (resample1_trig num nx 0 (fun _ => c) (fun _ => 0) j ltac:(lia) ltac:(lia)) as T.
  assert (E : forall x, trig 0 (fun _ => c) (fun _ => 0) x = c).
  { intro x. unfold trig. cbn. rewrite Rmult_0_r, Rmult_0_l, cos_0. ring. }
  rewrite E in T. etransitivity; [|exact T]. apply resample1_ext; auto.
Qed.

(** the mean is kept exactly *)
Lemma resample1_total num nx f : (0 < num)%nat -> (0 < nx)%nat ->
  rsum num (resample1 num nx f) = INR num / INR nx * rsum nx f.
Proof.
  intros P Q. rewrite (rsum_ext _ _ (fun j => / INR nx * rsum (num / 2 + 1) (fun k => cw num k * re (Cmul (rY num nx f k) (wn num (Z.of_nat k * Z.of_nat j))))))
    by (intros; now apply resample1_eq).
  rewrite rsum_scal, rsum_swap.
  rewrite (rsum_single _ 0); [|lia|].
  - unfold cw. cbn [Nat.eqb orb]. rewrite (rsum_ext _ _ (fun _ => re (rY num nx f 0))).
    2:{ intros j _. cbn [Z.of_nat Z.mul]. rewrite wn_0. cbn. ring. }
    rewrite rsum_const.
    assert (E : rY num nx f 0 = RtoC (rsum nx f)).
    { unfold rY, resample_spec. change (0 <=? Nat.min num nx / 2)%nat with true. cbv iota.
      assert (H : Nat.even (Nat.min num nx) && (0 =? Nat.min num nx / 2)%nat = false).
      { destruct (Nat.min num nx) as [|[|n]] eqn:E; [lia|reflexivity|].
        assert ((1 <= S (S n) / 2)%nat) by (apply half_le; lia). destruct (Nat.eqb_spec 0 (S (S n) / 2)); [lia|]. apply andb_false_r. }
      rewrite H. unfold rfft1. rewrite (csum_ext _ _ (fun i => RtoC (f i))).
      - apply C_eq; cbn [RtoC re im]; [rewrite csum_re; apply rsum_ext; reflexivity|]. rewrite csum_im. cbn. apply rsum_zero.
      - intros i _. cbn [Z.of_nat Z.mul Z.opp]. rewrite wn_0. apply C_eq; cbn; ring. }
    rewrite E. cbn [RtoC re]. apply INR_pos in Q. field. lra.
  - intros k Hk N. rewrite rsum_scal.
    rewrite <- (csum_re num (fun j => Cmul (rY num nx f k) (wn num (Z.of_nat k * Z.of_nat j)))), csum_mul, csum_wn by exact P.
    destruct (Z.eqb_spec (Z.of_nat k mod Z.of_nat num) 0) as [E|E].
    + exfalso. assert ((2 * k <= num)%nat) by (apply half_le; lia). rewrite Z.mod_small in E by lia. lia.
    + cbn. ring.
Qed.

(** conjugate symmetric sums *)
Lemma rsum_sym n (g : nat -> R) : (0 < n)%nat -> (forall k, (0 < k < n)%nat -> g (n - k)%nat = g k) ->
  rsum n g = rsum (n / 2 + 1) (fun k => cw n k * g k).
Proof.
  intros P Sy. destruct (Nat.Even_or_Odd n) as [[q E]|[q E]].
  - assert (D : (n / 2 = q)%nat) by (rewrite E, Nat.mul_comm; apply Nat.div_mul; lia). rewrite D.
    destruct q as [|q]; [lia|].
    replace n with (S (q + S q))%nat at 1 by lia. rewrite rsum_S_l, rsum_split.
    replace (S q + 1)%nat with (S (S q)) by lia. rewrite rsum_S_l. rewrite rsum_S_l.
    replace (rsum (S q) (fun i => cw n (S i) * g (S i))) with (2 * rsum q (fun i => g (S i)) + g (S q)).
    2:{ cbn [rsum]. f_equal.
        - rewrite <- rsum_scal. apply rsum_ext. intros i Hi. unfold cw. cbn [Nat.eqb orb]. destruct (Nat.eqb_spec (2 * S i) n); [lia|reflexivity].
        - unfold cw. cbn [Nat.eqb orb]. destruct (Nat.eqb_spec (2 * S q) n); [ring|lia]. }
    unfold cw at 1. cbn [Nat.eqb orb]. replace (q + 0)%nat with q by lia.
    replace (rsum q (fun i => g (S (q + S i)))) with (rsum q (fun i => g (S i))); [ring|].
    rewrite <- rsum_rev. apply rsum_ext. intros i Hi. rewrite <- (Sy (S (q - 1 - i))) by lia. f_equal. lia.
  - assert (D : (n / 2 = q)%nat) by (symmetry; apply (Nat.div_unique _ 2 q 1); lia). rewrite D.
    replace n with (S (q + q))%nat at 1 by lia. rewrite rsum_S_l, rsum_split.
    rewrite Nat.add_1_r, rsum_S_l.
    replace (rsum q (fun i => cw n (S i) * g (S i))) with (2 * rsum q (fun i => g (S i))).
    2:{ rewrite <- rsum_scal. apply rsum_ext. intros i Hi. unfold cw. cbn [Nat.eqb orb]. destruct (Nat.eqb_spec (2 * S i) n); [lia|reflexivity]. }
    unfold cw at 1. cbn [Nat.eqb orb].
    replace (rsum q (fun i => g (S (q + i)))) with (rsum q (fun i => g (S i))); [ring|].
    rewrite <- rsum_rev. apply rsum_ext. intros i Hi. rewrite <- (Sy (S (q - 1 - i))) by lia. f_equal. lia.
Qed.

(** refining the grid m-fold keeps the old values *)
Lemma resample1_refine m nx f j : (0 < m)%nat -> (j < nx)%nat -> resample1 (m * nx) nx f (m * j) = f j.
Proof.
  intros M J. assert (P : (0 < m * nx)%nat) by nia. rewrite resample1_eq by lia.
  assert (Pn : 0 < INR nx) by (apply INR_pos; lia).
  assert (W : forall k, wn (m * nx) (Z.of_nat k * Z.of_nat (m * j)) = wn nx (Z.of_nat k * Z.of_nat j)).
  { intro k. unfold wn. f_equal. rewrite !mult_IZR, <- !INR_IZR_INZ, !mult_INR. field. split; [lra|].
    assert (0 < INR m) by (apply INR_pos; lia). lra. }
  assert (Mn : Nat.min (m * nx) nx = nx) by (apply Nat.min_r; nia).
  set (g := fun k => re (Cmul (rfft1 nx f k) (wn nx (Z.of_nat k * Z.of_nat j)))).
  assert (T : rsum (m * nx / 2 + 1) (fun k => cw (m * nx) k * re (Cmul (rY (m * nx) nx f k) (wn (m * nx) (Z.of_nat k * Z.of_nat (m * j)))))
            = rsum (nx / 2 + 1) (fun k => cw nx k * g k)).
  { assert (H : (nx / 2 <= m * nx / 2)%nat) by (apply half_le; assert ((2 * (nx / 2) <= nx)%nat) by (apply half_le; lia); nia).
    replace (m * nx / 2 + 1)%nat with (nx / 2 + 1 + (m * nx / 2 - nx / 2))%nat by lia. rewrite rsum_split.
    rewrite (rsum_ext (m * nx / 2 - nx / 2) _ (fun _ => 0)).
    2:{ intros k _. unfold rY, resample_spec. rewrite Mn. destruct (Nat.leb_spec (nx / 2 + 1 + k) (nx / 2)); [lia|]. cbn. ring. }
    rewrite rsum_zero, Rplus_0_r. apply rsum_ext. intros k Hk. rewrite W. unfold rY, resample_spec, g. rewrite Mn.
    destruct (Nat.leb_spec k (nx / 2)) as [L|L]; [|lia].
    destruct (Nat.ltb_spec (m * nx) nx) as [B|B]; [nia|].
    assert (L2 : (2 * k <= nx)%nat) by now apply half_le.
    destruct (Nat.ltb_spec nx (m * nx)) as [B'|B'].
    - destruct (Nat.even nx && (k =? nx / 2)%nat) eqn:Ev.
      + apply andb_prop in Ev. destruct Ev as [Ev Ek]. apply Nat.eqb_eq in Ek. apply Nat.even_spec in Ev. destruct Ev as [q Ev].
        assert (K2 : (2 * k = nx)%nat). { rewrite Ek, Ev. replace (2 * q)%nat with (q * 2)%nat at 1 by lia. rewrite Nat.div_mul by lia. lia. }
        unfold cw. destruct (Nat.eqb_spec k 0); [lia|]. destruct (Nat.eqb_spec (2 * k) (m * nx)); [lia|]. destruct (Nat.eqb_spec (2 * k) nx); [|lia].
        cbn [orb]. rewrite Cscal_mul, Cscal_re. field.
      + f_equal. unfold cw. destruct (Nat.eqb_spec k 0); [reflexivity|]. cbn [orb].
        destruct (Nat.eqb_spec (2 * k) (m * nx)); [lia|]. destruct (Nat.eqb_spec (2 * k) nx) as [K2|]; [|reflexivity].
        exfalso. subst nx. assert (H1 : Nat.even (2 * k) = true) by (apply Nat.even_spec; now exists k).
        rewrite H1 in Ev. replace (2 * k)%nat with (k * 2)%nat in Ev by lia. rewrite Nat.div_mul, Nat.eqb_refl in Ev by lia. discriminate.
    - replace (m * nx)%nat with nx by lia. destruct (_ && _); reflexivity. }
  rewrite T. rewrite <- rsum_sym; [|lia|].
  - unfold g. rewrite <- csum_re.
    rewrite (csum_ext _ _ (fun k => csum nx (fun i => Cscal (f i) (wn nx (Z.of_nat k * (Z.of_nat j - Z.of_nat i)))))).
    2:{ intros k _. unfold rfft1. rewrite <- csum_mul_r. apply csum_ext. intros i _. rewrite Cscal_mul, <- wn_add. do 2 f_equal. ring. }
    rewrite csum_swap. rewrite (csum_single _ j); [|exact J|].
    + rewrite csum_scal, (csum_ext _ _ (fun _ => C1)).
      2:{ intros k _. rewrite Z.sub_diag, Z.mul_0_r. apply wn_0. }
      rewrite Cscal_re, csum_re. cbn [re C1]. rewrite rsum_const. field. lra.
    + intros i Hi N. rewrite csum_scal.
      rewrite (csum_ext _ _ (fun k => wn nx ((Z.of_nat j - Z.of_nat i) * Z.of_nat k))) by (intros; f_equal; ring).
      rewrite csum_wn by lia. destruct (Z.eqb_spec ((Z.of_nat j - Z.of_nat i) mod Z.of_nat nx) 0) as [E|E].
      * exfalso. apply Z.mod_divide in E; [|lia]. destruct E as [q E]. assert (q = 0)%Z by nia. subst q. lia.
      * apply C_eq; cbn; ring.
  - intros k Hk. unfold g.
    assert (E1 : rfft1 nx f (nx - k) = Cconj (rfft1 nx f k)).
    { unfold rfft1. rewrite csum_conj. apply csum_ext. intros i _.
      replace (wn nx (- (Z.of_nat (nx - k) * Z.of_nat i))) with (Cconj (wn nx (- (Z.of_nat k * Z.of_nat i)))); [apply C_eq; cbn; ring|].
      rewrite wn_conj. rewrite <- (wn_period nx (- (Z.of_nat (nx - k) * Z.of_nat i)) (Z.of_nat i)) by lia. f_equal. nia. }
    assert (E2 : wn nx (Z.of_nat (nx - k) * Z.of_nat j) = Cconj (wn nx (Z.of_nat k * Z.of_nat j))).
    { rewrite wn_conj. rewrite <- (wn_period nx (- (Z.of_nat k * Z.of_nat j)) (Z.of_nat j)) by lia. f_equal. nia. }
    rewrite E1, E2, <- Cconj_mul. reflexivity.
Qed.
