(** Quadratic means of band-limited frames do not change under resampling. *)
From Coq Require Import List Arith ZArith Reals Lra Lia Bool String.
Import List.
From Verif Require Import Num NdArray Spec SumFacts Cplx DftFacts SpecFourier SpecHW SpecPlasma SpecDiag ModelRunHW ModelDownsample ModelArgs
  SpecRunHW SpecArgs SpecDownsample DsFacts DsFourier DsField.
Import ListNotations.
Local Open Scope R_scope.

(** mean of a product of two modes below the Nyquist frequency *)
Definition mode2 (k l : nat) (c d : C) : R :=
  (if (k + l =? 0)%nat then re (Cmul c d) / 2 else 0) + (if (k =? l)%nat then re (Cmul c (Cconj d)) / 2 else 0).
Lemma mode_mean n k l c d : (2 * k < n)%nat -> (2 * l < n)%nat ->
  rsum n (fun i => re (Cmul c (wn n (Z.of_nat k * Z.of_nat i))) * re (Cmul d (wn n (Z.of_nat l * Z.of_nat i)))) = INR n * mode2 k l c d.
Proof.
  intros Hk Hl.
  assert (NE : forall z, (- Z.of_nat n < z < Z.of_nat n)%Z -> (z mod Z.of_nat n =? 0)%Z = (z =? 0)%Z).
  { intros z Hz. destruct (Z.eqb_spec z 0) as [->|Nz]; [rewrite Z.mod_0_l by lia; reflexivity|].
    apply Z.eqb_neq. intro E. apply Z.mod_divide in E; [|lia]. destruct E as [q E]. assert (q = 0)%Z by nia. subst q. lia. }
  rewrite (rsum_ext n _ (fun i => re (Cadd (Cmul (Cscal (/ 2) (Cmul c d)) (wn n ((Z.of_nat k + Z.of_nat l) * Z.of_nat i)))
     (Cmul (Cscal (/ 2) (Cmul c (Cconj d))) (wn n ((Z.of_nat k - Z.of_nat l) * Z.of_nat i)))))).
  - rewrite <- (csum_re n (fun i => Cadd _ _)), csum_add, !csum_mul, !csum_wn by lia. rewrite !NE by lia. unfold mode2.
    destruct (Z.eqb_spec (Z.of_nat k + Z.of_nat l) 0); destruct (Nat.eqb_spec (k + l) 0); try lia;
    destruct (Z.eqb_spec (Z.of_nat k - Z.of_nat l) 0); destruct (Nat.eqb_spec k l); try lia; cbn; field.
  - intros i _.
    replace ((Z.of_nat k + Z.of_nat l) * Z.of_nat i)%Z with (Z.of_nat k * Z.of_nat i + Z.of_nat l * Z.of_nat i)%Z by ring.
    replace ((Z.of_nat k - Z.of_nat l) * Z.of_nat i)%Z with (Z.of_nat k * Z.of_nat i + - (Z.of_nat l * Z.of_nat i))%Z by ring.
    rewrite !wn_add, <- wn_conj. cbn. field.
Qed.
Definition trig_prod (K L : nat) (a b c d : nat -> R) : R :=
  rsum (K + 1) (fun k => rsum (L + 1) (fun l => mode2 k l (mkC (a k) (- b k)) (mkC (c l) (- d l)))).
Lemma rsum_prod n m f g : rsum n f * rsum m g = rsum n (fun i => rsum m (fun j => f i * g j)).
Proof. rewrite <- rsum_scal_r. apply rsum_ext. intros i _. rewrite <- rsum_scal. reflexivity. Qed.
Lemma trig_prod_mean n K L a b c d : (2 * K < n)%nat -> (2 * L < n)%nat ->
  rsum n (fun i => trig K a b (INR i / INR n) * trig L c d (INR i / INR n)) = INR n * trig_prod K L a b c d.
Proof.
  intros HK HL. unfold trig.
  rewrite (rsum_ext n _ (fun i => rsum (K + 1) (fun k => rsum (L + 1) (fun l =>
     re (Cmul (mkC (a k) (- b k)) (wn n (Z.of_nat k * Z.of_nat i))) * re (Cmul (mkC (c l) (- d l)) (wn n (Z.of_nat l * Z.of_nat i))))))).
  2:{ intros i _. rewrite rsum_prod. apply rsum_ext. intros k _. apply rsum_ext. intros l _. rewrite !mode_trig by lia. reflexivity. }
  rewrite rsum_swap. unfold trig_prod. rewrite <- rsum_scal. apply rsum_ext. intros k Hk.
  rewrite rsum_swap, <- rsum_scal. apply rsum_ext. intros l Hl. apply mode_mean; lia.
Qed.

Lemma samples_prod M Ky Kx a b c d M' a' b' c' d' ny nx :
  (2 * Ky < ny)%nat -> (2 * Kx < nx)%nat ->
  gmean ny nx (fun i j => samples M Ky Kx a b c d ny nx i j * samples M' Ky Kx a' b' c' d' ny nx i j)
  = rsum M (fun m => rsum M' (fun m' => trig_prod Ky Ky (a m) (b m) (a' m') (b' m') * trig_prod Kx Kx (c m) (d m) (c' m') (d' m'))).
Proof.
  intros Hy Hx. unfold gmean, gsum, samples, trig2.
  assert (Pn : 0 < INR ny) by (apply INR_pos; lia). assert (Px : 0 < INR nx) by (apply INR_pos; lia).
  match goal with |- ?s / _ = ?t => assert (E : s = INR ny * INR nx * t); [|rewrite E; field; lra] end.
  rewrite (rsum_ext ny _ (fun i => rsum M (fun m => rsum M' (fun m' =>
     (trig Ky (a m) (b m) (INR i / INR ny) * trig Ky (a' m') (b' m') (INR i / INR ny)) * (INR nx * trig_prod Kx Kx (c m) (d m) (c' m') (d' m')))))).
  - rewrite rsum_swap, <- rsum_scal. apply rsum_ext. intros m _. rewrite rsum_swap, <- rsum_scal. apply rsum_ext. intros m' _.
    rewrite rsum_scal_r, trig_prod_mean by lia. ring.
  - intros i _.
    rewrite (rsum_ext nx _ (fun j => rsum M (fun m => rsum M' (fun m' =>
      (trig Ky (a m) (b m) (INR i / INR ny) * trig Ky (a' m') (b' m') (INR i / INR ny)) *
      (trig Kx (c m) (d m) (INR j / INR nx) * trig Kx (c' m') (d' m') (INR j / INR nx)))))).
    + rewrite rsum_swap. apply rsum_ext. intros m _. rewrite rsum_swap. apply rsum_ext. intros m' _.
      rewrite rsum_scal, trig_prod_mean by lia. reflexivity.
    + intros j _. rewrite rsum_prod. apply rsum_ext. intros m _. apply rsum_ext. intros m' _. ring.
Qed.

(** sums of sampled polynomials are sampled polynomials *)
Definition cat (M : nat) (u v : nat -> nat -> R) (m : nat) : nat -> R := if (m <? M)%nat then u m else v (m - M)%nat.
Lemma trig_scal K s a b x : trig K (fun k => s * a k) (fun k => s * b k) x = s * trig K a b x.
Proof. unfold trig. rewrite <- rsum_scal. apply rsum_ext. intros. ring. Qed.
Lemma trig2_sub M Ky Kx a b c d M' a' b' c' d' s y x :
  trig2 M Ky Kx a b c d y x + s * trig2 M' Ky Kx a' b' c' d' y x
  = trig2 (M + M') Ky Kx (cat M a (fun m k => s * a' m k)) (cat M b (fun m k => s * b' m k)) (cat M c c') (cat M d d') y x.
Proof.
  unfold trig2. rewrite rsum_split. f_equal.
  - apply rsum_ext. intros m Hm. unfold cat. destruct (Nat.ltb_spec m M); [reflexivity|lia].
  - rewrite <- rsum_scal. apply rsum_ext. intros m Hm. unfold cat. destruct (Nat.ltb_spec (M + m) M); [lia|].
    replace (M + m - M)%nat with m by lia. rewrite trig_scal. ring.
Qed.

(** the sampled frame f on n cells per side and its resampling to m *)
Lemma band_square K n m f : (2 * K < n)%nat -> (2 * K < m)%nat -> band K n f ->
  gmean m m (fun i j => resample2 m m n n f i j ^ 2) = gmean n n (fun i j => f i j ^ 2).
Proof.
  intros Hn Hm (M & a & b & c & d & E).
  assert (E1 : forall i j, resample2 m m n n f i j = samples M K K a b c d m m i j).
  { intros i j. rewrite (resample2_ext m m n n f (samples M K K a b c d n n)) by (lia || exact E). apply resample2_trig; lia. }
  transitivity (gmean m m (fun i j => samples M K K a b c d m m i j * samples M K K a b c d m m i j)).
  { unfold gmean. f_equal. apply gsum_ext. intros i j _ _. rewrite E1. ring. }
  transitivity (gmean n n (fun i j => samples M K K a b c d n n i j * samples M K K a b c d n n i j)).
  { rewrite !samples_prod by lia. reflexivity. }
  unfold gmean. f_equal. apply gsum_ext. intros i j Hi Hj. rewrite E by assumption. ring.
Qed.
Lemma band_diff K n f g : band K n f -> band K n g -> band K n (fun i j => f i j - g i j).
Proof.
  intros (M & a & b & c & d & E) (M' & a' & b' & c' & d' & E').
  exists (M + M')%nat, (cat M a (fun m k => -1 * a' m k)), (cat M b (fun m k => -1 * b' m k)), (cat M c c'), (cat M d d').
  intros i j Hi Hj. rewrite E, E' by assumption. unfold samples. rewrite <- trig2_sub. ring.
Qed.
Lemma resample2_diff m n f g i j : (0 < n)%nat -> (0 < m)%nat ->
  resample2 m m n n f i j - resample2 m m n n g i j = resample2 m m n n (fun i j => f i j - g i j) i j.
Proof.
  intros. rewrite (resample2_ext m m n n (fun i j => f i j - g i j) (fadd (fscale 1 f) (fscale (-1) g))) by (auto; intros; unfold fadd, fscale; ring).
  rewrite resample2_lin by assumption. ring.
Qed.
Local Open Scope string_scope.
Lemma band_props K n m dx dx' c1 dn p o : (2 * K < n)%nat -> (2 * K < m)%nat -> band K n dn -> band K n p -> band K n o ->
  forall k, In k ["thermal_energy"; "gamma_c"; "enstrophy"] ->
  prop_value k m m dx' c1 (resample2 m m n n dn) (resample2 m m n n p) (resample2 m m n n o) = prop_value k n n dx c1 dn p o.
Proof.
  intros Hn Hm Bn Bp Bo k [<-|[<-|[<-|[]]]]; unfold prop_value; cbn [String.eqb Ascii.eqb Bool.eqb].
  - now rewrite (band_square K) by assumption.
  - f_equal. rewrite <- (band_square K n m (fun i j => dn i j - p i j)) by (auto; now apply band_diff).
    unfold gmean. f_equal. apply gsum_ext. intros i j _ _. now rewrite resample2_diff by lia.
  - f_equal. rewrite <- (band_square K n m (fun i j => dn i j - o i j)) by (auto; now apply band_diff).
    unfold gmean. f_equal. apply gsum_ext. intros i j _ _. now rewrite resample2_diff by lia.
Qed.

(** modes above the new Nyquist frequency are removed *)
Lemma resample1_above num nx c m j : (0 < num)%nat -> (num < 2 * m)%nat -> (2 * m < nx)%nat ->
  resample1 num nx (fun i => re (Cmul c (wn nx (Z.of_nat m * Z.of_nat i)))) j = 0.
Proof.
  intros P M1 M2. rewrite resample1_eq by lia. rewrite (rsum_ext _ _ (fun _ => 0)); [rewrite rsum_zero; ring|].
  intros k Hk. assert (L : (2 * k <= num)%nat) by (apply half_le; lia).
  enough (E : rY num nx (fun i => re (Cmul c (wn nx (Z.of_nat m * Z.of_nat i)))) k = C0) by (rewrite E; cbn; ring).
  unfold rY, resample_spec. destruct (_ <=? _)%nat; [|reflexivity]. rewrite rfft1_mode by lia.
  destruct (Nat.eqb_spec k m); [lia|]. destruct (_ && _); [|reflexivity].
  repeat (destruct (_ <? _)%nat); try reflexivity; apply C_eq; cbn; ring.
Qed.
Lemma resample2_above num n m (a b : R) i j : (0 < num)%nat -> (num < 2 * m)%nat -> (2 * m < n)%nat ->
  resample2 num num n n (fun _ j => a * cos (2 * PI * INR m * (INR j / INR n)) + b * sin (2 * PI * INR m * (INR j / INR n))) i j = 0.
Proof.
  intros P M1 M2. unfold resample2. rewrite (resample1_ext num n _ (fun _ => 0)) by (lia || (intros i' _;
    rewrite (resample1_ext num n _ (fun i => re (Cmul (mkC a (- b)) (wn n (Z.of_nat m * Z.of_nat i))))) by (lia || (intros; apply mode_trig; lia));
    apply resample1_above; lia)).
  apply resample1_zero; lia.
Qed.
(** the same for waves whose amplitudes vary along the other axis *)
Lemma resample1_trig_above num n m (a b : R) j : (0 < num)%nat -> (num < 2 * m)%nat -> (2 * m < n)%nat ->
  resample1 num n (fun j => a * cos (2 * PI * INR m * (INR j / INR n)) + b * sin (2 * PI * INR m * (INR j / INR n))) j = 0.
Proof.
  intros P M1 M2.
  rewrite (resample1_ext num n _ (fun i => re (Cmul (mkC a (- b)) (wn n (Z.of_nat m * Z.of_nat i)))))
    by (lia || (intros; apply mode_trig; lia)).
  apply resample1_above; lia.
Qed.
Lemma resample2_above_x ys xs ny nx m (a b : nat -> R) i j : (0 < ys)%nat -> (0 < ny)%nat -> (0 < xs)%nat ->
  (xs < 2 * m)%nat -> (2 * m < nx)%nat ->
  resample2 ys xs ny nx (fun i j => a i * cos (2 * PI * INR m * (INR j / INR nx)) + b i * sin (2 * PI * INR m * (INR j / INR nx))) i j = 0.
Proof.
  intros Y1 Y2 P M1 M2. unfold resample2. rewrite (resample1_ext ys ny _ (fun _ => 0)); auto.
  - apply resample1_zero; assumption.
  - intros i' _. now apply resample1_trig_above.
Qed.
Lemma resample2_above_y ys xs ny nx m (a b : nat -> R) i j : (0 < xs)%nat -> (0 < nx)%nat -> (0 < ys)%nat ->
  (ys < 2 * m)%nat -> (2 * m < ny)%nat ->
  resample2 ys xs ny nx (fun i j => a j * cos (2 * PI * INR m * (INR i / INR ny)) + b j * sin (2 * PI * INR m * (INR i / INR ny))) i j = 0.
Proof.
  intros Y1 Y2 P M1 M2. unfold resample2.
  rewrite (resample1_ext ys ny _ (fun i => resample1 xs nx a j * cos (2 * PI * INR m * (INR i / INR ny)) +
    resample1 xs nx b j * sin (2 * PI * INR m * (INR i / INR ny)))); auto; [now apply resample1_trig_above|lia|].
  intros i' _.
  rewrite (resample1_ext xs nx _ (fun j => cos (2 * PI * INR m * (INR i' / INR ny)) * a j +
     sin (2 * PI * INR m * (INR i' / INR ny)) * b j)) by (assumption || (intros; ring)).
  rewrite resample1_lin by assumption. ring.
Qed.
Lemma thermal_refuted : exists f : nat -> nat -> R,
  prop_value "thermal_energy" 8 8 1 1 f f f = 1 / 4 /\
  prop_value "thermal_energy" 4 4 2 1 (resample2 4 4 8 8 f) (resample2 4 4 8 8 f) (resample2 4 4 8 8 f) = 0.
Proof.
  exists (fun _ j => 1 * cos (2 * PI * INR 3 * (INR j / INR 8)) + 0 * sin (2 * PI * INR 3 * (INR j / INR 8))).
  unfold prop_value; cbn [String.eqb Ascii.eqb Bool.eqb]. split.
  - unfold gmean, gsum. rewrite rsum_const.
    rewrite (rsum_ext 8 _ (fun i => re (Cmul (mkC 1 (-0)) (wn 8 (Z.of_nat 3 * Z.of_nat i))) * re (Cmul (mkC 1 (-0)) (wn 8 (Z.of_nat 3 * Z.of_nat i))))).
    + rewrite mode_mean by lia. unfold mode2. cbn -[INR]. assert (0 < INR 8) by (apply INR_pos; lia). field. lra.
    + intros i _. rewrite mode_trig by lia. ring.
  - unfold gmean. rewrite (gsum_ext 4 4 _ (fun _ _ => 0)); [rewrite gsum_zero; lra|].
    intros i j _ _. rewrite resample2_above by lia. ring.
Qed.
