(** Properties and down-sampling under shifts and reflections. *)
From Coq Require Import FunctionalExtensionality Arith ZArith Bool Reals String List Lia Lra.
From Verif Require Import Num NdArray NdFacts Spec SumFacts GradFacts Cplx DftFacts SpecFourier SpecDiag LapFacts ArakawaFacts PoissonFacts PoissonProps SpecHW SpecPlasma HWFacts StepFacts RhsFacts SymFacts
  ModelHW ModelBackend ModelIO ModelRun ModelRunHW SpecIO SpecRun SpecRunHW ModelDownsample SpecDownsample DsFacts DsFourier SpecArgs DsField SpecMoved.
Import ListNotations.
Local Open Scope R_scope.

(** ** complex Fourier multipliers *)
Definition cmult (ny nx : nat) (m : nat -> nat -> C) (f : nat -> nat -> C) : nat -> nat -> C :=
  idft2 ny nx (fun k l => Cmul (m k l) (dft2 ny nx f (Z.of_nat k) (Z.of_nat l))).
Lemma cmult_shift ny nx m f sy sx i j : (0 < ny)%nat -> (0 < nx)%nat ->
  cmult ny nx m (fun i j => f (sh ny i sy) (sh nx j sx)) i j = cmult ny nx m f (sh ny i sy) (sh nx j sx).
Proof.
  intros Hy Hx. unfold cmult. rewrite !idft2_gc. f_equal. apply gcsum_ext; intros k l Hk Hl.
  rewrite dft2_shift by assumption.
  assert (E : pw ny nx (Z.of_nat k) (Z.of_nat l) (Z.of_nat (sh ny i sy)) (Z.of_nat (sh nx j sx)) =
     Cmul (pw ny nx (Z.of_nat k) (Z.of_nat l) (Z.of_nat i) (Z.of_nat j)) (pw ny nx (Z.of_nat k) (Z.of_nat l) sy sx)).
  { rewrite pw_swap.
    rewrite (pw_eqm ny nx (Z.of_nat (sh ny i sy)) (Z.of_nat (sh nx j sx)) (Z.of_nat i + sy) (Z.of_nat j + sx)).
    2,3: assumption.
    2,3: unfold sh; rewrite pidx_mod by assumption; apply Z.mod_mod; lia.
    rewrite (pw_swap ny nx (Z.of_nat k) (Z.of_nat l) (Z.of_nat i)), (pw_swap ny nx (Z.of_nat k) (Z.of_nat l) sy).
    now rewrite pw_mul. }
  rewrite E. ring.
Qed.
Lemma cmult_mirror ny nx m f i j : (0 < ny)%nat -> (0 < nx)%nat ->
  (forall k l, (k < ny)%nat -> (l < nx)%nat -> m k (pidx nx (- Z.of_nat l)) = m k l) ->
  cmult ny nx m (fun i j => f i (pidx nx (- Z.of_nat j))) i j = cmult ny nx m f i (pidx nx (- Z.of_nat j)).
Proof.
  intros Hy Hx Hm. unfold cmult. rewrite !idft2_gc. f_equal. unfold gcsum. apply csum_ext. intros k Hk.
  rewrite <- csum_neg. apply csum_ext. intros l Hl. rewrite Hm by assumption. rewrite dft2_mirror by assumption.
  assert (E1 : dft2 ny nx f (Z.of_nat k) (- Z.of_nat (pidx nx (- Z.of_nat l))) = dft2 ny nx f (Z.of_nat k) (Z.of_nat l)).
  { apply dft2_eqm; auto. rewrite pidx_mod by assumption. now apply neg_mod_neg. }
  rewrite E1. f_equal. unfold pw. f_equal. apply wn_eqm; [assumption|].
  rewrite !pidx_mod by assumption. rewrite Z.mul_mod_idemp_l, Z.mul_mod_idemp_r by lia. f_equal. ring.
Qed.
Lemma cmult_opp ny nx m (f : nat -> nat -> C) i j : cmult ny nx m (fun i j => Cscal (-1) (f i j)) i j = Cscal (-1) (cmult ny nx m f i j).
Proof.
  unfold cmult. rewrite !idft2_gc. 
  assert (E : forall k l, dft2 ny nx (fun i j => Cscal (-1) (f i j)) k l = Cscal (-1) (dft2 ny nx f k l)).
  { intros k l. rewrite !dft2_gc. unfold gcsum. rewrite <- csum_scal. apply csum_ext. intros a _. rewrite <- csum_scal. apply csum_ext. intros b _. apply C_eq; cbn; ring. }
  transitivity (Cscal (/ (INR ny * INR nx)) (Cscal (-1) (gcsum ny nx (fun k l => Cmul (Cmul (m k l) (dft2 ny nx f (Z.of_nat k) (Z.of_nat l))) (pw ny nx (Z.of_nat k) (Z.of_nat l) (Z.of_nat i) (Z.of_nat j)))))).
  - f_equal. unfold gcsum. rewrite <- csum_scal. apply csum_ext. intros a _. rewrite <- csum_scal. apply csum_ext. intros b _. rewrite E. apply C_eq; cbn; ring.
  - apply C_eq; cbn; ring.
Qed.

(** ** the eight properties *)
Section Props.
Variables (ny nx : nat) (dx c1 : R).
Hypothesis Hy : (0 < ny)%nat.
Hypothesis Hx : (0 < nx)%nat.
Definition lapm (k l : nat) : C := RtoC (lap_symbol ny nx dx k l).
Definition dym (k l : nat) : C := mkC 0 (2 * PI * IZR (sfreq ny k) / (INR ny * dx)).
Lemma speclap_cmult f i j : speclap ny nx dx f i j = cmult ny nx lapm (cfield f) i j.
Proof.
  unfold speclap, cmult. rewrite !idft2_gc. f_equal. apply gcsum_ext. intros k l _ _. f_equal. apply C_eq; cbn; unfold cfield; ring.
Qed.
Lemma specdy_cmult f i j : specdy ny nx dx f i j = re (cmult ny nx dym (cfield f) i j).
Proof. reflexivity. Qed.
Section S.
Variables sy sx : Z.
Local Notation T := (ftrans ny nx sy sx).
Lemma speclap_tr f i j : speclap ny nx dx (T f) i j = speclap ny nx dx f (sh ny i sy) (sh nx j sx).
Proof. rewrite !speclap_cmult. exact (cmult_shift ny nx lapm (cfield f) sy sx i j Hy Hx). Qed.
Lemma specdy_tr f i j : specdy ny nx dx (T f) i j = specdy ny nx dx f (sh ny i sy) (sh nx j sx).
Proof. rewrite !specdy_cmult. f_equal. exact (cmult_shift ny nx dym (cfield f) sy sx i j Hy Hx). Qed.
Lemma cdx_tr f i j : cdx nx dx (T f) i j = T (cdx nx dx f) i j.
Proof. unfold cdx, ftrans. now rewrite !(sh_comm ny nx Hy Hx nx j _ sx) by assumption. Qed.
Lemma gmean_tr (F G : field) : (forall i j, G i j = F (sh ny i sy) (sh nx j sx)) -> gmean ny nx G = gmean ny nx F.
Proof.
  intros E. unfold gmean. f_equal. rewrite <- (gsum_shift ny nx sy sx F Hy Hx). unfold gsum. apply rsum_ext. intros i _. apply rsum_ext. intros j _. apply E.
Qed.
Lemma prop_tr k n p o : prop_value k ny nx dx c1 (T n) (T p) (T o) = prop_value k ny nx dx c1 n p o.
Proof.
  unfold prop_value. repeat match goal with |- context [String.eqb ?a ?b] => destruct (String.eqb a b) end.
  - f_equal. apply gmean_tr. intros i j. rewrite (cdy_shift ny nx dx Hy Hx). reflexivity.
  - f_equal. apply gmean_tr. intros i j. rewrite specdy_tr. reflexivity.
  - f_equal. apply gmean_tr. reflexivity.
  - f_equal. apply gmean_tr. intros i j. rewrite cdx_tr, (cdy_shift ny nx dx Hy Hx). reflexivity.
  - f_equal. apply gmean_tr. reflexivity.
  - do 2 f_equal. apply gmean_tr. intros i j. rewrite speclap_tr. reflexivity.
  - f_equal. apply gmean_tr. reflexivity.
  - f_equal. apply gmean_tr. intros i j. rewrite (lap5_shift ny nx dx Hy Hx). reflexivity.
Qed.
End S.
Local Notation M := (fmirror nx).
Lemma mirror_eq f i j : M f i j = fopp (mirror nx f) i j. Proof. reflexivity. Qed.
Lemma gmean_mir (F G : field) : (forall i j, G i j = F i (pidx nx (- Z.of_nat j))) -> gmean ny nx G = gmean ny nx F.
Proof.
  intros E. unfold gmean. f_equal. unfold gsum. apply rsum_ext. intros i _. rewrite <- (rsum_neg nx (fun j => F i j)). apply rsum_ext. intros j _. apply E.
Qed.
Lemma lap_symbol_mirror k l : (l < nx)%nat -> lap_symbol ny nx dx k (pidx nx (- Z.of_nat l)) = lap_symbol ny nx dx k l.
Proof.
  intros Hl. unfold lap_symbol. do 2 f_equal.
  destruct (sfreq_neg nx l Hl) as [E|E]; rewrite E; [reflexivity|]. rewrite opp_IZR. unfold Rdiv. ring.
Qed.
Lemma cmult_M m f i j : (forall k l, (k < ny)%nat -> (l < nx)%nat -> m k (pidx nx (- Z.of_nat l)) = m k l) ->
  cmult ny nx m (cfield (M f)) i j = Cscal (-1) (cmult ny nx m (cfield f) i (pidx nx (- Z.of_nat j))).
Proof.
  intros Hm. rewrite <- (cmult_mirror ny nx m (cfield f) i j Hy Hx Hm), <- cmult_opp.
  unfold cmult. f_equal. apply functional_extensionality. intros k. apply functional_extensionality. intros l. f_equal.
  f_equal. apply functional_extensionality. intros a. apply functional_extensionality. intros c. unfold cfield, fmirror. apply C_eq; cbn; ring.
Qed.
Lemma speclap_mir f i j : speclap ny nx dx (M f) i j = Cscal (-1) (speclap ny nx dx f i (pidx nx (- Z.of_nat j))).
Proof. rewrite !speclap_cmult. apply cmult_M. intros k l Hk Hl. unfold lapm. now rewrite lap_symbol_mirror. Qed.
Lemma specdy_mir f i j : specdy ny nx dx (M f) i j = - specdy ny nx dx f i (pidx nx (- Z.of_nat j)).
Proof. rewrite !specdy_cmult, cmult_M by reflexivity. cbn. ring. Qed.
Lemma cdx_mir f i j : cdx nx dx (M f) i j = cdx nx dx f i (pidx nx (- Z.of_nat j)).
Proof. rewrite !cdx_R. unfold fmirror. rewrite !(sh_mirror ny nx Hy Hx). cbn [Z.opp]. unfold Rdiv. ring. Qed.
Lemma cdy_mir f i j : cdy ny dx (M f) i j = - cdy ny dx f i (pidx nx (- Z.of_nat j)).
Proof. exact (cdy_mirror ny nx dx f i j). Qed.
Lemma lap5_mir f i j : lap5 ny nx dx (M f) i j = - lap5 ny nx dx f i (pidx nx (- Z.of_nat j)).
Proof. exact (lap5_mirror ny nx dx Hy Hx f i j). Qed.
Lemma prop_mir k n p o : prop_value k ny nx dx c1 (M n) (M p) (M o) = prop_value k ny nx dx c1 n p o.
Proof.
  unfold prop_value. repeat match goal with |- context [String.eqb ?a ?b] => destruct (String.eqb a b) end.
  - f_equal. apply gmean_mir. intros i j. rewrite cdy_mir. unfold fmirror. ring.
  - f_equal. apply gmean_mir. intros i j. rewrite specdy_mir. unfold fmirror. ring.
  - f_equal. apply gmean_mir. intros i j. unfold fmirror. ring.
  - f_equal. apply gmean_mir. intros i j. rewrite cdx_mir, cdy_mir. unfold fmirror. ring.
  - f_equal. apply gmean_mir. intros i j. unfold fmirror. ring.
  - do 2 f_equal. apply gmean_mir. intros i j. rewrite speclap_mir. unfold fmirror. cbn. ring.
  - f_equal. apply gmean_mir. intros i j. unfold fmirror. ring.
  - f_equal. apply gmean_mir. intros i j. rewrite lap5_mir. unfold fmirror. ring.
Qed.
(** the properties only see the grid *)
Lemma gmean_ext (F G : field) : (forall i j, (i < ny)%nat -> (j < nx)%nat -> F i j = G i j) -> gmean ny nx F = gmean ny nx G.
Proof. intros E. unfold gmean. f_equal. unfold gsum. apply rsum_ext. intros i Hi. apply rsum_ext. intros j Hj. now apply E. Qed.
Lemma dft2_cext (f g : field) k l : agree ny nx f g -> dft2 ny nx (fun i j => RtoC (f i j)) k l = dft2 ny nx (fun i j => RtoC (g i j)) k l.
Proof. intros E. rewrite !dft2_gc. apply gcsum_ext. intros i j Hi Hj. now rewrite E. Qed.
Lemma prop_ext k n p o n' p' o' : agree ny nx n n' -> agree ny nx p p' -> agree ny nx o o' -> prop_value k ny nx dx c1 n p o = prop_value k ny nx dx c1 n' p' o'.
Proof.
  intros En Ep Eo.
  assert (Dy : forall i j, (j < nx)%nat -> cdy ny dx p i j = cdy ny dx p' i j).
  { intros i j Hj. unfold cdy. now rewrite !Ep by (auto using sh_lt). }
  assert (Dx : forall i j, (i < ny)%nat -> cdx nx dx p i j = cdx nx dx p' i j).
  { intros i j Hi. unfold cdx. now rewrite !Ep by (auto using sh_lt). }
  assert (L : forall i j, (i < ny)%nat -> (j < nx)%nat -> lap5 ny nx dx p i j = lap5 ny nx dx p' i j).
  { intros i j Hi Hj. unfold lap5. now rewrite !Ep by (auto using sh_lt). }
  assert (SL : forall i j, speclap ny nx dx p i j = speclap ny nx dx p' i j).
  { intros i j. unfold speclap. rewrite !idft2_gc. f_equal. apply gcsum_ext. intros a c _ _. now rewrite (dft2_cext p p'). }
  assert (SD : forall i j, specdy ny nx dx p i j = specdy ny nx dx p' i j).
  { intros i j. unfold specdy. rewrite !idft2_gc. do 2 f_equal. apply gcsum_ext. intros a c _ _. now rewrite (dft2_cext p p'). }
  unfold prop_value. repeat match goal with |- context [String.eqb ?a ?b] => destruct (String.eqb a b) end;
  repeat (apply (f_equal Ropp) || apply (f_equal (Rmult c1)) || apply (f_equal (fun z => z / 2)));
  try (apply (f_equal (fun z => - z / 2))); apply gmean_ext; intros i j Hi Hj; rewrite ?En, ?Eo, ?Dy, ?Dx, ?L, ?SL, ?SD, ?(Ep i j) by assumption; reflexivity.
Qed.
End Props.

(** ** resampling *)
Lemma wn_scale num nx k s t : (0 < num)%nat -> (0 < nx)%nat -> (s * Z.of_nat num = t * Z.of_nat nx)%Z -> wn nx (k * s) = wn num (k * t).
Proof.
  intros P Q E. unfold wn. f_equal. apply INR_pos in P, Q. rewrite !mult_IZR.
  assert (E' : IZR s * INR num = IZR t * INR nx) by (rewrite !INR_IZR_INZ, <- !mult_IZR; now f_equal).
  apply (Rmult_eq_reg_r (INR nx * INR num)); [|nra]. field_simplify; [|lra|lra]. 
  replace (2 * PI * IZR k * IZR s * INR num) with (2 * PI * IZR k * (IZR s * INR num)) by ring. rewrite E'. ring.
Qed.
Lemma rfft1_shift nx f s k : (0 < nx)%nat -> rfft1 nx (fun i => f (sh nx i s)) k = Cmul (wn nx (Z.of_nat k * s)) (rfft1 nx f k).
Proof.
  intros Q. unfold rfft1. rewrite <- (csum_shift nx s (fun i => Cscal (f i) (wn nx (- (Z.of_nat k * Z.of_nat i)))) Q). rewrite <- csum_mul.
  apply csum_ext. intros i _. 
  assert (E : wn nx (- (Z.of_nat k * Z.of_nat i)) = Cmul (wn nx (Z.of_nat k * s)) (wn nx (- (Z.of_nat k * Z.of_nat (sh nx i s))))).
  { rewrite <- wn_add. apply wn_eqm; [assumption|].
    replace (Z.of_nat k * s + - (Z.of_nat k * Z.of_nat (sh nx i s)))%Z with (Z.of_nat k * (s - Z.of_nat (sh nx i s)))%Z by ring.
    replace (- (Z.of_nat k * Z.of_nat i))%Z with (Z.of_nat k * - Z.of_nat i)%Z by ring.
    rewrite (Z.mul_mod (Z.of_nat k) (- Z.of_nat i)), (Z.mul_mod (Z.of_nat k) (s - _)) by lia. do 2 f_equal.
    unfold sh. rewrite pidx_mod by assumption. rewrite Zminus_mod_idemp_r. f_equal. ring. }
  rewrite E. apply C_eq; cbn; ring.
Qed.
Lemma spec_mul num nx X (w : nat -> C) k : resample_spec num nx (fun k => Cmul (w k) (X k)) k = Cmul (w k) (resample_spec num nx X k).
Proof.
  unfold resample_spec. destruct (_ <=? _)%nat; [|apply C_eq; cbn; ring].
  destruct (_ && _); [|reflexivity]. destruct (_ <? _)%nat; [apply C_eq; cbn; ring|]. destruct (_ <? _)%nat; [apply C_eq; cbn; ring|reflexivity].
Qed.
Lemma resample1_shift num nx f s t j : (0 < num)%nat -> (0 < nx)%nat -> (s * Z.of_nat num = t * Z.of_nat nx)%Z ->
  resample1 num nx (fun i => f (sh nx i s)) j = resample1 num nx f (sh num j t).
Proof.
  intros P Q E. rewrite !resample1_eq by assumption. f_equal. apply rsum_ext. intros k _. do 2 f_equal. unfold rY.
  rewrite (spec_ext num nx _ (fun k => Cmul (wn nx (Z.of_nat k * s)) (rfft1 nx f k))) by (intros; now apply rfft1_shift).
  rewrite spec_mul, (wn_scale num nx _ s t P Q E).
  rewrite (wn_eqm num (Z.of_nat k * Z.of_nat (sh num j t)) (Z.of_nat k * t + Z.of_nat k * Z.of_nat j)); [|assumption|].
  - rewrite wn_add. ring.
  - unfold sh. rewrite pidx_mod by assumption. rewrite Z.mul_mod_idemp_r by lia. f_equal. ring.
Qed.
Lemma rfft1_mirror nx f k : (0 < nx)%nat -> rfft1 nx (fun i => f (pidx nx (- Z.of_nat i))) k = Cconj (rfft1 nx f k).
Proof.
  intros Q. unfold rfft1. rewrite <- (csum_neg nx (fun i => Cscal (f i) (wn nx (- (Z.of_nat k * Z.of_nat i))))), csum_conj.
  apply csum_ext. intros i _. 
  assert (E : wn nx (- (Z.of_nat k * Z.of_nat i)) = Cconj (wn nx (- (Z.of_nat k * Z.of_nat (pidx nx (- Z.of_nat i)))))).
  { rewrite wn_conj. apply wn_eqm; [assumption|]. rewrite Z.opp_involutive.
    replace (- (Z.of_nat k * Z.of_nat i))%Z with (Z.of_nat k * - Z.of_nat i)%Z by ring.
    rewrite pidx_mod by assumption. now rewrite Z.mul_mod_idemp_r by lia. }
  rewrite E. apply C_eq; cbn; ring.
Qed.
Lemma spec_conj num nx X k : resample_spec num nx (fun k => Cconj (X k)) k = Cconj (resample_spec num nx X k).
Proof.
  unfold resample_spec. destruct (_ <=? _)%nat; [|apply C_eq; cbn; ring].
  destruct (_ && _); [|reflexivity]. destruct (_ <? _)%nat; [apply C_eq; cbn; ring|]. destruct (_ <? _)%nat; [apply C_eq; cbn; ring|reflexivity].
Qed.
Lemma resample1_mirror num nx f j : (0 < num)%nat -> (0 < nx)%nat ->
  resample1 num nx (fun i => f (pidx nx (- Z.of_nat i))) j = resample1 num nx f (pidx num (- Z.of_nat j)).
Proof.
  intros P Q. rewrite !resample1_eq by assumption. f_equal. apply rsum_ext. intros k _. f_equal. unfold rY.
  rewrite (spec_ext num nx _ (fun k => Cconj (rfft1 nx f k))) by (intros; now apply rfft1_mirror).
  rewrite spec_conj. 
  rewrite (wn_eqm num (Z.of_nat k * Z.of_nat (pidx num (- Z.of_nat j))) (- (Z.of_nat k * Z.of_nat j))); [|assumption|].
  - rewrite <- wn_conj. cbn. ring.
  - rewrite pidx_mod by assumption. rewrite Z.mul_mod_idemp_r by lia. f_equal. ring.
Qed.
Lemma resample2_shift ys xs ny nx f sy sx ty tx i j : (0 < ny)%nat -> (0 < nx)%nat -> (0 < ys)%nat -> (0 < xs)%nat ->
  (sy * Z.of_nat ys = ty * Z.of_nat ny)%Z -> (sx * Z.of_nat xs = tx * Z.of_nat nx)%Z ->
  resample2 ys xs ny nx (ftrans ny nx sy sx f) i j = ftrans ys xs ty tx (resample2 ys xs ny nx f) i j.
Proof.
  intros H1 H2 H3 H4 Ey Ex. unfold resample2, ftrans.
  rewrite <- (resample1_shift ys ny (fun i' => resample1 xs nx (f i') (sh xs j tx)) sy ty i H3 H1 Ey).
  apply resample1_ext; [assumption..|]. intros a _. exact (resample1_shift xs nx (f (sh ny a sy)) sx tx j H4 H2 Ex).
Qed.
Lemma resample2_mirror ys xs ny nx f i j : (0 < ny)%nat -> (0 < nx)%nat -> (0 < ys)%nat -> (0 < xs)%nat ->
  resample2 ys xs ny nx (fmirror nx f) i j = fmirror xs (resample2 ys xs ny nx f) i j.
Proof.
  intros H1 H2 H3 H4. unfold resample2, fmirror.
  transitivity (resample1 ys ny (fun i' => (-1) * resample1 xs nx (f i') (pidx xs (- Z.of_nat j))) i).
  - apply resample1_ext; [assumption..|]. intros a _. rewrite <- (resample1_mirror xs nx (f a) j H4 H2), <- resample1_scal by assumption.
    apply resample1_ext; [assumption..|]. intros c _. ring.
  - rewrite resample1_scal by assumption. ring.
Qed.
