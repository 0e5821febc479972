(** Proofs of the diagnostics properties (C29 - C34, C61). *)
From Coq Require Import List Arith ZArith Lia Bool Reals Lra Psatz.
From Verif Require Import Num NdArray NdFacts ModelGradients Spec GradFacts SumFacts LapFacts GradProps
  Cplx DftFacts SpecFourier ModelPoisson PoissonFacts ModelProperties ModelHW SpecHW HWFacts BalanceProps
  ModelSpectral SpecDiag DiagFacts.
Import ListNotations.
Local Open Scope R_scope.

Lemma gm_ext ny nx f g : (forall i j, (i < ny)%nat -> (j < nx)%nat -> f i j = g i j) -> gmean ny nx f = gmean ny nx g.
Proof. intros H. unfold gmean. f_equal. now apply gsum_ext. Qed.
Lemma gm_add ny nx f g : gmean ny nx (fun i j => f i j + g i j) = gmean ny nx f + gmean ny nx g.
Proof. unfold gmean. rewrite gsum_add. unfold Rdiv. ring. Qed.
Lemma gm_scal ny nx c f : gmean ny nx (fun i j => c * f i j) = c * gmean ny nx f.
Proof. unfold gmean. rewrite gsum_scal. unfold Rdiv. ring. Qed.

(** ** C29 *)
Lemma gmean_nonneg ny nx f : (0 < ny)%nat -> (0 < nx)%nat ->
  (forall i j, (i < ny)%nat -> (j < nx)%nat -> 0 <= f i j) -> 0 <= gmean ny nx f.
Proof.
  intros Hy Hx H. unfold gmean. pose proof (INR_pos ny Hy). pose proof (INR_pos nx Hx).
  apply Rmult_le_pos; [now apply gsum_nonneg|]. apply Rlt_le, Rinv_0_lt_compat. nra.
Qed.
Lemma gmean_zero ny nx f : (0 < ny)%nat -> (0 < nx)%nat ->
  (forall i j, (i < ny)%nat -> (j < nx)%nat -> 0 <= f i j) -> gmean ny nx f = 0 <-> vanishes ny nx f.
Proof.
  intros Hy Hx H. unfold gmean, vanishes. rewrite <- (gsum_0_iff ny nx f H).
  pose proof (INR2_ne ny nx Hy Hx) as Hn. split; intros E.
  - unfold Rdiv in E. apply Rmult_integral in E as [E|E]; [exact E|]. exfalso. now apply (Rinv_neq_0_compat _ Hn).
  - rewrite E. unfold Rdiv. ring.
Qed.

Lemma c29_gamma_c rest ny nx (n p : frames) c1 dx : (0 < ny)%nat -> (0 < nx)%nat -> 0 <= c1 ->
  exists g, get_gamma_c (Ok (stack rest ny nx n)) (Ok (stack rest ny nx p)) c1 dx = Ok (build rest g) /\
    forall r, inb rest r -> 0 <= g r /\
      (0 < c1 -> (g r = 0 <-> forall i j, (i < ny)%nat -> (j < nx)%nat -> n r i j = p r i j)).
Proof.
  intros Hy Hx Hc. eexists. split; [apply gamma_c_stack|]. intros r Hr. cbn beta.
  assert (Hp : forall i j, (i < ny)%nat -> (j < nx)%nat -> 0 <= (n r i j - p r i j) ^ 2) by (intros; apply pow2_ge_0).
  split.
  - apply Rmult_le_pos; [exact Hc|]. now apply gmean_nonneg.
  - intros Hc1. pose proof (gmean_zero ny nx (fun i j => (n r i j - p r i j) ^ 2) Hy Hx Hp) as E. split.
    + intros E0. apply Rmult_integral in E0 as [E0|E0]; [lra|]. apply E in E0. intros i j Hi Hj.
      specialize (E0 i j Hi Hj). cbn in E0. nra.
    + intros H. replace (gmean _ _ _) with 0; [ring|]. symmetry. apply E. intros i j Hi Hj. rewrite H by assumption. ring.
Qed.
Lemma c29_energy rest ny nx (n p : frames) dx : (0 < ny)%nat -> (0 < nx)%nat -> dx <> 0 ->
  exists g, get_energy (Ok (stack rest ny nx n)) (Ok (stack rest ny nx p)) dx = Ok (build rest g) /\
    forall r, inb rest r -> 0 <= g r /\
      (g r = 0 <-> forall i j, (i < ny)%nat -> (j < nx)%nat ->
         n r i j = 0 /\ p r (sh ny i 1) j = p r (sh ny i (-1)) j /\ p r i (sh nx j 1) = p r i (sh nx j (-1))).
Proof.
  intros Hy Hx Hd. eexists. split; [now apply energy_stack|]. intros r Hr. cbn beta.
  set (F := fun i j => n r i j ^ 2 + (cdx nx dx (p r) i j ^ 2 + cdy ny dx (p r) i j ^ 2)).
  assert (Hp : forall i j, (i < ny)%nat -> (j < nx)%nat -> 0 <= F i j).
  { intros i j _ _. unfold F. pose proof (pow2_ge_0 (n r i j)). pose proof (pow2_ge_0 (cdx nx dx (p r) i j)).
    pose proof (pow2_ge_0 (cdy ny dx (p r) i j)). lra. }
  split.
  - pose proof (gmean_nonneg ny nx F Hy Hx Hp). unfold F in *. lra.
  - pose proof (gmean_zero ny nx F Hy Hx Hp) as E. split.
    + intros E0. assert (E1 : gmean ny nx F = 0) by (unfold F in *; lra). apply E in E1. intros i j Hi Hj.
      specialize (E1 i j Hi Hj). unfold F in E1. rewrite cdx_R, cdy_R in E1.
      assert (H0 : n r i j = 0 /\ (p r i (sh nx j 1) - p r i (sh nx j (-1))) / (2 * dx) = 0 /\
              (p r (sh ny i 1) j - p r (sh ny i (-1)) j) / (2 * dx) = 0).
      { set (a := n r i j) in *. set (b := (p r i (sh nx j 1) - p r i (sh nx j (-1))) / (2 * dx)) in *.
        set (c := (p r (sh ny i 1) j - p r (sh ny i (-1)) j) / (2 * dx)) in *.
        assert (a * a + b * b + c * c = 0) by (cbn in E1; lra). repeat split; nra. }
      destruct H0 as (H1 & H2 & H3). split; [exact H1|].
      assert (Hi2 : / (2 * dx) <> 0) by (apply Rinv_neq_0_compat; lra).
      unfold Rdiv in H2, H3. apply Rmult_integral in H2 as [H2|H2]; [|contradiction].
      apply Rmult_integral in H3 as [H3|H3]; [|contradiction]. lra.
    + intros H. assert (E1 : gmean ny nx F = 0).
      { apply E. intros i j Hi Hj. destruct (H i j Hi Hj) as (H1 & H2 & H3). unfold F. rewrite cdx_R, cdy_R, H1, H2, H3.
        unfold Rdiv. ring. }
      match goal with |- context [gmean ny nx ?G] => change (gmean ny nx G) with (gmean ny nx F) end. rewrite E1. unfold Rdiv. ring.
Qed.
Lemma c29_enstrophy rest ny nx (n o : frames) dx : (0 < ny)%nat -> (0 < nx)%nat ->
  exists g, get_enstrophy (Ok (stack rest ny nx n)) (Ok (stack rest ny nx o)) dx = Ok (build rest g) /\
    forall r, inb rest r -> 0 <= g r /\
      (g r = 0 <-> forall i j, (i < ny)%nat -> (j < nx)%nat -> n r i j = o r i j).
Proof.
  intros Hy Hx. eexists. split; [apply enstrophy_stack|]. intros r Hr. cbn beta.
  assert (Hp : forall i j, (i < ny)%nat -> (j < nx)%nat -> 0 <= (n r i j - o r i j) ^ 2) by (intros; apply pow2_ge_0).
  pose proof (gmean_zero ny nx (fun i j => (n r i j - o r i j) ^ 2) Hy Hx Hp) as E.
  split.
  - pose proof (gmean_nonneg ny nx _ Hy Hx Hp). lra.
  - split.
    + intros E0. assert (E1 : gmean ny nx (fun i j => (n r i j - o r i j) ^ 2) = 0) by lra. apply E in E1. intros i j Hi Hj.
      specialize (E1 i j Hi Hj). cbn in E1. nra.
    + intros H. assert (E1 : gmean ny nx (fun i j => (n r i j - o r i j) ^ 2) = 0).
      { apply E. intros i j Hi Hj. rewrite H by assumption. ring. } lra.
Qed.

(** ** C30 *)
Section Flux.
Variables (rest : list nat) (ny nx : nat) (dx : R).
Hypothesis Hy : (0 < ny)%nat.
Hypothesis Hx : (0 < nx)%nat.
Local Notation gn a b := (get_gamma_n (Ok (stack rest ny nx a)) (Ok (stack rest ny nx b)) dx None).
Implicit Types n p : frames.

Lemma flux_inner f g : gmean ny nx (fun i j => f i j * cdy ny dx g i j) = inner ny nx f (cdy ny dx g) / (INR ny * INR nx).
Proof. reflexivity. Qed.

Lemma c30_shift n p (a b : list nat -> R) :
  gn (fun r => fadd (n r) (fconst (a r))) (fun r => fadd (p r) (fconst (b r))) = gn n p.
Proof.
  rewrite !gamma_n_stack by assumption. f_equal. apply build_ext. intros r Hr. f_equal.
  transitivity (gmean ny nx (fun i j => n r i j * cdy ny dx (p r) i j + a r * cdy ny dx (p r) i j)).
  - apply gm_ext. intros i j _ _. rewrite !cdy_R. unfold fadd, fconst, Rdiv. ring.
  - rewrite (gm_add ny nx (fun i j => n r i j * cdy ny dx (p r) i j) (fun i j => a r * cdy ny dx (p r) i j)).
    rewrite gm_scal.
    unfold gmean at 2. rewrite gsum_cdy by assumption. unfold Rdiv. ring.
Qed.
Lemma c30_antisym n p : gn n p = neg_ (gn p n).
Proof.
  rewrite !gamma_n_stack by assumption. unfold neg_. rewrite map1_build. f_equal. apply build_ext. intros r Hr.
  cbn [nopp NumR]. rewrite !flux_inner. pose proof (inner_cdy ny nx dx (n r) (p r) Hy) as E.
  rewrite (inner_sym ny nx (p r)). rewrite E. unfold Rdiv. ring.
Qed.
Lemma c30_self n : gn n n = Ok (build rest (fun _ => 0)).
Proof.
  pose proof (c30_antisym n n) as E. rewrite gamma_n_stack in * by assumption.
  unfold neg_ in E. rewrite map1_build in E. f_equal. apply build_ext. intros r Hr.
  pose proof (build_inj_res _ _ _ E r Hr) as H. cbn [nopp NumR] in H. lra.
Qed.
Lemma c30_bilinear n n' p p' a b :
  gn (fun r => fadd (fscale a (n r)) (fscale b (n' r))) p = add_ (mul_ (sc a) (gn n p)) (mul_ (sc b) (gn n' p)) /\
  gn n (fun r => fadd (fscale a (p r)) (fscale b (p' r))) = add_ (mul_ (sc a) (gn n p)) (mul_ (sc b) (gn n p')).
Proof.
  rewrite !gamma_n_stack by assumption. unfold add_, mul_. rewrite !lift2_scl, !lift2_build. split; f_equal; apply build_ext; intros r Hr;
    cbn [nadd nmul NumR].
  - transitivity (- gmean ny nx (fun i j => a * (n r i j * cdy ny dx (p r) i j) + b * (n' r i j * cdy ny dx (p r) i j))).
    + f_equal. apply gm_ext. intros. unfold fadd, fscale. ring.
    + rewrite (gm_add ny nx (fun i j => a * (n r i j * cdy ny dx (p r) i j)) (fun i j => b * (n' r i j * cdy ny dx (p r) i j))), !gm_scal. ring.
  - transitivity (- gmean ny nx (fun i j => a * (n r i j * cdy ny dx (p r) i j) + b * (n r i j * cdy ny dx (p' r) i j))).
    + f_equal. apply gm_ext. intros. rewrite cdy_lin. ring.
    + rewrite (gm_add ny nx (fun i j => a * (n r i j * cdy ny dx (p r) i j)) (fun i j => b * (n r i j * cdy ny dx (p' r) i j))), !gm_scal. ring.
Qed.
Lemma c30_gamma_c n p (h : frames) c1 :
  get_gamma_c (Ok (stack rest ny nx (fun r => fadd (n r) (h r)))) (Ok (stack rest ny nx (fun r => fadd (p r) (h r)))) c1 dx =
  get_gamma_c (Ok (stack rest ny nx n)) (Ok (stack rest ny nx p)) c1 dx.
Proof.
  clear Hy Hx. rewrite !gamma_c_stack. f_equal. apply build_ext. intros r Hr. f_equal. unfold gmean. f_equal.
  apply gsum_ext. intros. unfold fadd. ring.
Qed.
End Flux.

(** ** C32: the spectral flux *)
Section Sp.
Variables (n : nat) (dx : R).
Hypothesis Hn : (0 < n)%nat.
Implicit Types f g : nat -> nat -> R.
Local Notation hat := (hat n n).
Local Notation row := (fluxrow n dx).

Definition crossrow f g (k : nat) : R := rsum n (fun l => im (Cmul (hat f k l) (Cconj (hat g k l)))).
Lemma row_cross f g k : row f g k = - (kk n dx k * crossrow f g k) / (INR n * INR n * INR n).
Proof.
  clear Hn. unfold fluxrow, crossrow. f_equal. rewrite <- rsum_scal, <- rsum_opp. apply rsum_ext. intros l _. cbn. ring.
Qed.
Lemma hat_neg f k l : (k < n)%nat -> (l < n)%nat -> hat f (pidx n (- Z.of_nat k)) (pidx n (- Z.of_nat l)) = Cconj (hat f k l).
Proof.
  intros Hk Hl. unfold DiagFacts.hat. rewrite dft2_real_conj. apply dft2_eqm; auto using pidx_opp_mod.
Qed.
Lemma crossrow_neg f g k : (k < n)%nat -> crossrow f g (pidx n (- Z.of_nat k)) = - crossrow f g k.
Proof.
  intros Hk. unfold crossrow.
  rewrite <- (rsum_neg n (fun l => im (Cmul (hat f (pidx n (- Z.of_nat k)) l) (Cconj (hat g (pidx n (- Z.of_nat k)) l))))).
  rewrite <- rsum_opp. apply rsum_ext. intros l Hl. rewrite !hat_neg by assumption. cbn. ring.
Qed.
Lemma kk_0 : kk n dx 0 = 0.
Proof. unfold kk. rewrite sfreq_0 by assumption. unfold Rdiv. ring. Qed.
Lemma kk_neg k : (0 < k)%nat -> (2 * k < n)%nat -> kk n dx (n - k) = - kk n dx k.
Proof.
  intros Hk Hl. unfold kk, sfreq. destruct (Nat.ltb_spec (2 * (n - k)) n); [lia|]. destruct (Nat.ltb_spec (2 * k) n); [|lia].
  replace (Z.of_nat (n - k) - Z.of_nat n)%Z with (- Z.of_nat k)%Z by lia. rewrite opp_IZR. unfold Rdiv. ring.
Qed.
Lemma row_neg f g k : (0 < k)%nat -> (2 * k < n)%nat -> row f g (n - k) = row f g k.
Proof.
  intros Hk Hl. rewrite !row_cross, kk_neg by assumption.
  assert (E : crossrow f g (n - k) = - crossrow f g k).
  { rewrite <- crossrow_neg by lia. f_equal. rewrite pidx_neg by lia. destruct (Nat.eqb_spec k 0); lia. }
  rewrite E. unfold Rdiv. ring.
Qed.
Lemma row_0 f g : row f g 0 = 0.
Proof. rewrite row_cross, kk_0. unfold Rdiv. ring. Qed.
Lemma row_nyquist f g m : n = (2 * m)%nat -> row f g m = 0.
Proof.
  intros Em. rewrite row_cross.
  assert (E : crossrow f g m = - crossrow f g m).
  { rewrite <- (crossrow_neg f g m) at 1 by lia. f_equal. rewrite pidx_neg by lia. destruct (Nat.eqb_spec m 0); lia. }
  replace (crossrow f g m) with 0 by lra. unfold Rdiv. ring.
Qed.

(** the mean of f times the spectral derivative of g *)
Lemma full_flux f g : - gmean n n (fun i j => f i j * specdy n n dx g i j) = rsum n (row f g) / INR n.
Proof.
  pose proof (Hn0 n Hn) as H0.
  set (X := idft2 n n (fun k l => Cmul (mkC 0 (kk n dx k)) (hat g k l))).
  assert (E : gmean n n (fun i j => f i j * specdy n n dx g i j) =
              re (gcsum n n (fun i j => Cmul (cfield f i j) (Cconj (X i j)))) / (INR n * INR n)).
  { unfold gmean. f_equal. rewrite gcsum_re. apply gsum_ext. intros i j _ _. cbn. unfold specdy, X, kk, DiagFacts.hat.
    fold (cfield g). ring. }
  rewrite E. pose proof (parseval n n (cfield f) X Hn Hn) as P.
  assert (P' : gcsum n n (fun i j => Cmul (cfield f i j) (Cconj (X i j))) =
     Cscal (/ (INR n * INR n)) (gcsum n n (fun k l => Cmul (hat f k l) (Cconj (Cmul (mkC 0 (kk n dx k)) (hat g k l)))))).
  { rewrite (gcsum_ext n n (fun k l => Cmul (hat f k l) (Cconj (Cmul (mkC 0 (kk n dx k)) (hat g k l))))
      (fun k l => Cmul (dft2 n n (cfield f) (Z.of_nat k) (Z.of_nat l)) (Cconj (dft2 n n X (Z.of_nat k) (Z.of_nat l))))).
    - rewrite P, Cscal_Cscal. replace (/ (INR n * INR n) * (INR n * INR n)) with 1 by (field; exact H0). now rewrite Cscal_1.
    - intros k l Hk Hl. unfold X. rewrite dft2_idft2 by assumption. reflexivity. }
  rewrite P'. cbn [re Cscal]. rewrite gcsum_re. unfold gsum.
  rewrite (rsum_ext n (row f g) (fun k => - (kk n dx k * crossrow f g k) / (INR n * INR n * INR n))) by (intros; apply row_cross).
  transitivity (- (/ (INR n * INR n) * rsum n (fun k => kk n dx k * crossrow f g k) / (INR n * INR n))).
  - do 3 f_equal. apply rsum_ext. intros k Hk. unfold crossrow. rewrite <- rsum_scal. apply rsum_ext. intros l Hl. cbn. ring.
  - unfold Rdiv at 3. rewrite rsum_scal_r, rsum_opp. field. exact H0.
Qed.
End Sp.

Lemma half_sum (S : nat -> R) m : (0 < m)%nat -> S 0%nat = 0 -> S m = 0 ->
  (forall k, (0 < k < m)%nat -> S (2 * m - k)%nat = S k) -> rsum (2 * m) S = 2 * rsum m S.
Proof.
  intros Hm S0 Sm Hs. replace (2 * m)%nat with (m + m)%nat by lia. rewrite rsum_split.
  rewrite <- (rsum_rev m (fun i => S (m + i)%nat)).
  rewrite (rsum_ext m (fun i => S (m + (m - 1 - i))%nat) (fun i => S (i + 1)%nat)).
  - pose proof (rsum_S_l m S) as E. cbn [rsum] in E. rewrite S0, Sm in E.
    rewrite (rsum_ext m (fun i => S (i + 1)%nat) (fun i => S (Datatypes.S i))) by (intros; f_equal; lia). lra.
  - intros i Hi. destruct (Nat.eq_dec i (m - 1)) as [->|Hne].
    + f_equal. lia.
    + rewrite <- (Hs (i + 1)%nat) by lia. f_equal. lia.
Qed.

Lemma c32_even rest m (n p : frames) dx : (0 < m)%nat ->
  get_gamma_n_spectrally (Ok (stack rest (2 * m) (2 * m) n)) (Ok (stack rest (2 * m) (2 * m) p)) dx =
  Ok (build rest (fun r => - gmean (2 * m) (2 * m) (fun i j => n r i j * specdy (2 * m) (2 * m) dx (p r) i j))).
Proof.
  intros Hm. rewrite gamma_spec_stack by lia. f_equal. apply build_ext. intros r Hr.
  rewrite full_flux by lia. replace (2 * m / 2)%nat with m by (symmetry; rewrite Nat.mul_comm; apply Nat.div_mul; lia).
  rewrite (half_sum (fluxrow (2 * m) dx (n r) (p r)) m Hm).
  - rewrite mult_INR. cbn [INR]. pose proof (INR_pos m Hm). field. lra.
  - apply row_0. lia.
  - apply row_nyquist; lia.
  - intros k Hk. apply row_neg; lia.
Qed.

(** odd grids *)
Definition cosw (n m : nat) (i j : nat) : R := cos (2 * PI * IZR (Z.of_nat m * Z.of_nat i) / INR n).
Definition sinw (n m : nat) (i j : nat) : R := sin (2 * PI * IZR (Z.of_nat m * Z.of_nat i) / INR n).
Lemma pw_m0 n z i j : pw n n z 0 i j = wn n (z * i).
Proof. unfold pw. rewrite Z.mul_0_l, wn_0. ring. Qed.
Lemma cosw_pw n m i j : cfield (cosw n m) i j =
  Cscal (/ 2) (Cadd (pw n n (Z.of_nat m) 0 (Z.of_nat i) (Z.of_nat j)) (pw n n (- Z.of_nat m) 0 (Z.of_nat i) (Z.of_nat j))).
Proof.
  rewrite !pw_m0, Z.mul_opp_l, <- wn_conj. unfold cosw. apply C_eq; cbn; field.
Qed.
Lemma sinw_pw n m i j : cfield (sinw n m) i j =
  Cmul (mkC 0 (- / 2)) (Csub (pw n n (Z.of_nat m) 0 (Z.of_nat i) (Z.of_nat j)) (pw n n (- Z.of_nat m) 0 (Z.of_nat i) (Z.of_nat j))).
Proof.
  rewrite !pw_m0, Z.mul_opp_l, <- wn_conj. unfold sinw. apply C_eq; cbn; field.
Qed.
Definition indz (b : bool) (c : C) : C := if b then c else C0.
Lemma dft_pw n z k l : (0 < n)%nat ->
  gcsum n n (fun i j => Cmul (pw n n z 0 (Z.of_nat i) (Z.of_nat j)) (pw n n (- Z.of_nat k) (- Z.of_nat l) (Z.of_nat i) (Z.of_nat j))) =
  indz (((z - Z.of_nat k) mod Z.of_nat n =? 0)%Z && ((- Z.of_nat l) mod Z.of_nat n =? 0)%Z)%bool (RtoC (INR n * INR n)).
Proof.
  intros Hn. rewrite (gcsum_ext n n _ (fun i j => pw n n (z - Z.of_nat k) (- Z.of_nat l) (Z.of_nat i) (Z.of_nat j))).
  - now rewrite gcsum_pw.
  - intros i j _ _. rewrite pw_mul. f_equal.
Qed.
Section Odd.
Variable m : nat.
Hypothesis Hm : (1 <= m)%nat.
Local Notation n := (2 * m + 1)%nat.
Lemma mod_l l : (l < n)%nat -> ((- Z.of_nat l) mod Z.of_nat n =? 0)%Z = (l =? 0)%nat.
Proof.
  intros Hl. destruct (Nat.eqb_spec l 0) as [->|Hne]; [reflexivity|].
  apply Z.eqb_neq. rewrite Z_mod_nz_opp_full by (rewrite Z.mod_small; lia). rewrite Z.mod_small; lia.
Qed.
Lemma mod_p k : (k <= m)%nat -> ((Z.of_nat m - Z.of_nat k) mod Z.of_nat n =? 0)%Z = (k =? m)%nat.
Proof.
  intros Hk. rewrite Z.mod_small by lia. destruct (Nat.eqb_spec k m); [apply Z.eqb_eq|apply Z.eqb_neq]; lia.
Qed.
Lemma mod_m k : (k <= m)%nat -> ((- Z.of_nat m - Z.of_nat k) mod Z.of_nat n =? 0)%Z = false.
Proof.
  intros Hk. apply Z.eqb_neq. replace (- Z.of_nat m - Z.of_nat k)%Z with (- Z.of_nat (m + k))%Z by lia.
  rewrite Z_mod_nz_opp_full by (rewrite Z.mod_small; lia). rewrite Z.mod_small; lia.
Qed.
Lemma hat_cosw k l : (k <= m)%nat -> (l < n)%nat ->
  hat n n (cosw n m) k l = indz ((k =? m)%nat && (l =? 0)%nat) (RtoC (INR n * INR n / 2)).
Proof.
  intros Hk Hl. unfold hat. rewrite dft2_gc.
  transitivity (Cadd
    (Cscal (/ 2) (gcsum n n (fun i j => Cmul (pw n n (Z.of_nat m) 0 (Z.of_nat i) (Z.of_nat j)) (pw n n (- Z.of_nat k) (- Z.of_nat l) (Z.of_nat i) (Z.of_nat j)))))
    (Cscal (/ 2) (gcsum n n (fun i j => Cmul (pw n n (- Z.of_nat m) 0 (Z.of_nat i) (Z.of_nat j)) (pw n n (- Z.of_nat k) (- Z.of_nat l) (Z.of_nat i) (Z.of_nat j)))))).
  - rewrite <- !gcsum_scal, <- gcsum_add. apply gcsum_ext. intros i j _ _. rewrite cosw_pw. cring.
  - rewrite !dft_pw by lia. rewrite mod_l, mod_p, mod_m by assumption.
    destruct ((k =? m)%nat), ((l =? 0)%nat); cbn [indz andb]; apply C_eq; cbn [Cadd Cscal RtoC C0 re im]; try (unfold Rdiv; ring).
Qed.
Lemma hat_sinw k l : (k <= m)%nat -> (l < n)%nat ->
  hat n n (sinw n m) k l = indz ((k =? m)%nat && (l =? 0)%nat) (mkC 0 (- (INR n * INR n / 2))).
Proof.
  intros Hk Hl. unfold hat. rewrite dft2_gc.
  transitivity (Cmul (mkC 0 (- / 2)) (Csub
    (gcsum n n (fun i j => Cmul (pw n n (Z.of_nat m) 0 (Z.of_nat i) (Z.of_nat j)) (pw n n (- Z.of_nat k) (- Z.of_nat l) (Z.of_nat i) (Z.of_nat j))))
    (gcsum n n (fun i j => Cmul (pw n n (- Z.of_nat m) 0 (Z.of_nat i) (Z.of_nat j)) (pw n n (- Z.of_nat k) (- Z.of_nat l) (Z.of_nat i) (Z.of_nat j)))))).
  - transitivity (Cadd (Cmul (mkC 0 (- / 2)) (gcsum n n (fun i j => Cmul (pw n n (Z.of_nat m) 0 (Z.of_nat i) (Z.of_nat j)) (pw n n (- Z.of_nat k) (- Z.of_nat l) (Z.of_nat i) (Z.of_nat j)))))
       (Cmul (mkC 0 (/ 2)) (gcsum n n (fun i j => Cmul (pw n n (- Z.of_nat m) 0 (Z.of_nat i) (Z.of_nat j)) (pw n n (- Z.of_nat k) (- Z.of_nat l) (Z.of_nat i) (Z.of_nat j)))))).
    + rewrite <- !gcsum_mul, <- gcsum_add. apply gcsum_ext. intros i j _ _. rewrite sinw_pw. cring.
    + cring.
  - rewrite !dft_pw by lia. rewrite mod_l, mod_p, mod_m by assumption.
    destruct ((k =? m)%nat), ((l =? 0)%nat); cbn [indz andb]; apply C_eq; cbn [Cmul Csub RtoC C0 re im]; unfold Rdiv; ring.
Qed.
Lemma c32_odd dx : dx <> 0 ->
  get_gamma_n_spectrally (Ok (grid n n (sinw n m))) (Ok (grid n n (cosw n m))) dx = Ok (scal 0) /\
  - gmean n n (fun i j => sinw n m i j * specdy n n dx (cosw n m) i j) <> 0.
Proof.
  intros Hd. split.
  - unfold grid at 1 2. rewrite gamma_spec_stack by lia. unfold scal. f_equal. apply build_ext. intros r _.
    replace (n / 2)%nat with m by (rewrite Nat.mul_comm, Nat.div_add_l by lia; cbn; lia).
    rewrite (rsum_ext m _ (fun _ => 0)).
    + rewrite rsum_zero. unfold Rdiv. ring.
    + intros k Hk. rewrite row_cross. unfold crossrow. rewrite (rsum_ext n _ (fun _ => 0)).
      * rewrite rsum_zero. unfold Rdiv. ring.
      * intros l Hl. rewrite hat_cosw by lia. destruct (Nat.eqb_spec k m); [lia|]. cbn [andb indz]. cbn. ring.
  - rewrite full_flux by lia.
    assert (Ec : crossrow n (sinw n m) (cosw n m) m = - (INR n * INR n / 2) * (INR n * INR n / 2)).
    { unfold crossrow. rewrite (rsum_single n 0 _ ltac:(lia)).
      - rewrite hat_sinw, hat_cosw by lia. rewrite !Nat.eqb_refl. cbn [andb indz]. cbn [Cmul Cconj RtoC re im]. ring.
      - intros l Hl Hne. rewrite hat_sinw by lia. destruct (Nat.eqb_spec l 0); [lia|]. rewrite andb_false_r. cbn. ring. }
    assert (Es : rsum n (fluxrow n dx (sinw n m) (cosw n m)) = 2 * fluxrow n dx (sinw n m) (cosw n m) m).
    { rewrite (rsum_ext n _ (fun k => (if (k =? m)%nat then fluxrow n dx (sinw n m) (cosw n m) m else 0) +
          (if (k =? m + 1)%nat then fluxrow n dx (sinw n m) (cosw n m) m else 0))).
      - rewrite rsum_add. rewrite (rsum_single n m) by (lia || (intros i _ Hi; destruct (Nat.eqb_spec i m); [lia|reflexivity])).
        rewrite (rsum_single n (m + 1)) by (lia || (intros i _ Hi; destruct (Nat.eqb_spec i (m + 1)); [lia|reflexivity])).
        rewrite !Nat.eqb_refl. ring.
      - intros k Hk. destruct (Nat.eqb_spec k m) as [->|Hkm].
        + destruct (Nat.eqb_spec m (m + 1)); [lia|]. ring.
        + assert (Hz : forall k', (k' < m)%nat -> fluxrow n dx (sinw n m) (cosw n m) k' = 0).
          { intros k' Hk'. rewrite row_cross. unfold crossrow. rewrite (rsum_ext n _ (fun _ => 0)).
            - rewrite rsum_zero. unfold Rdiv. ring.
            - intros l Hl. rewrite hat_cosw by lia. destruct (Nat.eqb_spec k' m); [lia|]. cbn [andb indz]. cbn. ring. }
          destruct (Nat.eqb_spec k (m + 1)) as [->|Hk1].
          * rewrite <- (row_neg n dx ltac:(lia) _ _ m) by lia. replace (n - m)%nat with (m + 1)%nat by lia. ring.
          * destruct (Nat.lt_ge_cases k m) as [Hl|Hg]; [rewrite Hz by exact Hl; ring|].
            replace k with (n - (n - k))%nat by lia. rewrite row_neg by lia. rewrite Hz by lia. ring. }
    rewrite Es, row_cross, Ec. unfold kk.
    assert (Hs : sfreq n m = Z.of_nat m) by (unfold sfreq; destruct (Nat.ltb_spec (2 * m) n); lia).
    rewrite Hs. pose proof PI_RGT_0 as Hpi. pose proof (INR_pos n ltac:(lia)) as HN.
    assert (HM : 0 < IZR (Z.of_nat m)) by (apply IZR_lt; lia).
    intros E. assert (E2 : PI * IZR (Z.of_nat m) = 0).
    { apply (f_equal (fun z => z * (INR n * dx))) in E. rewrite Rmult_0_l in E. rewrite <- E. field. lra. }
    nra.
Qed.
End Odd.

Lemma c32_nonsquare rest ny nx (n p : frames) dx : (2 <= ny)%nat -> (2 <= nx)%nat -> ny <> nx ->
  get_gamma_n_ky (Ok (stack rest ny nx n)) (Ok (stack rest ny nx p)) dx = Exn ValueError /\
  get_gamma_n_spectrally (Ok (stack rest ny nx n)) (Ok (stack rest ny nx p)) dx = Exn ValueError /\
  get_energy_V_ky (Ok (stack rest ny nx p)) dx = Exn ValueError.
Proof.
  intros Hy Hx Hne.
  assert (E : get_gamma_n_ky (Ok (stack rest ny nx n)) (Ok (stack rest ny nx p)) dx = Exn ValueError).
  { unfold get_gamma_n_ky. cbn [bind]. unfold stack at 1. unfold build at 1. cbn [shape].
    rewrite !fft2_ortho_stack by lia. unfold mul_. rewrite lift2_stack_scr.
    unfold cast at 1. cbn [bind]. unfold lift2 at 1. unfold lift2 at 1. cbn [bind]. unfold bc2 at 1.
    unfold meshgrid_1. cbn [shape grid stack build]. rewrite !wavenumbers_length by lia.
    destruct (bshape_bad rest ny nx Hy Hx Hne) as [-> _]. reflexivity. }
  split; [exact E|]. split; [unfold get_gamma_n_spectrally; now rewrite E|].
  unfold get_energy_V_ky. cbn [bind]. unfold stack at 1. unfold build at 1. cbn [shape].
  rewrite fft2_ortho_stack by lia. unfold meshgrid_1, meshgrid_0. rewrite !wavenumbers_length by lia.
  unfold add_, powk, mul_, div_. rewrite !map1_grid, lift2_grid. unfold cast at 1. cbn [bind].
  assert (E0 : forall (X : list nat -> nat -> nat -> C) G,
    lift2 nmul (Ok {| shape := [ny; nx]; data := G |}) (Ok (stack rest ny nx X)) = Exn ValueError).
  { intros X G. unfold lift2. cbn [bind]. unfold bc2. cbn [shape stack build]. destruct (bshape_bad rest ny nx Hy Hx Hne) as [_ ->]. reflexivity. }
  cbn [shape grid stack build] in *. rewrite E0. reflexivity.
Qed.

(** ** C33 *)
Section Kin.
Variables (ny nx : nat) (dx : R).
Hypothesis Hy : (0 < ny)%nat.
Hypothesis Hx : (0 < nx)%nat.
Hypothesis Hd : dx <> 0.
Local Notation hat := (hat ny nx).
Implicit Types f : nat -> nat -> R.

Lemma wn_sin n z : Csub (wn n z) (wn n (- z)) = mkC 0 (2 * sin (2 * PI * IZR z / INR n)).
Proof. clear Hy Hx. rewrite <- wn_conj. apply C_eq; cbn; ring. Qed.
Lemma hat_cdy f k l : hat (cdy ny dx f) k l = Cmul (mkC 0 (sin (2 * PI * IZR (Z.of_nat k) / INR ny) / dx)) (hat f k l).
Proof.
  unfold DiagFacts.hat.
  rewrite (dft2_ext ny nx _ (fun i j => Cadd (Cmul (RtoC (/ (2 * dx))) (cfield f (sh ny i 1) (sh nx j 0)))
     (Cmul (RtoC (- / (2 * dx))) (cfield f (sh ny i (-1)) (sh nx j 0))))).
  - rewrite (dft2_lin ny nx _ _ (fun i j => cfield f (sh ny i 1) (sh nx j 0)) (fun i j => cfield f (sh ny i (-1)) (sh nx j 0))).
    rewrite !dft2_shift by assumption.
    transitivity (Cmul (Cmul (RtoC (/ (2 * dx))) (Csub (wn ny (Z.of_nat k)) (wn ny (- Z.of_nat k)))) (dft2 ny nx (cfield f) (Z.of_nat k) (Z.of_nat l))).
    + unfold pw. rewrite !Z.mul_0_r, wn_0, Z.mul_1_r. replace (Z.of_nat k * -1)%Z with (- Z.of_nat k)%Z by ring. cring.
    + rewrite wn_sin. apply C_eq; cbn; field; exact Hd.
  - intros i j Hi Hj. unfold cfield. rewrite cdy_R, (sh_0 nx j Hj). apply C_eq; cbn; field; exact Hd.
Qed.
Lemma hat_cdx f k l : hat (cdx nx dx f) k l = Cmul (mkC 0 (sin (2 * PI * IZR (Z.of_nat l) / INR nx) / dx)) (hat f k l).
Proof.
  unfold DiagFacts.hat.
  rewrite (dft2_ext ny nx _ (fun i j => Cadd (Cmul (RtoC (/ (2 * dx))) (cfield f (sh ny i 0) (sh nx j 1)))
     (Cmul (RtoC (- / (2 * dx))) (cfield f (sh ny i 0) (sh nx j (-1)))))).
  - rewrite (dft2_lin ny nx _ _ (fun i j => cfield f (sh ny i 0) (sh nx j 1)) (fun i j => cfield f (sh ny i 0) (sh nx j (-1)))).
    rewrite !dft2_shift by assumption.
    transitivity (Cmul (Cmul (RtoC (/ (2 * dx))) (Csub (wn nx (Z.of_nat l)) (wn nx (- Z.of_nat l)))) (dft2 ny nx (cfield f) (Z.of_nat k) (Z.of_nat l))).
    + unfold pw. rewrite !Z.mul_0_r, wn_0, Z.mul_1_r. replace (Z.of_nat l * -1)%Z with (- Z.of_nat l)%Z by ring. cring.
    + rewrite wn_sin. apply C_eq; cbn; field; exact Hd.
  - intros i j Hi Hj. unfold cfield. rewrite cdx_R, (sh_0 ny i Hi). apply C_eq; cbn; field; exact Hd.
Qed.
End Kin.

Lemma sin_sq_le x : sin x * sin x <= x * x.
Proof.
  assert (H : forall y, 0 <= y -> sin y * sin y <= y * y).
  { intros y Hy. destruct (Rle_lt_dec 1 y) as [H1|H1].
    - pose proof (SIN_bound y). nra.
    - destruct (Req_dec y 0) as [->|Hne]; [rewrite sin_0; lra|].
      pose proof (sin_lt_x y ltac:(lra)). pose proof PI2_1. pose proof (sin_ge_0 y ltac:(lra) ltac:(lra)). nra. }
  destruct (Rle_lt_dec 0 x) as [Hx|Hx]; [now apply H|].
  pose proof (H (- x) ltac:(lra)) as E. rewrite sin_neg in E. lra.
Qed.
Lemma sin_kk n dx k : (k < n)%nat -> dx <> 0 ->
  (sin (2 * PI * IZR (Z.of_nat k) / INR n) / dx) ^ 2 <= kk n dx k ^ 2.
Proof.
  intros Hk Hd. assert (Hn : INR n <> 0) by (apply not_0_INR; lia).
  assert (E : sin (2 * PI * IZR (Z.of_nat k) / INR n) = sin (2 * PI * IZR (sfreq n k) / INR n)).
  { pose proof (wn_eqm n (Z.of_nat k) (sfreq n k) ltac:(lia)) as H. assert (Hm : (Z.of_nat k mod Z.of_nat n = sfreq n k mod Z.of_nat n)%Z).
    { unfold sfreq. destruct (Nat.ltb_spec (2 * k) n); [reflexivity|].
      rewrite <- (Z_mod_plus_full (Z.of_nat k - Z.of_nat n) 1). f_equal. lia. }
    specialize (H Hm). apply (f_equal im) in H. exact H. }
  rewrite E. unfold kk. set (x := 2 * PI * IZR (sfreq n k) / INR n).
  replace (2 * PI * IZR (sfreq n k) / (INR n * dx)) with (x / dx) by (unfold x; field; auto).
  pose proof (sin_sq_le x) as H. assert (Hi : 0 <= / dx * / dx) by nra.
  cbn [pow]. unfold Rdiv. nra.
Qed.

Lemma kinetic_le n dx p : (0 < n)%nat -> dx <> 0 ->
  gmean n n (fun i j => cdx n dx p i j ^ 2 + cdy n dx p i j ^ 2) <=
  gsum n n (fun k l => (kk n dx k ^ 2 + kk n dx l ^ 2) * Cnorm2 (hat n n p k l)) / ((INR n * INR n) * (INR n * INR n)).
Proof.
  intros Hn Hd. pose proof (INR_pos n Hn) as HN.
  assert (E : gmean n n (fun i j => cdx n dx p i j ^ 2 + cdy n dx p i j ^ 2) =
    gsum n n (fun k l => Cnorm2 (hat n n (cdx n dx p) k l) + Cnorm2 (hat n n (cdy n dx p) k l)) / ((INR n * INR n) * (INR n * INR n))).
  { rewrite gsum_add, !power_sum by assumption. unfold gmean. rewrite gsum_add. unfold inner.
    rewrite (gsum_ext n n (fun i j => cdx n dx p i j ^ 2) (fun i j => cdx n dx p i j * cdx n dx p i j)) by (intros; ring).
    rewrite (gsum_ext n n (fun i j => cdy n dx p i j ^ 2) (fun i j => cdy n dx p i j * cdy n dx p i j)) by (intros; ring).
    field. lra. }
  rewrite E. unfold Rdiv. apply Rmult_le_compat_r; [apply Rlt_le, Rinv_0_lt_compat; repeat apply Rmult_lt_0_compat; exact HN|].
  unfold gsum. apply rsum_le. intros k Hk. apply rsum_le. intros l Hl.
  rewrite hat_cdx, hat_cdy by assumption.
  pose proof (sin_kk n dx k Hk Hd) as H1. pose proof (sin_kk n dx l Hl Hd) as H2.
  pose proof (Cnorm2_nonneg (hat n n p k l)) as H3.
  set (a := sin (2 * PI * IZR (Z.of_nat k) / INR n) / dx) in *. set (b := sin (2 * PI * IZR (Z.of_nat l) / INR n) / dx) in *.
  set (h := hat n n p k l) in *.
  replace (Cnorm2 (Cmul (mkC 0 b) h)) with (b ^ 2 * Cnorm2 h) by (unfold Cnorm2; cbn; ring).
  replace (Cnorm2 (Cmul (mkC 0 a) h)) with (a ^ 2 * Cnorm2 h) by (unfold Cnorm2; cbn; ring).
  set (N := Cnorm2 h) in *. nra.
Qed.

Lemma c33 rest n (d p : frames) dx : (0 < n)%nat -> dx <> 0 ->
  exists e eN eV,
    get_energy (Ok (stack rest n n d)) (Ok (stack rest n n p)) dx = Ok (build rest e) /\
    get_energy_N_spectrally (Ok (stack rest n n d)) = Ok (build rest eN) /\
    get_energy_V_spectrally (Ok (stack rest n n p)) dx = Ok (build rest eV) /\
    forall r, inb rest r -> e r <= eN r + eV r.
Proof.
  intros Hn Hd. do 3 eexists. split; [now apply energy_stack|]. split; [now apply energy_N_stack|].
  split; [now apply energy_V_stack|]. intros r Hr. cbn beta. pose proof (INR_pos n Hn) as HN.
  pose proof (kinetic_le n dx (p r) Hn Hd) as H.
  rewrite (gm_add n n (fun i j => d r i j ^ 2) (fun i j => cdx n dx (p r) i j ^ 2 + cdy n dx (p r) i j ^ 2)).
  set (g := gmean n n (fun i j => d r i j ^ 2)) in *.
  set (q := gmean n n (fun i j => cdx n dx (p r) i j ^ 2 + cdy n dx (p r) i j ^ 2)) in *.
  set (S := gsum n n _) in *.
  replace (S / (2 * (INR n * INR n) * (INR n * INR n))) with (S / (INR n * INR n * (INR n * INR n)) / 2) by (field; lra).
  lra.
Qed.

(** the spectral kinetic energy is -1/2 mean(phi lap phi) with the spectral Laplacian *)
Lemma c33_value rest n (p : frames) dx : (0 < n)%nat -> dx <> 0 ->
  get_energy_V_spectrally (Ok (stack rest n n p)) dx =
  Ok (build rest (fun r => - gmean n n (fun i j => p r i j * re (speclap n n dx (p r) i j)) / 2)).
Proof.
  intros Hn Hd. rewrite energy_V_stack by assumption. f_equal. apply build_ext. intros r Hr.
  pose proof (INR_pos n Hn) as HN. set (f := p r).
  assert (E : gmean n n (fun i j => f i j * re (speclap n n dx f i j)) =
     re (gcsum n n (fun i j => Cmul (cfield f i j) (Cconj (speclap n n dx f i j)))) / (INR n * INR n)).
  { unfold gmean. f_equal. rewrite gcsum_re. apply gsum_ext. intros. cbn. ring. }
  pose proof (parseval n n (cfield f) (speclap n n dx f) Hn Hn) as P. apply (f_equal re) in P.
  rewrite gcsum_re in P. cbn [re Cscal] in P.
  assert (P2 : gsum n n (fun k l => re (Cmul (dft2 n n (cfield f) (Z.of_nat k) (Z.of_nat l)) (Cconj (dft2 n n (speclap n n dx f) (Z.of_nat k) (Z.of_nat l))))) =
     - gsum n n (fun k l => (kk n dx k ^ 2 + kk n dx l ^ 2) * Cnorm2 (hat n n f k l))).
  { rewrite <- gsum_opp. apply gsum_ext. intros k l Hk Hl. unfold speclap. rewrite dft2_idft2 by assumption.
    fold (cfield f). unfold hat. set (h := dft2 n n (cfield f) (Z.of_nat k) (Z.of_nat l)). unfold lap_symbol.
    fold (kk n dx k). fold (kk n dx l). unfold Cnorm2. cbn. ring. }
  rewrite P2 in P. rewrite E.
  replace (re (gcsum n n (fun i j => Cmul (cfield f i j) (Cconj (speclap n n dx f i j))))) with
     (- gsum n n (fun k l => (kk n dx k ^ 2 + kk n dx l ^ 2) * Cnorm2 (hat n n f k l)) / (INR n * INR n)).
  - field. lra.
  - rewrite P. field. lra.
Qed.

(** ** C34 *)
Lemma c34 rest ny nx (n p : frames) dx : (0 < ny)%nat -> (0 < nx)%nat ->
  get_enstrophy_phi (Ok (stack rest ny nx n)) (Ok (stack rest ny nx p)) dx =
  get_enstrophy (Ok (stack rest ny nx n)) (np_periodic_laplace (Ok (stack rest ny nx p)) dx) dx.
Proof.
  intros Hy Hx. rewrite enstrophy_phi_stack, np_periodic_laplace_stack by assumption. now rewrite enstrophy_stack.
Qed.

(** ** C61: the phase shift spectrum *)
Lemma Cabs_scal c z : 0 < c -> Cabs (Cscal c z) = c * Cabs z.
Proof.
  intros Hc. unfold Cabs. replace (Cnorm2 (Cscal c z)) with (c * c * Cnorm2 z) by (unfold Cnorm2; cbn; ring).
  rewrite sqrt_mult by (nra || apply Cnorm2_nonneg). rewrite sqrt_square by lra. reflexivity.
Qed.
Lemma Cabs_pos z : Cnorm2 z <> 0 -> 0 < Cabs z.
Proof. intros H. apply sqrt_lt_R0. pose proof (Cnorm2_nonneg z). lra. Qed.
Lemma Carg_scal c z : 0 < c -> Carg (Cscal c z) = Carg z.
Proof.
  intros Hc. unfold Carg. replace (Cnorm2 (Cscal c z)) with (c * c * Cnorm2 z) by (unfold Cnorm2; cbn; ring).
  destruct (Req_EM_T (c * c * Cnorm2 z) 0) as [E|E], (Req_EM_T (Cnorm2 z) 0) as [E'|E'].
  - reflexivity.
  - exfalso. apply Rmult_integral in E as [E|E]; [nra|lra].
  - exfalso. rewrite E' in E. lra.
  - rewrite Cabs_scal by exact Hc. pose proof (Cabs_pos z E') as Hp. cbn [re im Cscal].
    replace (c * re z / (c * Cabs z)) with (re z / Cabs z) by (field; lra).
    destruct (Rle_dec 0 (c * im z)), (Rle_dec 0 (im z)); try reflexivity; exfalso; nra.
Qed.
Lemma Carg_cis t : - PI < t <= PI -> Carg (cis t) = t.
Proof.
  intros Ht. assert (E1 : Cnorm2 (cis t) = 1).
  { unfold Cnorm2. cbn. pose proof (sin2_cos2 t) as H. unfold Rsqr in H. lra. }
  unfold Carg, Cabs. rewrite E1, sqrt_1. destruct (Req_EM_T 1 0); [lra|]. cbn [re im cis].
  unfold Rdiv. rewrite Rinv_1, Rmult_1_r. destruct (Rle_dec 0 (sin t)) as [Hs|Hs].
  - destruct (Rle_lt_dec 0 t) as [H0|H0]; [apply acos_cos; lra|].
    exfalso. pose proof (sin_gt_0 (- t) ltac:(lra) ltac:(lra)) as H. rewrite sin_neg in H. lra.
  - destruct (Rle_lt_dec 0 t) as [H0|H0]; [exfalso; apply Hs; apply sin_ge_0; lra|].
    rewrite <- cos_neg, acos_cos by lra. lra.
Qed.
Lemma Carg_0 z : Cnorm2 z = 0 -> Carg z = 0.
Proof. intros H. unfold Carg. destruct (Req_EM_T (Cnorm2 z) 0); [reflexivity|contradiction]. Qed.
Lemma Carg_pos r : 0 <= r -> Carg (RtoC r) = 0.
Proof.
  intros H. destruct (Req_dec r 0) as [->|Hne]; [apply Carg_0; unfold Cnorm2; cbn; ring|].
  replace (RtoC r) with (Cscal r (cis 0)) by (rewrite cis_0; cring). rewrite Carg_scal by lra. apply Carg_cis.
  pose proof PI_RGT_0. lra.
Qed.
Lemma Carg_bound z : - PI < Carg z <= PI.
Proof.
  pose proof PI_RGT_0. unfold Carg. destruct (Req_EM_T (Cnorm2 z) 0); [lra|].
  pose proof (acos_bound (re z / Cabs z)) as B. destruct (Rle_dec 0 (im z)) as [Hi|Hi]; [lra|].
  split; [|lra]. assert (Hlt : acos (re z / Cabs z) < PI); [|lra].
  pose proof (Cabs_pos z n) as Hp. assert (Hr : - Cabs z < re z).
  { assert (Hs : Cabs z * Cabs z = re z * re z + im z * im z) by (unfold Cabs; rewrite sqrt_sqrt by apply Cnorm2_nonneg; reflexivity).
    assert (0 < im z * im z) by nra. nra. }
  assert (Hq : -1 < re z / Cabs z).
  { replace (-1) with (- Cabs z / Cabs z) by (field; lra). unfold Rdiv. apply Rmult_lt_compat_r; [now apply Rinv_0_lt_compat|exact Hr]. }
  destruct (Rle_lt_dec (re z / Cabs z) 1) as [Hu|Hu].
  - destruct B as [_ [B|B]]; [exact B|]. exfalso. apply (f_equal cos) in B. rewrite cos_acos, cos_PI in B by lra. lra.
  - rewrite acos_atan by lra. pose proof (atan_bound (sqrt (1 - (re z / Cabs z)²) / (re z / Cabs z))). lra.
Qed.

Lemma take_last_build' rest m d (G : nat -> list nat -> R) :
  take_last m (Ok (build (d :: rest) (fun ix => G (nth 0 ix 0%nat) (tl ix)))) =
  Ok (build (Nat.min m d :: rest) (fun ix => G (nth 0 ix 0%nat) (tl ix))).
Proof.
  unfold take_last. cbn [bind]. cbn [shape build]. f_equal.
  change (mkArr (d :: rest) (map (fun ix => G (nth 0 ix 0%nat) (tl ix)) (indices (d :: rest))))
    with (build (d :: rest) (fun ix => G (nth 0 ix 0%nat) (tl ix))).
  rewrite slice_build by (cbn; lia). cbn [upd nth ps_step]. rewrite ps_take_len.
  apply build_ext. intros ix Hi.
  inversion Hi as [|k d' r s Hk Hr]; subst. cbn [upd nth tl]. rewrite ps_take_start. f_equal. lia.
Qed.

Section Delta.
Variables (rest : list nat) (ny nx : nat).
Hypothesis Hy : (0 < ny)%nat.
Hypothesis Hx : (0 < nx)%nat.
Definition delta_rows : nat := Nat.min (nth (length rest) (nx :: ny :: rest) 0%nat / 2) ny.
Lemma delta_stack (F P : frames) :
  get_delta_ky (Ok (stack rest ny nx F)) (Ok (stack rest ny nx P)) =
  Ok (build (delta_rows :: rest) (fun ix => rsum nx (fun l =>
      Carg (Cmul (Cconj (hat ny nx (F (tl ix)) (nth 0 ix 0%nat) l)) (hat ny nx (P (tl ix)) (nth 0 ix 0%nat) l))) / INR nx)).
Proof.
  unfold get_delta_ky. cbn [bind]. rewrite !fft2_ortho_stack by assumption. unfold np_conj, mul_.
  rewrite map1_stack, lift2_stack, cast_stack, mean_last_stack.
  set (G := fun (k : nat) (r : list nat) => rsum nx (fun l => Carg (nmul (Cconj (Cdivr (hat ny nx (F r) k l) (sqrt (INR ny * INR nx))))
     (Cdivr (hat ny nx (P r) k l) (sqrt (INR ny * INR nx))))) / INR nx).
  etransitivity; [exact (take_last_build' rest _ ny G)|].
  replace (length (shape (stack rest ny nx F)) - 2)%nat with (length rest) by (cbn; lia).
  change (shape (stack rest ny nx F)) with (nx :: ny :: rest). fold delta_rows. f_equal. apply build_ext. intros ix Hi. unfold G. f_equal.
  apply rsum_ext. intros l Hl. set (rt := sqrt (INR ny * INR nx)).
  assert (Hr : 0 < rt) by (apply sqrt_lt_R0; pose proof (INR_pos ny Hy); pose proof (INR_pos nx Hx); nra).
  set (a := hat ny nx (F (tl ix)) (nth 0 ix 0%nat) l). set (b := hat ny nx (P (tl ix)) (nth 0 ix 0%nat) l).
  replace (nmul (Cconj (Cdivr a rt)) (Cdivr b rt)) with (Cscal (/ rt * / rt) (Cmul (Cconj a) b)).
  - apply Carg_scal. apply Rmult_lt_0_compat; now apply Rinv_0_lt_compat.
  - apply C_eq; cbn; unfold Rdiv; ring.
Qed.
Lemma hat_scale c f k l : hat ny nx (fscale c f) k l = Cscal c (hat ny nx f k l).
Proof.
  clear Hy Hx. unfold hat. rewrite !dft2_gc, <- gcsum_scal. apply gcsum_ext. intros. unfold cfield, fscale. cring.
Qed.
Lemma delta_self (F : frames) (c : list nat -> R) : (forall r, inb rest r -> 0 < c r) ->
  get_delta_ky (Ok (stack rest ny nx F)) (Ok (stack rest ny nx (fun r => fscale (c r) (F r)))) = Ok (build (delta_rows :: rest) (fun _ => 0)).
Proof.
  intros Hc. rewrite delta_stack. f_equal. apply build_ext. intros ix Hi. inversion Hi as [|k d r s Hk Hr]; subst. cbn [tl nth].
  rewrite (rsum_ext nx _ (fun _ => 0)); [rewrite rsum_zero; unfold Rdiv; ring|]. intros l Hl.
  rewrite hat_scale. set (a := hat ny nx (F r) k l).
  replace (Cmul (Cconj a) (Cscal (c r) a)) with (RtoC (c r * Cnorm2 a)) by (unfold Cnorm2; cring).
  apply Carg_pos. specialize (Hc r Hr). pose proof (Cnorm2_nonneg a). nra.
Qed.
Lemma delta_shift (F : frames) (s m : Z) k r : inb rest r -> (k < delta_rows)%nat ->
  - PI < 2 * PI * IZR (Z.of_nat k * s) / INR ny - 2 * PI * IZR m <= PI ->
  (forall l, (l < nx)%nat -> hat ny nx (F r) k l <> C0) ->
  exists a, get_delta_ky (Ok (stack rest ny nx F)) (Ok (stack rest ny nx (fun r i j => F r (sh ny i s) j))) = Ok a /\ 
    get a (k :: r) = 2 * PI * IZR (Z.of_nat k * s) / INR ny - 2 * PI * IZR m.
Proof.
  intros Hr Hk Hb Hne. eexists. split; [apply delta_stack|]. rewrite get_build by (now constructor). cbn [tl nth].
  set (t := 2 * PI * IZR (Z.of_nat k * s) / INR ny) in *.
  rewrite (rsum_ext nx _ (fun _ => t - 2 * PI * IZR m)).
  - rewrite rsum_const. pose proof (INR_pos nx Hx). field. lra.
  - intros l Hl. specialize (Hne l Hl).
    assert (E : hat ny nx (fun i j => F r (sh ny i s) j) k l = Cmul (cis t) (hat ny nx (F r) k l)).
    { unfold hat.
      rewrite (dft2_ext ny nx _ (fun i j => cfield (F r) (sh ny i s) (sh nx j 0))).
      - rewrite dft2_shift by assumption. f_equal. unfold pw. rewrite Z.mul_0_r, wn_0. unfold wn, t. ring_simplify. reflexivity.
      - intros i j Hi Hj. unfold cfield. now rewrite (sh_0 nx j Hj). }
    rewrite E. set (a := hat ny nx (F r) k l) in *.
    replace (Cmul (Cconj a) (Cmul (cis t) a)) with (Cscal (Cnorm2 a) (cis t)) by (unfold Cnorm2; cring).
    assert (Hp : 0 < Cnorm2 a).
    { pose proof (Cnorm2_nonneg a) as H0. destruct H0 as [H0|H0]; [exact H0|]. exfalso. apply Hne.
      unfold Cnorm2 in H0. apply C_eq; cbn; nra. }
    rewrite Carg_scal by exact Hp. rewrite <- (cis_2kpi (- m) t).
    replace (t + 2 * IZR (- m) * PI) with (t - 2 * PI * IZR m) by (rewrite opp_IZR; ring). now apply Carg_cis.
Qed.
Lemma delta_bound (F P : frames) : exists g,
  get_delta_ky (Ok (stack rest ny nx F)) (Ok (stack rest ny nx P)) = Ok (build (delta_rows :: rest) g) /\ forall ix, - PI <= g ix <= PI.
Proof.
  eexists. split; [apply delta_stack|]. intros ix. cbn beta. pose proof (INR_pos nx Hx) as HN.
  set (f := fun l => Carg _).
  assert (Hf : forall l, - PI <= f l <= PI) by (intros l; pose proof (Carg_bound (Cmul (Cconj (hat ny nx (F (tl ix)) (nth 0 ix 0%nat) l)) (hat ny nx (P (tl ix)) (nth 0 ix 0%nat) l))); unfold f; lra).
  assert (H1 : rsum nx f <= INR nx * PI) by (rewrite <- rsum_const; apply rsum_le; intros; apply Hf).
  assert (H2 : INR nx * - PI <= rsum nx f) by (rewrite <- rsum_const; apply rsum_le; intros; apply Hf).
  split.
  - apply Rmult_le_reg_r with (INR nx); [exact HN|]. unfold Rdiv. rewrite Rmult_assoc, Rinv_l by lra. lra.
  - apply Rmult_le_reg_r with (INR nx); [exact HN|]. unfold Rdiv. rewrite Rmult_assoc, Rinv_l by lra. lra.
Qed.
End Delta.

Lemma c29_values rest ny nx (n p o : frames) c1 dx : (0 < ny)%nat -> (0 < nx)%nat ->
  get_gamma_c (Ok (stack rest ny nx n)) (Ok (stack rest ny nx p)) c1 dx =
    Ok (build rest (fun r => c1 * gmean ny nx (fun i j => (n r i j - p r i j) ^ 2))) /\
  get_enstrophy (Ok (stack rest ny nx n)) (Ok (stack rest ny nx o)) dx =
    Ok (build rest (fun r => gmean ny nx (fun i j => (n r i j - o r i j) ^ 2) / 2)) /\
  get_energy (Ok (stack rest ny nx n)) (Ok (stack rest ny nx p)) dx =
    Ok (build rest (fun r => gmean ny nx (fun i j => n r i j ^ 2 +
      (((p r i (sh nx j 1) - p r i (sh nx j (-1))) / (2 * dx)) ^ 2 + ((p r (sh ny i 1) j - p r (sh ny i (-1)) j) / (2 * dx)) ^ 2)) / 2)) /\
  get_gamma_n (Ok (stack rest ny nx n)) (Ok (stack rest ny nx p)) dx None =
    Ok (build rest (fun r => - gmean ny nx (fun i j => n r i j * ((p r (sh ny i 1) j - p r (sh ny i (-1)) j) / (2 * dx))))).
Proof.
  intros Hy Hx. split; [apply gamma_c_stack|]. split; [rewrite enstrophy_stack; f_equal; apply build_ext; intros; lra|].
  split; [rewrite energy_stack by assumption; reflexivity|rewrite gamma_n_stack by assumption; reflexivity].
Qed.
Lemma peak_modes : forall l, (l < 2)%nat ->
  dft2 4 2 (fun i j => RtoC (if (i =? 0)%nat && (j =? 0)%nat then 1 else 0)) (Z.of_nat 1) (Z.of_nat l) <> C0.
Proof.
  intros l Hl E. rewrite dft2_gc in E. rewrite (gcsum_single 4 2 0 0) in E; [|lia|lia|].
  - cbn [Nat.eqb andb] in E. unfold pw in E. rewrite !Z.mul_0_r, !wn_0 in E. apply (f_equal re) in E. cbn in E. lra.
  - intros i j _ _ Hne. destruct (Nat.eqb_spec i 0), (Nat.eqb_spec j 0); cbn [andb]; try cring. exfalso. lia.
Qed.
