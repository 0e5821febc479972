(** Plane waves: derivatives, and Fourier multipliers acting on them. *)
From Coq Require Import List Arith ZArith Lia Bool Reals Lra Psatz.
From Verif Require Import Num NdArray NdFacts Spec GradFacts SumFacts LapFacts GradProps Cplx DftFacts SpecFourier ModelPoisson PoissonFacts PoissonProps
  SpecHW SpecPlasma HWFacts StepFacts RhsFacts HWProps SpecSmooth SmoothFacts SmoothStencil.
Import ListNotations.
Local Open Scope R_scope.

(** ** derivatives of wave sums *)
Lemma wsum_ext f g ws : (forall w, In w ws -> f w = g w) -> wsum f ws = wsum g ws.
Proof.
  induction ws as [|w ws IH]; intros H; [reflexivity|]. cbn. rewrite (H w) by now left. f_equal. apply IH. intros; apply H; now right.
Qed.
Lemma dpl_wsum (f f' : cwave -> R -> R) ws x : (forall w, derivable_pt_lim (f w) x (f' w x)) ->
  derivable_pt_lim (fun s => wsum (fun w => f w s) ws) x (wsum (fun w => f' w x) ws).
Proof.
  intros H. induction ws as [|w ws IH]; cbn [wsum fold_right]; [apply dpl_const|]. apply dpl_plus; [apply H|exact IH].
Qed.
Lemma abs_wsum f g ws : (forall w, Rabs (f w) <= g w) -> Rabs (wsum f ws) <= wsum g ws.
Proof.
  intros H. induction ws as [|w ws IH]; cbn [wsum fold_right]; [rewrite Rabs_R0; lra|]. now apply abs_add.
Qed.
Lemma dpl_cos c d x : derivable_pt_lim (fun s => cos (c * s + d)) x (c * cos (c * x + d + PI / 2)).
Proof.
  apply dpl_eq with (- sin (c * x + d) * c).
  - apply (derivable_pt_lim_comp (fun s => c * s + d) cos).
    + apply dpl_eq with (c * 1 + 0); [|ring]. apply dpl_plus; [apply dpl_scal, dpl_id|apply dpl_const].
    + apply derivable_pt_lim_cos.
  - rewrite cos_plus, cos_PI2, sin_PI2. ring.
Qed.
Lemma pow_mono_1 c a k : 1 <= c -> (a <= k)%nat -> c ^ a <= c ^ k.
Proof. intros. now apply Rle_pow. Qed.
Lemma trig_smooth Ly Lx ws k : smooth k (trigM Ly Lx ws k) (trig Ly Lx ws) (trigD Ly Lx ws).
Proof.
  split; [|split; [|split]].
  - intros y x. apply wsum_ext. intros w _. unfold wave. cbn [wA wth wk wl pow INR Nat.add].
    unfold kyw, kxw. cbn [wk wl]. rewrite Rmult_0_l, Rplus_0_r. ring.
  - intros a b y x _. unfold trigD.
    apply (dpl_wsum (fun w s => kyw Ly w ^ a * kxw Lx w ^ b * wave Ly Lx (mkWave (wA w) (wth w + INR (a + b) * (PI / 2)) (wk w) (wl w)) y s)
      (fun w s => kyw Ly w ^ a * kxw Lx w ^ S b * wave Ly Lx (mkWave (wA w) (wth w + INR (a + S b) * (PI / 2)) (wk w) (wl w)) y s)).
    intros w. unfold wave. cbn [wA wth]. set (K := kyw Ly (mkWave _ _ _ _)). set (L := kxw Lx (mkWave _ _ _ _)).
    apply (dpl_ext (fun s => kyw Ly w ^ a * kxw Lx w ^ b * wA w * cos (L * s + (K * y + (wth w + INR (a + b) * (PI / 2)))))).
    { intros s. rewrite Rmult_assoc. do 3 f_equal. ring. }
    eapply dpl_eq; [apply dpl_scal, dpl_cos|]. rewrite Nat.add_succ_r, S_INR.
    replace (kyw Ly (mkWave (wA w) (wth w + (INR (a + b) + 1) * (PI / 2)) (wk w) (wl w))) with K by reflexivity.
    replace (kxw Lx (mkWave (wA w) (wth w + (INR (a + b) + 1) * (PI / 2)) (wk w) (wl w))) with L by reflexivity.
    replace (kxw Lx w) with L by reflexivity.
    replace (K * y + L * x + (wth w + (INR (a + b) + 1) * (PI / 2))) with (L * x + (K * y + (wth w + INR (a + b) * (PI / 2))) + PI / 2) by field.
    cbn [pow]. ring.
  - intros a b y x _. unfold trigD.
    apply (dpl_wsum (fun w s => kyw Ly w ^ a * kxw Lx w ^ b * wave Ly Lx (mkWave (wA w) (wth w + INR (a + b) * (PI / 2)) (wk w) (wl w)) s x)
      (fun w s => kyw Ly w ^ S a * kxw Lx w ^ b * wave Ly Lx (mkWave (wA w) (wth w + INR (S a + b) * (PI / 2)) (wk w) (wl w)) s x)).
    intros w. unfold wave. cbn [wA wth]. set (K := kyw Ly (mkWave _ _ _ _)). set (L := kxw Lx (mkWave _ _ _ _)).
    apply (dpl_ext (fun s => kyw Ly w ^ a * kxw Lx w ^ b * wA w * cos (K * s + (L * x + (wth w + INR (a + b) * (PI / 2)))))).
    { intros s. rewrite Rmult_assoc. do 3 f_equal. ring. }
    eapply dpl_eq; [apply dpl_scal, dpl_cos|]. rewrite Nat.add_succ_l, S_INR.
    replace (kyw Ly (mkWave (wA w) (wth w + (INR (a + b) + 1) * (PI / 2)) (wk w) (wl w))) with K by reflexivity.
    replace (kxw Lx (mkWave (wA w) (wth w + (INR (a + b) + 1) * (PI / 2)) (wk w) (wl w))) with L by reflexivity.
    replace (kyw Ly w) with K by reflexivity.
    replace (K * y + L * x + (wth w + (INR (a + b) + 1) * (PI / 2))) with (K * y + (L * x + (wth w + INR (a + b) * (PI / 2))) + PI / 2) by field.
    cbn [pow]. ring.
  - intros a b y x Hk. apply abs_wsum. intros w. unfold wave. cbn [wA].
    set (c := cos _).
    assert (Hc : Rabs c <= 1) by (apply Rabs_le; unfold c; pose proof (COS_bound (kyw Ly {| wA := wA w; wth := wth w + INR (a + b) * (PI / 2); wk := wk w; wl := wl w |} * y +
     kxw Lx {| wA := wA w; wth := wth w + INR (a + b) * (PI / 2); wk := wk w; wl := wl w |} * x + wth {| wA := wA w; wth := wth w + INR (a + b) * (PI / 2); wk := wk w; wl := wl w |})); lra).
    clearbody c. set (q := 1 + Rabs (kyw Ly w) + Rabs (kxw Lx w)).
    pose proof (Rabs_pos (kyw Ly w)). pose proof (Rabs_pos (kxw Lx w)).
    assert (Q : 1 <= q) by (unfold q; lra).
    assert (E1 : Rabs (kyw Ly w ^ a) <= q ^ a) by (rewrite <- RPow_abs; apply pow_incr; unfold q; lra).
    assert (E2 : Rabs (kxw Lx w ^ b) <= q ^ b) by (rewrite <- RPow_abs; apply pow_incr; unfold q; lra).
    pose proof (abs_mul _ _ _ _ (abs_mul _ _ _ _ E1 E2) (abs_mul (wA w) c _ 1 (Rle_refl _) Hc)) as T.
    eapply Rle_trans; [exact T|]. rewrite Rmult_1_r, <- pow_add. apply Rmult_le_compat_r; [apply Rabs_pos|]. now apply Rle_pow.
Qed.
Lemma trig_periodic Ly Lx ws : Ly <> 0 -> Lx <> 0 -> periodic Ly Lx (trig Ly Lx ws).
Proof.
  intros Hy Hx y x.
  assert (P : forall t (k : Z), cos (t + 2 * IZR k * PI) = cos t) by (intros t k; exact (f_equal re (cis_2kpi k t))).
  split; apply wsum_ext; intros w _; unfold wave; f_equal.
  - rewrite <- (P (kyw Ly w * y + kxw Lx w * x + wth w) (wk w)). f_equal. unfold kyw. field. exact Hy.
  - rewrite <- (P (kyw Ly w * y + kxw Lx w * x + wth w) (wl w)). f_equal. unfold kxw. field. exact Hx.
Qed.

(** ** Fourier multipliers *)
Lemma sfreq_pidx n k : (2 * Z.abs k < Z.of_nat n)%Z -> sfreq n (pidx n k) = k.
Proof.
  intros H. unfold sfreq. assert (Hn : (0 < n)%nat) by lia.
  pose proof (pidx_mod n k Hn) as E. destruct (Z_le_gt_dec 0 k).
  - rewrite Z.mod_small in E by lia. destruct (Nat.ltb_spec (2 * pidx n k) n); lia.
  - assert (E' : (k mod Z.of_nat n = k + Z.of_nat n)%Z) by (rewrite <- (Z.mod_add k 1) by lia; rewrite Z.mul_1_l; apply Z.mod_small; lia).
    rewrite E' in E. destruct (Nat.ltb_spec (2 * pidx n k) n); lia.
Qed.
Section M.
Variables (ny nx : nat).
Hypothesis Hy : (0 < ny)%nat.
Hypothesis Hx : (0 < nx)%nat.
Lemma eqm_pidx n a (k : Z) : (a < n)%nat -> ((k - Z.of_nat a) mod Z.of_nat n =? 0)%Z = (pidx n k =? a)%nat.
Proof.
  intros Ha. rewrite <- (diff_mod n (pidx n k) a) by (try apply pidx_lt; lia).
  f_equal. rewrite pidx_mod by lia. rewrite Zminus_mod_idemp_l. reflexivity.
Qed.
Lemma mult_pw m k l i j : mult ny nx m (fun i j => pw ny nx k l (Z.of_nat i) (Z.of_nat j)) i j =
  Cscal (m (pidx ny k) (pidx nx l)) (pw ny nx k l (Z.of_nat i) (Z.of_nat j)).
Proof.
  unfold mult. rewrite idft2_gc.
  assert (D : forall a b, (a < ny)%nat -> (b < nx)%nat -> dft2 ny nx (fun i j => pw ny nx k l (Z.of_nat i) (Z.of_nat j)) (Z.of_nat a) (Z.of_nat b)
     = if ((pidx ny k =? a)%nat && (pidx nx l =? b)%nat)%bool then RtoC (INR ny * INR nx) else C0).
  { intros a b Ha Hb. rewrite dft2_gc.
    rewrite (gcsum_ext ny nx _ (fun i j => pw ny nx (k - Z.of_nat a) (l - Z.of_nat b) (Z.of_nat i) (Z.of_nat j))) by (intros; apply pw_mul).
    rewrite gcsum_pw by assumption. now rewrite !eqm_pidx by assumption. }
  rewrite (gcsum_single ny nx (pidx ny k) (pidx nx l)).
  - rewrite D by (apply pidx_lt; assumption). rewrite !Nat.eqb_refl. cbn [andb].
    rewrite (pw_eqm ny nx (Z.of_nat (pidx ny k)) (Z.of_nat (pidx nx l)) k l) by (try assumption; rewrite pidx_mod by assumption; apply Z.mod_mod; lia).
    pose proof (INR2_ne ny nx Hy Hx). apply C_eq; cbn; field; split; apply not_0_INR; lia.
  - now apply pidx_lt.
  - now apply pidx_lt.
  - intros a b Ha Hb Hne. rewrite D by assumption.
    destruct (Nat.eqb_spec (pidx ny k) a), (Nat.eqb_spec (pidx nx l) b); cbn [andb]; try (exfalso; lia); cring.
Qed.
Definition gwave (k l : Z) (th : R) (i j : nat) : R := cos (2 * PI * IZR k / INR ny * INR i + 2 * PI * IZR l / INR nx * INR j + th).
Lemma gwave_pw k l th i j : RtoC (gwave k l th i j) =
  Cadd (Cmul (Cscal (/ 2) (cis th)) (pw ny nx k l (Z.of_nat i) (Z.of_nat j)))
       (Cmul (Cscal (/ 2) (cis (- th))) (pw ny nx (- k) (- l) (Z.of_nat i) (Z.of_nat j))).
Proof.
  assert (E : forall k l, pw ny nx k l (Z.of_nat i) (Z.of_nat j) = cis (2 * PI * IZR k / INR ny * INR i + 2 * PI * IZR l / INR nx * INR j)).
  { intros a b. unfold pw, wn. rewrite <- cis_add. f_equal. rewrite !mult_IZR, <- !INR_IZR_INZ. field. split; apply not_0_INR; lia. }
  rewrite !E, !Cscal_mul, <- !cis_add. unfold gwave.
  replace (- th + (2 * PI * IZR (- k) / INR ny * INR i + 2 * PI * IZR (- l) / INR nx * INR j)) with
    (- (2 * PI * IZR k / INR ny * INR i + 2 * PI * IZR l / INR nx * INR j + th)) by (rewrite !opp_IZR; field; split; apply not_0_INR; lia).
  rewrite (Rplus_comm th). unfold cis. rewrite cos_neg, sin_neg. apply C_eq; cbn; field.
Qed.
Lemma rmult_gwave m k l th i j : even_mult ny nx m ->
  rmult ny nx m (gwave k l th) i j = m (pidx ny k) (pidx nx l) * gwave k l th i j.
Proof.
  intros He. unfold rmult.
  rewrite (mult_ext ny nx m m (cfield (gwave k l th)) (fun i j => Cadd (Cmul (Cscal (/ 2) (cis th)) (pw ny nx k l (Z.of_nat i) (Z.of_nat j)))
       (Cmul (Cscal (/ 2) (cis (- th))) (pw ny nx (- k) (- l) (Z.of_nat i) (Z.of_nat j)))) i j) by (intros; first [apply gwave_pw | reflexivity]).
  rewrite (mult_lin ny nx m (Cscal (/ 2) (cis th)) (Cscal (/ 2) (cis (- th))) (fun i j => pw ny nx k l (Z.of_nat i) (Z.of_nat j)) (fun i j => pw ny nx (- k) (- l) (Z.of_nat i) (Z.of_nat j))).
  rewrite !mult_pw.
  assert (P : forall n z, (0 < n)%nat -> pidx n (- z) = pidx n (- Z.of_nat (pidx n z))).
  { intros n z Hn. apply Nat2Z.inj. rewrite !pidx_mod by assumption. rewrite <- (Z.sub_0_l z), <- (Z.sub_0_l (z mod Z.of_nat n)). now rewrite Zminus_mod_idemp_r. }
  rewrite (P ny k Hy), (P nx l Hx), He by now apply pidx_lt.
  transitivity (re (Cscal (m (pidx ny k) (pidx nx l)) (RtoC (gwave k l th i j)))); [|reflexivity].
  rewrite gwave_pw. f_equal. cring.
Qed.
End M.

(** ** the potential of a resolved wave sum *)
Section P.
Variables (ny nx : nat) (h : R).
Hypothesis Hy : (0 < ny)%nat.
Hypothesis Hx : (0 < nx)%nat.
Hypothesis Hh : h <> 0.
Local Notation Ly := (INR ny * h).
Local Notation Lx := (INR nx * h).

Lemma wave_sample w i j : sample h (wave Ly Lx w) i j = wA w * gwave ny nx (wk w) (wl w) (wth w) i j.
Proof.
  unfold sample, wave, gwave, kyw, kxw. do 2 f_equal. pose proof (INR_pos ny Hy). pose proof (INR_pos nx Hx). field. repeat split; lra.
Qed.
Lemma pidx_0_iff n k : (2 * Z.abs k < Z.of_nat n)%Z -> pidx n k = 0%nat -> k = 0%Z.
Proof. intros H E. pose proof (sfreq_pidx n k H) as S. rewrite E in S. unfold sfreq in S. destruct (Nat.ltb_spec (2 * 0) n); lia. Qed.
Lemma invlap_gwave k l th i j : (2 * Z.abs k < Z.of_nat ny)%Z -> (2 * Z.abs l < Z.of_nat nx)%Z -> ~ (k = 0 /\ l = 0)%Z ->
  invlap ny nx h (gwave ny nx k l th) i j = - / ((2 * PI * IZR k / Ly) ^ 2 + (2 * PI * IZR l / Lx) ^ 2) * gwave ny nx k l th i j.
Proof.
  intros Hk Hl Hne. rewrite invlap_rmult, rmult_gwave by (try assumption; apply inv_sym_even).
  rewrite <- Rmult_assoc. f_equal. unfold inv_sym.
  assert (E : is00 (pidx ny k) (pidx nx l) = false).
  { destruct (is00 (pidx ny k) (pidx nx l)) eqn:E; [|reflexivity]. apply is00_true in E as [E1 E2].
    exfalso. apply Hne. split; [now apply (pidx_0_iff ny)|now apply (pidx_0_iff nx)]. }
  rewrite E.
  assert (Neg : lam ny nx (pidx ny k) (pidx nx l) < 0) by (apply lam_neg; try (now apply pidx_lt); now apply is00_false).
  pose proof (lam_symbol ny nx h (pidx ny k) (pidx nx l) Hy Hx Hh) as S. unfold lap_symbol in S. rewrite !sfreq_pidx in S by assumption.
  set (q := (2 * PI * IZR k / Ly) ^ 2 + (2 * PI * IZR l / Lx) ^ 2) in *.
  rewrite pow_1. replace q with (- (lam ny nx (pidx ny k) (pidx nx l) / h ^ 2)) by lra. field. split; [exact Hh|lra].
Qed.
Lemma dlap_trig ws y x : dlap (trigD Ly Lx ws) 0%nat 0%nat y x = wsum (fun w => - (kyw Ly w ^ 2 + kxw Lx w ^ 2) * wave Ly Lx w y x) ws.
Proof.
  unfold dlap, trigD. induction ws as [|w ws IH]; cbn [wsum fold_right]; [ring|]. unfold wsum in IH. rewrite <- IH.
  unfold wave. cbn [wA wth Nat.add]. 
  replace (kyw Ly (mkWave (wA w) (wth w + INR 2 * (PI / 2)) (wk w) (wl w))) with (kyw Ly w) by reflexivity.
  replace (kxw Lx (mkWave (wA w) (wth w + INR 2 * (PI / 2)) (wk w) (wl w))) with (kxw Lx w) by reflexivity.
  replace (kyw Ly w * y + kxw Lx w * x + (wth w + INR 2 * (PI / 2))) with (kyw Ly w * y + kxw Lx w * x + wth w + PI) by (cbn [INR]; field).
  rewrite neg_cos. cbn [pow]. ring.
Qed.
Lemma invlap_trig ws i j : (i < ny)%nat -> (j < nx)%nat -> Forall (resolved ny nx) ws ->
  invlap ny nx h (sample h (dlap (trigD Ly Lx ws) 0%nat 0%nat)) i j = sample h (trig Ly Lx ws) i j.
Proof.
  intros Hi Hj. induction ws as [|w ws IH]; intros F.
  - rewrite (invlap_ext ny nx h _ (fconst 0)).
    + unfold sample, trig. cbn. now apply invlap_0.
    + intros a b _ _. unfold sample, dlap, trigD. cbn. unfold fconst. ring.
  - inversion F as [|w' ws' Hw Fw]; subst. destruct Hw as (Hk & Hl & Hne).
    set (q := kyw Ly w ^ 2 + kxw Lx w ^ 2).
    assert (Q : 0 < q).
    { unfold q, kyw, kxw. pose proof (INR_pos ny Hy). pose proof (INR_pos nx Hx). pose proof PI_RGT_0.
      assert (Z : forall (z : Z) L, L <> 0 -> z <> 0%Z -> 0 < (2 * PI * IZR z / L) ^ 2).
      { intros z L HL Hz. apply Rlt_le_trans with (Rsqr (2 * PI * IZR z / L)); [|unfold Rsqr; right; ring].
        apply Rlt_0_sqr. unfold Rdiv. apply Rmult_integral_contrapositive_currified; [apply Rmult_integral_contrapositive_currified; [lra|apply not_0_IZR; exact Hz]|now apply Rinv_neq_0_compat]. }
      assert (N1 : INR ny * h <> 0) by (apply Rmult_integral_contrapositive_currified; lra).
      assert (N2 : INR nx * h <> 0) by (apply Rmult_integral_contrapositive_currified; lra).
      destruct (Z.eq_dec (wk w) 0) as [E|E].
      - assert (wl w <> 0%Z) by tauto. pose proof (Z _ _ N2 H2). pose proof (pow2_ge_0 (2 * PI * IZR (wk w) / (INR ny * h))). lra.
      - pose proof (Z _ _ N1 E). pose proof (pow2_ge_0 (2 * PI * IZR (wl w) / (INR nx * h))). lra. }
    rewrite (invlap_ext ny nx h _ (fadd (fscale (- q * wA w) (gwave ny nx (wk w) (wl w) (wth w))) (fscale 1 (sample h (dlap (trigD Ly Lx ws) 0%nat 0%nat))))).
    + rewrite invlap_lin, IH, invlap_gwave by assumption. 
      fold (kyw Ly w) (kxw Lx w). fold q. unfold sample at 2, trig. cbn [wsum fold_right]. fold (sample h (wave Ly Lx w) i j).
      rewrite wave_sample. unfold sample, trig, wsum. field. lra.
    + intros a b _ _. unfold fadd, fscale. rewrite Rmult_1_l. unfold sample at 1 2. rewrite !dlap_trig. cbn [wsum fold_right].
      fold (sample h (wave Ly Lx w) a b). rewrite wave_sample. unfold wsum, q. ring.
Qed.
End P.
