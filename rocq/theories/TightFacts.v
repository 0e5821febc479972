(** Facts for statements added after mutation testing. *)
From Coq Require Import List Arith ZArith Reals Lra Lia Bool.
From Verif Require Import Num NdArray Spec Cplx SumFacts DftFacts SpecFourier ModelDownsample SpecArgs DsFourier DsField DsEnergy.
Import ListNotations.
Local Open Scope R_scope.

Lemma wn_half m z : (0 < m)%nat -> wn (2 * m) (Z.of_nat m * z) = mkC (cos (PI * IZR z)) (sin (PI * IZR z)).
Proof.
  intros P. unfold wn, cis. apply INR_pos in P. rewrite mult_INR, mult_IZR, <- INR_IZR_INZ. cbn [INR].
  replace (2 * PI * (INR m * IZR z) / ((1 + 1) * INR m)) with (PI * IZR z) by (field; lra). reflexivity.
Qed.
Lemma half_turn j : cos (PI * IZR (Z.of_nat j)) = (-1) ^ j /\ sin (PI * IZR (Z.of_nat j)) = 0.
Proof.
  rewrite <- INR_IZR_INZ. induction j as [|j [C S]]; [cbn; rewrite Rmult_0_r, cos_0, sin_0; lra|].
  rewrite S_INR. replace (PI * (INR j + 1)) with (PI * INR j + PI) by ring. rewrite neg_cos, neg_sin, C, S. cbn. lra.
Qed.

Lemma resample1_nyq m nx c j : (0 < m)%nat -> (2 * m < nx)%nat ->
  resample1 (2 * m) nx (fun i => re (Cmul c (wn nx (Z.of_nat m * Z.of_nat i)))) j = re c * (-1) ^ j.
Proof.
  intros P M. rewrite resample1_eq by lia. assert (Pn : 0 < INR nx) by (apply INR_pos; lia).
  assert (Hm : (2 * m / 2 = m)%nat) by (rewrite Nat.mul_comm; apply Nat.div_mul; lia).
  assert (Mn : Nat.min (2 * m) nx = (2 * m)%nat) by lia.
  rewrite (rsum_single _ m); [|rewrite Hm; lia|].
  - unfold rY, resample_spec. rewrite Mn, Hm. destruct (Nat.leb_spec m m); [|lia].
    assert (Ev : Nat.even (2 * m) = true) by (apply Nat.even_spec; now exists m). rewrite Ev, Nat.eqb_refl. cbn [andb].
    destruct (Nat.ltb_spec (2 * m) nx); [|lia]. rewrite rfft1_mode, Nat.eqb_refl by lia. destruct (Nat.eqb_spec m 0); [lia|].
    rewrite wn_half by exact P. destruct (half_turn j) as [-> ->]. unfold cw. rewrite Nat.eqb_refl, orb_true_r.
    cbn [Cmul Cscal re im]. field. lra.
  - intros k Hk N. enough (E : rY (2 * m) nx (fun i => re (Cmul c (wn nx (Z.of_nat m * Z.of_nat i)))) k = C0) by (rewrite E; cbn; ring).
    unfold rY, resample_spec. destruct (_ <=? _)%nat; [|reflexivity]. rewrite rfft1_mode by lia.
    destruct (Nat.eqb_spec k m); [contradiction|]. destruct (_ && _); [|reflexivity].
    repeat (destruct (_ <? _)%nat); try reflexivity; apply C_eq; cbn; ring.
Qed.
Lemma resample2_nyq m n (a b : R) i j : (0 < m)%nat -> (2 * m < n)%nat ->
  resample2 (2 * m) (2 * m) n n (fun _ j => a * cos (2 * PI * INR m * (INR j / INR n)) + b * sin (2 * PI * INR m * (INR j / INR n))) i j
  = a * (-1) ^ j.
Proof.
  intros P M. unfold resample2. rewrite (resample1_ext (2 * m) n _ (fun _ => a * (-1) ^ j)); [apply resample1_const; lia|lia|lia|].
  intros i' _. rewrite (resample1_ext (2 * m) n _ (fun i => re (Cmul (mkC a (- b)) (wn n (Z.of_nat m * Z.of_nat i))))) by (lia || (intros; apply mode_trig; lia)).
  now rewrite resample1_nyq.
Qed.
