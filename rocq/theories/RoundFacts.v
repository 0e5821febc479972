(** Rounding errors of the four operations of [NumF64], from Flocq's
    correctness theorems for IEEE arithmetic. *)
From Coq Require Import ZArith Reals Lra Lia SpecFloat Bool.
From Flocq Require Import Core BinarySingleNaN Relative Plus_error.
From Verif Require Import SpecRound.
Local Open Scope R_scope.

Local Notation prec := 53%Z.
Local Notation emax := 1024%Z.
Local Instance Hprec : FLX.Prec_gt_0 prec := eq_refl _.
Local Instance Hmax : Prec_lt_emax prec emax := eq_refl _.
Local Notation bf := (binary_float prec emax).

(** ** SpecFloat's operations are Flocq's *)
Lemma rne_equiv s m l : round_nearest_even m l = choice_mode mode_NE s m l.
Proof.
  case l; [reflexivity|intro c]. case c; [|reflexivity..].
  now simpl; unfold Round.cond_incr; case Z.even.
Qed.
Lemma bra_equiv sx mx ex lx :
  SpecFloat.binary_round_aux prec emax sx mx ex lx = binary_round_aux prec emax mode_NE sx mx ex lx.
Proof.
  unfold SpecFloat.binary_round_aux, binary_round_aux. set (mrse' := shr_fexp _ _ _ _ _).
  case mrse'; intros mrs' e'; simpl. now rewrite (rne_equiv sx).
Qed.
Lemma br_equiv s m e :
  SpecFloat.binary_round prec emax s m e = binary_round prec emax mode_NE s m e.
Proof.
  unfold SpecFloat.binary_round, binary_round, shl_align_fexp.
  set (mez := shl_align _ _ _); case mez as [mz ez]. apply bra_equiv.
Qed.
Lemma bn_equiv m e szero :
  SpecFloat.binary_normalize prec emax m e szero = B2SF (binary_normalize prec emax Hprec Hmax mode_NE m e szero).
Proof.
  case m as [|p|p]; [now simpl| |]; simpl; rewrite B2SF_SF2B; apply br_equiv.
Qed.
Lemma mul_equiv (x y : bf) : SFmul prec emax (B2SF x) (B2SF y) = B2SF (Bmult mode_NE x y).
Proof.
  case x as [sx|sx| |sx mx ex Bx]; case y as [sy|sy| |sy my ey By]; [now trivial..|].
  simpl. rewrite B2SF_SF2B. apply bra_equiv.
Qed.
Lemma add_equiv (x y : bf) : SFadd prec emax (B2SF x) (B2SF y) = B2SF (Bplus mode_NE x y).
Proof.
  case x as [sx|sx| |sx mx ex Bx]; case y as [sy|sy| |sy my ey By];
    [now (trivial || simpl; case Bool.eqb)..|]. apply bn_equiv.
Qed.
Lemma sub_equiv (x y : bf) : SFsub prec emax (B2SF x) (B2SF y) = B2SF (Bminus mode_NE x y).
Proof.
  case x as [sx|sx| |sx mx ex Bx]; case y as [sy|sy| |sy my ey By];
    [now (trivial || simpl; case Bool.eqb)..|].
  simpl. unfold Zminus. rewrite <- cond_Zopp_negb. apply bn_equiv.
Qed.
Lemma div_equiv (x y : bf) : SFdiv prec emax (B2SF x) (B2SF y) = B2SF (Bdiv mode_NE x y).
Proof.
  case x as [sx|sx| |sx mx ex Bx]; case y as [sy|sy| |sy my ey By];
    [now (trivial || simpl; case Bool.eqb)..|].
  simpl. rewrite B2SF_SF2B. set (melz := SFdiv_core_binary _ _ _ _ _ _).
  case melz as [[mz ez] lz]. apply bra_equiv.
Qed.

(** ** values *)
Lemma two_bpow e : two e = bpow radix2 e.
Proof. unfold two. rewrite bpow_powerRZ. reflexivity. Qed.
Lemma fval_B2R (b : bf) : fval (B2SF b) = B2R b.
Proof.
  destruct b as [| | |s m e H]; try reflexivity. cbn [B2SF fval B2R]. unfold F2R. cbn [Fnum Fexp].
  rewrite two_bpow. destruct s; cbn [cond_Zopp]; [rewrite <- opp_IZR; reflexivity|reflexivity].
Qed.
Lemma finite_B x : finite64 x -> exists b : bf, B2SF b = x /\ is_finite b = true.
Proof.
  intros [V F]. exists (SF2B x V). split; [apply B2SF_SF2B|]. destruct x; cbn in *; tauto.
Qed.
Lemma B_finite (b : bf) : is_finite b = true -> finite64 (B2SF b).
Proof.
  intros H. split; [apply valid_binary_B2SF|]. destruct b; cbn in *; try exact I; discriminate.
Qed.
Lemma pow_bpow n : 2 ^ n = bpow radix2 (Z.of_nat n).
Proof. rewrite bpow_powerRZ. now rewrite <- pow_powerRZ. Qed.
Lemma uro_eq : uro = / 2 * bpow radix2 (- prec + 1).
Proof.
  unfold uro. rewrite pow_bpow. rewrite <- bpow_opp. change (/ 2) with (bpow radix2 (-1)).
  rewrite <- bpow_plus. reflexivity.
Qed.
Lemma eta_eq : eta = / 2 * bpow radix2 (3 - emax - prec).
Proof.
  unfold eta. rewrite pow_bpow. rewrite <- bpow_opp. change (/ 2) with (bpow radix2 (-1)).
  rewrite <- bpow_plus. reflexivity.
Qed.

Local Notation fe := (SpecFloat.fexp prec emax).
Local Notation rnd := (round radix2 fe (round_mode mode_NE)).

Lemma fe_FLT : forall e, fe e = FLT_exp (3 - emax - prec) prec e.
Proof. intros. reflexivity. Qed.

Lemma rnd_big r : Rabs r <= 2 ^ 1023 -> Rlt_bool (Rabs (rnd r)) (bpow radix2 emax) = true.
Proof.
  intros H. apply Rlt_bool_true. apply Rle_lt_trans with (bpow radix2 1023).
  - apply abs_round_le_generic.
    + apply fexp_correct. reflexivity.
    + apply valid_rnd_N.
    + apply generic_format_bpow. unfold SpecFloat.fexp, SpecFloat.emin. lia.
    + rewrite pow_bpow in H. exact H.
  - apply bpow_lt. reflexivity.
Qed.
Lemma rnd_err r : Rabs (rnd r - r) <= uro * Rabs r + eta.
Proof.
  destruct (error_N_FLT radix2 (3 - emax - prec) prec eq_refl (fun x => negb (Z.even x)) r) as (eps & et & H1 & H2 & _ & H3).
  change (rnd r) with (round radix2 (FLT_exp (3 - emax - prec) prec) (Znearest (fun x => negb (Z.even x))) r).
  rewrite H3. replace (r * (1 + eps) + et - r) with (eps * r + et) by ring.
  apply Rle_trans with (1 := Rabs_triang _ _). rewrite Rabs_mult, uro_eq, eta_eq.
  apply Rplus_le_compat; [|exact H2]. apply Rmult_le_compat_r; [apply Rabs_pos|exact H1].
Qed.
Lemma rnd_add_err x y : generic_format radix2 fe x -> generic_format radix2 fe y ->
  Rabs (rnd (x + y) - (x + y)) <= uro * Rabs (x + y).
Proof.
  intros Fx Fy.
  destruct (FLT_plus_error_N_ex radix2 (3 - emax - prec) prec (fun x => negb (Z.even x)) x y Fx Fy) as (eps & H1 & H3).
  change (rnd (x + y)) with (round radix2 (FLT_exp (3 - emax - prec) prec) (Znearest (fun x => negb (Z.even x))) (x + y)).
  rewrite H3. replace ((x + y) * (1 + eps) - (x + y)) with (eps * (x + y)) by ring.
  rewrite Rabs_mult. apply Rmult_le_compat_r; [apply Rabs_pos|].
  apply Rle_trans with (1 := H1). unfold u_ro. rewrite uro_eq.
  set (u := / 2 * bpow radix2 (- prec + 1)). assert (0 < u) by (unfold u; apply Rmult_lt_0_compat; [lra|apply bpow_gt_0]).
  apply Rmult_le_reg_r with (1 + u); [lra|]. unfold Rdiv. rewrite Rmult_assoc, Rinv_l by lra. nra.
Qed.

Lemma add_ok x y : finite64 x -> finite64 y -> Rabs (fval x + fval y) <= 2 ^ 1023 ->
  near (SFadd 53 1024 x y) (fval x + fval y) (uro * Rabs (fval x + fval y)).
Proof.
  intros Hx Hy H. destruct (finite_B x Hx) as (a & <- & Fa). destruct (finite_B y Hy) as (b & <- & Fb).
  rewrite add_equiv. rewrite !fval_B2R in *.
  pose proof (Bplus_correct prec emax Hprec Hmax mode_NE a b Fa Fb) as C. rewrite (rnd_big _ H) in C. destruct C as (C1 & C2 & _).
  split; [now apply B_finite|]. rewrite fval_B2R, C1. apply rnd_add_err; apply generic_format_B2R.
Qed.
Lemma sub_ok x y : finite64 x -> finite64 y -> Rabs (fval x - fval y) <= 2 ^ 1023 ->
  near (SFsub 53 1024 x y) (fval x - fval y) (uro * Rabs (fval x - fval y)).
Proof.
  intros Hx Hy H. destruct (finite_B x Hx) as (a & <- & Fa). destruct (finite_B y Hy) as (b & <- & Fb).
  rewrite sub_equiv. rewrite !fval_B2R in *.
  pose proof (Bminus_correct prec emax Hprec Hmax mode_NE a b Fa Fb) as C. rewrite (rnd_big _ H) in C. destruct C as (C1 & C2 & _).
  split; [now apply B_finite|]. rewrite fval_B2R, C1. change (B2R a - B2R b) with (B2R a + - B2R b). apply rnd_add_err; [|apply generic_format_opp]; apply generic_format_B2R.
Qed.
Lemma mul_ok x y : finite64 x -> finite64 y -> Rabs (fval x * fval y) <= 2 ^ 1023 ->
  near (SFmul 53 1024 x y) (fval x * fval y) (uro * Rabs (fval x * fval y) + eta).
Proof.
  intros Hx Hy H. destruct (finite_B x Hx) as (a & <- & Fa). destruct (finite_B y Hy) as (b & <- & Fb).
  rewrite mul_equiv. rewrite !fval_B2R in *.
  pose proof (Bmult_correct prec emax Hprec Hmax mode_NE a b) as C. rewrite (rnd_big _ H) in C. destruct C as (C1 & C2 & _).
  rewrite Fa, Fb in C2. split; [now apply B_finite|]. rewrite fval_B2R, C1. apply rnd_err.
Qed.
Lemma div_ok x y : finite64 x -> finite64 y -> fval y <> 0 -> Rabs (fval x / fval y) <= 2 ^ 1023 ->
  near (SFdiv 53 1024 x y) (fval x / fval y) (uro * Rabs (fval x / fval y) + eta).
Proof.
  intros Hx Hy N H. destruct (finite_B x Hx) as (a & <- & Fa). destruct (finite_B y Hy) as (b & <- & Fb).
  rewrite div_equiv. rewrite !fval_B2R in *.
  pose proof (Bdiv_correct prec emax Hprec Hmax mode_NE a b N) as C. rewrite (rnd_big _ H) in C. destruct C as (C1 & C2 & _).
  rewrite Fa in C2. split; [now apply B_finite|]. rewrite fval_B2R, C1. apply rnd_err.
Qed.

(** ** exact operations *)
Lemma rnd_exact (b : bf) : rnd (B2R b) = B2R b.
Proof. apply round_generic; [apply valid_rnd_N|apply generic_format_B2R]. Qed.
Lemma ofZ_exact z : (Z.abs z <= 2 ^ 53)%Z -> finite64 (SpecFloat.binary_normalize 53 1024 z 0 false) /\
  fval (SpecFloat.binary_normalize 53 1024 z 0 false) = IZR z.
Proof.
  intros H. rewrite bn_equiv.
  pose proof (binary_normalize_correct prec emax Hprec Hmax mode_NE z 0 false) as C. cbv zeta in C.
  assert (E : F2R (Float radix2 z 0) = IZR z) by (unfold F2R; cbn [Fnum Fexp]; change (bpow radix2 0) with 1; ring).
  rewrite E in C.
  assert (R : rnd (IZR z) = IZR z).
  { apply round_generic; [apply valid_rnd_N|].
    destruct (Z.eq_dec (Z.abs z) (2 ^ 53)) as [Hz|Hz].
    - assert (G : generic_format radix2 fe (bpow radix2 53)) by (apply generic_format_bpow; unfold SpecFloat.fexp, SpecFloat.emin; lia).
      change (bpow radix2 53) with (IZR (2 ^ 53)) in G. rewrite <- Hz in G.
      destruct (Z.abs_eq_or_opp z) as [A|A]; rewrite A in G; [exact G|].
      rewrite opp_IZR in G. apply generic_format_opp in G. now rewrite Ropp_involutive in G.
    - apply generic_format_FLT. exists (Float radix2 z 0); cbn [Fnum Fexp]; [now rewrite E| |vm_compute; discriminate].
      change (radix2 ^ 53)%Z with (2 ^ 53)%Z. change (Z.pow radix2 prec) with (2 ^ 53)%Z. lia. }
  rewrite (rnd_big (IZR z)) in C.
  - destruct C as (C1 & C2 & _). split; [now apply B_finite|]. now rewrite fval_B2R, C1.
  - rewrite <- abs_IZR. apply Rle_trans with (IZR (2 ^ 53)); [now apply IZR_le|].
    change (IZR (2 ^ 53)) with (bpow radix2 53). rewrite pow_bpow. apply bpow_le. lia.
Qed.
Lemma opp_exact x : finite64 x -> finite64 (SFopp x) /\ fval (SFopp x) = - fval x.
Proof.
  intros [V F]. destruct x as [s|s| |s m e]; cbn in F; try tauto.
  - split; [split; [exact V|exact I]|cbn; ring].
  - split; [split; [exact V|exact I]|]. cbn [SFopp fval]. destruct s; cbn [negb]; ring.
Qed.
Lemma mul_sign s x : finite64 x -> let e := SpecFloat.binary_normalize 53 1024 (if s : bool then 1 else -1) 0 false in
  finite64 (SFmul 53 1024 e x) /\ fval (SFmul 53 1024 e x) = (if s then 1 else -1) * fval x.
Proof.
  intros Hx. cbv zeta. destruct (ofZ_exact (if s then 1 else -1) ltac:(destruct s; cbn; lia)) as [F1 V1].
  set (e := SpecFloat.binary_normalize 53 1024 (if s then 1 else -1) 0 false) in *. clearbody e.
  destruct (finite_B x Hx) as (a & <- & Fa). destruct (finite_B e F1) as (b & <- & Fb).
  rewrite mul_equiv. rewrite !fval_B2R in *.
  pose proof (Bmult_correct prec emax Hprec Hmax mode_NE b a) as C. rewrite V1 in C.
  replace (IZR (if s then 1 else -1)) with (if s then 1 else -1) in C by (now destruct s).
  assert (R : rnd ((if s then 1 else -1) * B2R a) = (if s then 1 else -1) * B2R a).
  { apply round_generic; [apply valid_rnd_N|]. destruct s; [rewrite Rmult_1_l; apply generic_format_B2R|].
    replace (-1 * B2R a) with (- B2R a) by ring. apply generic_format_opp, generic_format_B2R. }
  rewrite R in C. rewrite Rlt_bool_true in C.
  - destruct C as (C1 & C2 & _). rewrite Fa, Fb in C2. split; [now apply B_finite|exact C1].
  - replace (Rabs ((if s then 1 else -1) * B2R a)) with (Rabs (B2R a)); [apply abs_B2R_lt_emax|].
    destruct s; [now rewrite Rmult_1_l|]. replace (-1 * B2R a) with (- B2R a) by ring. now rewrite Rabs_Ropp.
Qed.
Lemma eq0_val x : finite64 x -> SFeqb x (SpecFloat.binary_normalize 53 1024 0 0 false) = true -> fval x = 0.
Proof. intros [_ F] E. destruct x as [s|s| |s m e]; cbn in *; try reflexivity; destruct s; discriminate. Qed.

(** ** propagation of errors *)
(** overflow cannot happen below this bound *)
Definition big : R := 2 ^ 1023.
Lemma uro_pos : 0 < uro.
Proof. unfold uro. apply Rinv_0_lt_compat, pow_lt. lra. Qed.
Lemma eta_pos : 0 < eta.
Proof. unfold eta. apply Rinv_0_lt_compat, pow_lt. lra. Qed.
Lemma near_err x r e : near x r e -> 0 <= e.
Proof. intros [_ H]. apply Rle_trans with (2 := H). apply Rabs_pos. Qed.
Lemma near_mono x r e e' : near x r e -> e <= e' -> near x r e'.
Proof. intros [F H] L. split; [exact F|lra]. Qed.
Lemma near_eq x r r' e : near x r e -> r = r' -> near x r' e.
Proof. intros H <-. exact H. Qed.
Lemma near_self x : finite64 x -> near x (fval x) 0.
Proof. intros H. split; [exact H|]. rewrite Rminus_diag_eq by reflexivity. rewrite Rabs_R0. lra. Qed.
Lemma abs_inv x y : Rabs x <= y -> - y <= x <= y.
Proof. apply Rabs_le_inv. Qed.
Lemma tri x y z : Rabs (x - y) <= z -> Rabs x <= Rabs y + z.
Proof. intros H. replace x with (y + (x - y)) by ring. apply Rle_trans with (1 := Rabs_triang _ _). lra. Qed.

Lemma near_add x y r s e d T : near x r e -> near y s d -> Rabs (r + s) <= T -> T + e + d <= big ->
  near (SFadd 53 1024 x y) (r + s) (e + d + uro * (T + e + d)).
Proof.
  intros [Fx Hx] [Fy Hy] HT HB. pose proof uro_pos as U.
  assert (E : Rabs (fval x + fval y - (r + s)) <= e + d).
  { replace (fval x + fval y - (r + s)) with ((fval x - r) + (fval y - s)) by ring.
    apply Rle_trans with (1 := Rabs_triang _ _). lra. }
  assert (M : Rabs (fval x + fval y) <= T + e + d) by (apply tri in E; lra).
  unfold big in HB; destruct (add_ok x y Fx Fy) as [F H]; [lra|]. split; [exact F|].
  replace (fval (SFadd 53 1024 x y) - (r + s)) with ((fval (SFadd 53 1024 x y) - (fval x + fval y)) + (fval x + fval y - (r + s))) by ring.
  apply Rle_trans with (1 := Rabs_triang _ _).
  assert (uro * Rabs (fval x + fval y) <= uro * (T + e + d)) by (apply Rmult_le_compat_l; lra). lra.
Qed.
Lemma near_sub x y r s e d T : near x r e -> near y s d -> Rabs (r - s) <= T -> T + e + d <= big ->
  near (SFsub 53 1024 x y) (r - s) (e + d + uro * (T + e + d)).
Proof.
  intros [Fx Hx] [Fy Hy] HT HB. pose proof uro_pos as U.
  assert (E : Rabs (fval x - fval y - (r - s)) <= e + d).
  { replace (fval x - fval y - (r - s)) with ((fval x - r) + - (fval y - s)) by ring.
    apply Rle_trans with (1 := Rabs_triang _ _). rewrite Rabs_Ropp. lra. }
  assert (M : Rabs (fval x - fval y) <= T + e + d) by (apply tri in E; lra).
  unfold big in HB; destruct (sub_ok x y Fx Fy) as [F H]; [lra|]. split; [exact F|].
  replace (fval (SFsub 53 1024 x y) - (r - s)) with ((fval (SFsub 53 1024 x y) - (fval x - fval y)) + (fval x - fval y - (r - s))) by ring.
  apply Rle_trans with (1 := Rabs_triang _ _).
  assert (uro * Rabs (fval x - fval y) <= uro * (T + e + d)) by (apply Rmult_le_compat_l; lra). lra.
Qed.
Lemma near_mul x y r s e d R S : near x r e -> near y s d -> Rabs r <= R -> Rabs s <= S ->
  R * S + (R * d + S * e + e * d) <= big ->
  near (SFmul 53 1024 x y) (r * s) ((R * d + S * e + e * d) + uro * (R * S + (R * d + S * e + e * d)) + eta).
Proof.
  intros Nx Ny HR HS HB. pose proof uro_pos as U. pose proof (near_err _ _ _ Nx) as Pe. pose proof (near_err _ _ _ Ny) as Pd.
  destruct Nx as [Fx Hx], Ny as [Fy Hy].
  assert (E : Rabs (fval x * fval y - r * s) <= R * d + S * e + e * d).
  { replace (fval x * fval y - r * s) with (r * (fval y - s) + (s * (fval x - r) + (fval x - r) * (fval y - s))) by ring.
    apply Rle_trans with (1 := Rabs_triang _ _). rewrite Rplus_assoc.
    apply Rplus_le_compat; [rewrite Rabs_mult; apply Rmult_le_compat; auto; apply Rabs_pos|].
    apply Rle_trans with (1 := Rabs_triang _ _).
    apply Rplus_le_compat; rewrite Rabs_mult; apply Rmult_le_compat; auto; apply Rabs_pos. }
  assert (RS : Rabs (r * s) <= R * S) by (rewrite Rabs_mult; apply Rmult_le_compat; auto; apply Rabs_pos).
  assert (M : Rabs (fval x * fval y) <= R * S + (R * d + S * e + e * d)) by (apply tri in E; lra).
  unfold big in HB; destruct (mul_ok x y Fx Fy) as [F H]; [lra|]. split; [exact F|].
  replace (fval (SFmul 53 1024 x y) - r * s) with ((fval (SFmul 53 1024 x y) - fval x * fval y) + (fval x * fval y - r * s)) by ring.
  apply Rle_trans with (1 := Rabs_triang _ _).
  assert (uro * Rabs (fval x * fval y) <= uro * (R * S + (R * d + S * e + e * d))) by (apply Rmult_le_compat_l; lra). lra.
Qed.
Lemma near_div x y r s e d k R : near x r e -> near y s d -> 0 < s -> d <= k * s -> k <= / 2 -> Rabs r <= R ->
  let E := (e + R * k) * (1 + 2 * k) / s in
  R / s + E <= big ->
  near (SFdiv 53 1024 x y) (r / s) (E + uro * (R / s + E) + eta).
Proof.
  intros Nx Ny Hs Hd Hk HR E HB. pose proof uro_pos as U. pose proof (near_err _ _ _ Nx) as Pe. pose proof (near_err _ _ _ Ny) as Pd.
  destruct Nx as [Fx Hx], Ny as [Fy Hy].
  assert (Pk : 0 <= k) by (destruct (Rle_or_lt 0 k); [assumption|exfalso; nra]).
  pose proof (Rabs_pos r) as Pr.
  assert (Py : (1 - k) * s <= fval y) by (apply Rabs_le_inv in Hy; lra).
  assert (Py' : 0 < fval y) by nra.
  assert (E0 : Rabs (fval x / fval y - r / s) <= E).
  { replace (fval x / fval y - r / s) with (((fval x - r) * s - r * (fval y - s)) / (fval y * s)) by (field; lra).
    unfold Rdiv. rewrite Rabs_mult. rewrite (Rabs_right (/ _)) by (apply Rle_ge, Rlt_le, Rinv_0_lt_compat; nra).
    assert (N : Rabs ((fval x - r) * s - r * (fval y - s)) <= (e + R * k) * s).
    { unfold Rminus at 1. apply Rle_trans with (1 := Rabs_triang _ _). rewrite Rabs_Ropp, !Rabs_mult, (Rabs_right s) by lra.
      assert (Rabs r * Rabs (fval y - s) <= R * (k * s)) by (apply Rmult_le_compat; auto; try apply Rabs_pos; lra).
      assert (Rabs (fval x - r) * s <= e * s) by (apply Rmult_le_compat_r; lra). lra. }
    apply Rle_trans with ((e + R * k) * s * / (fval y * s)).
    { apply Rmult_le_compat_r; [apply Rlt_le, Rinv_0_lt_compat; nra|exact N]. }
    replace ((e + R * k) * s * / (fval y * s)) with ((e + R * k) * / fval y) by (field; lra).
    unfold E, Rdiv. rewrite Rmult_assoc. apply Rmult_le_compat_l; [nra|].
    apply Rmult_le_reg_r with (fval y); [exact Py'|]. rewrite Rinv_l by lra.
    apply Rmult_le_reg_r with s; [exact Hs|].
    replace ((1 + 2 * k) * / s * fval y * s) with ((1 + 2 * k) * fval y) by (field; lra).
    apply Rle_trans with ((1 + 2 * k) * ((1 - k) * s)); [|apply Rmult_le_compat_l; lra].
    assert (0 <= k * (1 - 2 * k) * s) by (apply Rmult_le_pos; [apply Rmult_le_pos; lra|lra]). lra. }
  assert (RS : Rabs (r / s) <= R / s).
  { unfold Rdiv. rewrite Rabs_mult, (Rabs_right (/ s)) by (apply Rle_ge, Rlt_le, Rinv_0_lt_compat, Hs).
    apply Rmult_le_compat_r; [apply Rlt_le, Rinv_0_lt_compat, Hs|exact HR]. }
  assert (M : Rabs (fval x / fval y) <= R / s + E) by (apply tri in E0; lra).
  unfold big in HB; destruct (div_ok x y Fx Fy) as [F H]; [lra|lra|]. split; [exact F|].
  replace (fval (SFdiv 53 1024 x y) - r / s) with ((fval (SFdiv 53 1024 x y) - fval x / fval y) + (fval x / fval y - r / s)) by ring.
  apply Rle_trans with (1 := Rabs_triang _ _).
  assert (uro * Rabs (fval x / fval y) <= uro * (R / s + E)) by (apply Rmult_le_compat_l; lra). lra.
Qed.

(** ** constants *)
Definition W : R := 2 ^ 200.
Lemma W_1 : 1 <= W.
Proof. unfold W. apply pow_R1_Rle. lra. Qed.
Lemma W_big : 2 ^ 20 * W ^ 5 <= big.
Proof. unfold W, big. rewrite <- pow_mult, <- pow_add. apply Rle_pow; [lra|]. lia. Qed.
Lemma eta_W : eta <= uro * / W ^ 5.
Proof.
  unfold eta, uro, W. rewrite <- pow_mult, <- Rinv_mult, <- pow_add. apply Rinv_le_contravar; [apply pow_lt; lra|].
  apply Rle_pow; [lra|]. lia.
Qed.
Lemma uro_num : uro = / 9007199254740992.
Proof. unfold uro. f_equal. rewrite pow_IZR. reflexivity. Qed.
Lemma W_num : 1000000 <= W.
Proof.
  unfold W. apply Rle_trans with (2 ^ 20); [|apply Rle_pow; [lra|lia]].
  rewrite (pow_IZR 2 20). apply IZR_le. vm_compute. discriminate.
Qed.
Lemma W20 : 2 ^ 20 = 1048576.
Proof. rewrite (pow_IZR 2 20). reflexivity. Qed.
Lemma scale_W t : scale64 t -> / W ^ 1 <= t <= W ^ 1.
Proof. rewrite pow_1. intros H. exact H. Qed.
Global Opaque W big uro eta.

(** quantities between W^-4 and W^4 neither overflow nor underflow *)
Lemma W_le m n : (m <= n)%nat -> W ^ m <= W ^ n.
Proof. intros. apply Rle_pow; [apply W_1|assumption]. Qed.
Lemma Wp m : 0 < W ^ m.
Proof. apply pow_lt. pose proof W_1. lra. Qed.
Lemma tiny t : / W ^ 4 <= t -> eta <= uro * t / 1000000.
Proof.
  intros H. apply Rle_trans with (1 := eta_W). unfold Rdiv. rewrite Rmult_assoc.
  apply Rmult_le_compat_l; [apply Rlt_le, uro_pos|].
  change (W ^ 5) with (W * W ^ 4). rewrite Rinv_mult, Rmult_comm.
  apply Rmult_le_compat; [apply Rlt_le, Rinv_0_lt_compat, Wp|apply Rlt_le, Rinv_0_lt_compat; pose proof W_1; lra|exact H|].
  apply Rinv_le_contravar; [lra|apply W_num].
Qed.
Lemma huge t : t <= W ^ 4 -> 1000000 * t <= big.
Proof.
  intros H. apply Rle_trans with (2 := W_big). rewrite W20. change (W ^ 5) with (W * W ^ 4).
  pose proof W_1. pose proof (Wp 4). nra.
Qed.
(** magnitude at most m powers of W away from 1 *)
Definition mag (m : nat) (t : R) : Prop := / W ^ m <= t <= W ^ m.
Lemma scale_mag t : scale64 t -> mag 1 t.
Proof. exact (scale_W t). Qed.
Lemma mag_pos m t : mag m t -> 0 < t.
Proof. intros [H _]. apply Rlt_le_trans with (2 := H). apply Rinv_0_lt_compat, Wp. Qed.
Lemma mag_mul m n s t : mag m s -> mag n t -> mag (m + n) (s * t).
Proof.
  intros Hs Ht. pose proof (mag_pos _ _ Hs). pose proof (mag_pos _ _ Ht). destruct Hs, Ht. unfold mag. rewrite pow_add, Rinv_mult.
  split; apply Rmult_le_compat; try lra; apply Rlt_le, Rinv_0_lt_compat, Wp.
Qed.
Lemma mag_inv m t : mag m t -> mag m (/ t).
Proof.
  intros H. pose proof (mag_pos _ _ H). destruct H as [H1 H2]. split.
  - apply Rinv_le_contravar; assumption.
  - rewrite <- (Rinv_inv (W ^ m)). apply Rinv_le_contravar; [apply Rinv_0_lt_compat, Wp|assumption].
Qed.
Lemma mag_le m n t : (m <= n)%nat -> mag m t -> mag n t.
Proof.
  intros L [H1 H2]. pose proof (W_le m n L). split; [|lra]. apply Rle_trans with (2 := H1).
  apply Rinv_le_contravar; [apply Wp|assumption].
Qed.
Lemma mag_tiny m t : (m <= 4)%nat -> mag m t -> eta <= uro * t / 1000000.
Proof. intros L H. apply tiny. now apply (mag_le m 4). Qed.
Lemma mag_huge m t : (m <= 4)%nat -> mag m t -> 1000000 * t <= big.
Proof. intros L H. apply huge. now apply (mag_le m 4). Qed.

Lemma mag_huge3 m t : (m <= 3)%nat -> mag m t -> 1000000000000 * t <= big.
Proof.
  intros L H. apply Rle_trans with (1000000 * (1000000 * t)); [lra|]. apply huge.
  destruct (mag_le m 3 t L H) as [_ U]. change (W ^ 4) with (W * W ^ 3). pose proof W_num. pose proof (mag_pos m t H).
  apply Rmult_le_compat; lra.
Qed.

(** division with numerator and denominator measured in the same unit *)
Lemma near_quot x y r s k a b q : near x r (a * (q * s)) -> near y s (k * s) -> 0 < s -> k <= / 2 -> 0 <= q ->
  Rabs r <= b * (q * s) -> let E := (a + b * k) * (1 + 2 * k) in
  (b + E) * q <= big -> near (SFdiv 53 1024 x y) (r / s) (E * q + uro * ((b + E) * q) + eta).
Proof.
  intros Nx Ny Hs Hk Hq Hr E HB.
  pose proof (near_div x y r s _ _ k (b * (q * s)) Nx Ny Hs (Rle_refl _) Hk Hr) as D. cbv zeta in D.
  replace ((a * (q * s) + b * (q * s) * k) * (1 + 2 * k) / s) with (E * q) in D by (unfold E; field; lra).
  replace (b * (q * s) / s + E * q) with ((b + E) * q) in D by (field; lra). exact (D HB).
Qed.

