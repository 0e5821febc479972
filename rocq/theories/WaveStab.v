(** Growth of eigenmodes, the drift-wave instability, and the stability limits
    of hyper-diffusion. *)
From Coq Require Import List Arith ZArith Lia Bool Reals Lra Psatz.
From Verif Require Import Num NdArray NdFacts Spec GradFacts SumFacts LapFacts GradProps Cplx DftFacts SpecFourier PoissonFacts PoissonProps
  SpecHW SpecPlasma HWFacts StepFacts RhsFacts HWProps SmoothStencil WaveFacts SpecWave WaveHW.
Import ListNotations.
Local Open Scope R_scope.

(** ** eigenmodes *)
Section Eig.
Variables (p : par) (ny nx : nat) (h dt : R) (k l : Z).
Local Notation A := (amp_rhs p ny nx h k l).
Lemma amp_mul c v : A (amul c v) = amul c (A v).
Proof. destruct v as [[? ?] [? ?]], c. unfold amp_rhs, amul. cbn. f_equal; apply C_eq; cbn; ring. Qed.
Lemma amul_amul c d v : amul c (amul d v) = amul (Cmul c d) v.
Proof. unfold amul. cbn. f_equal; ring. Qed.
Lemma amp_rk4_eig s v : A v = amul s v -> amp_rk4 p ny nx h k l dt v = amul (growth4 (Cscal dt s)) v.
Proof.
  intros E. unfold amp_rk4. cbv zeta. rewrite !E, !amp_mul, !E, !amp_mul, !E, !amp_mul, !E.
  destruct v as [[a b] [c d]], s as [x y]. unfold growth4, amul, aadd, ascal. cbn [fst snd Cpow]. f_equal; apply C_eq; cbn; field.
Qed.
Lemma amp_euler_eig s v : A v = amul s v -> amp_euler p ny nx h k l dt v = amul (Cadd C1 (Cscal dt s)) v.
Proof.
  intros E. unfold amp_euler. rewrite !E.
  destruct v as [[a b] [c d]], s as [x y]. unfold amul, aadd, ascal. cbn [fst snd Cpow]. f_equal; apply C_eq; cbn; ring.
Qed.
Lemma aiter_eig (f : amps -> amps) g v m : (forall c w, w = amul c v -> f w = amul g w) -> aiter f m v = amul (Cpow g m) v.
Proof.
  intros H.
  assert (G : forall m c, aiter f m (amul c v) = amul (Cmul (Cpow g m) c) v).
  { clear m. intros m. induction m as [|m IH]; intros c; cbn [aiter Cpow].
    - f_equal. ring.
    - rewrite (H c (amul c v) eq_refl), amul_amul, IH. f_equal. ring. }
  rewrite <- (G m C1) at 1 || idtac.
  transitivity (aiter f m (amul C1 v)).
  - f_equal. destruct v as [a b]. unfold amul. cbn. f_equal; ring.
  - rewrite G. f_equal. ring.
Qed.
Lemma aiter_rk4 s v m : A v = amul s v -> aiter (amp_rk4 p ny nx h k l dt) m v = amul (Cpow (growth4 (Cscal dt s)) m) v.
Proof.
  intros E. apply aiter_eig. intros c w ->. apply amp_rk4_eig. rewrite amp_mul, E, !amul_amul. f_equal. ring.
Qed.
Lemma aiter_euler s v m : A v = amul s v -> aiter (amp_euler p ny nx h k l dt) m v = amul (Cpow (Cadd C1 (Cscal dt s)) m) v.
Proof.
  intros E. apply aiter_eig. intros c w ->. apply amp_euler_eig. rewrite amp_mul, E, !amul_amul. f_equal. ring.
Qed.
End Eig.

(** ** modulus *)
Lemma Cnorm2_mul a b : Cnorm2 (Cmul a b) = Cnorm2 a * Cnorm2 b.
Proof. unfold Cnorm2. cbn. ring. Qed.
Lemma Cnorm2_pow a m : Cnorm2 (Cpow a m) = Cnorm2 a ^ m.
Proof. induction m as [|m IH]; [unfold Cnorm2; cbn; ring|]. cbn [Cpow pow]. now rewrite Cnorm2_mul, IH. Qed.
Lemma Cnorm2_pos a : 0 <= Cnorm2 a.
Proof. unfold Cnorm2. nra. Qed.
Lemma sq_le x y : 0 <= y -> x * x <= y * y -> x <= y.
Proof. intros. nra. Qed.
Lemma sq_bnd t q : 0 <= q -> t * t <= q * q -> - q <= t.
Proof. intros. nra. Qed.

(** a growing mode is amplified when the step is short enough *)
Lemma growth4_gt s dt : 0 < re s -> 0 < dt -> dt * Cnorm2 s < re s -> 1 < Cnorm2 (growth4 (Cscal dt s)).
Proof.
  intros Hs Ht Hlt. set (z := Cscal dt s).
  assert (Z2 : Cnorm2 z = dt * dt * Cnorm2 s) by (unfold z, Cnorm2; cbn; ring).
  assert (Zr : re z = dt * re s) by reflexivity.
  assert (Q : Cnorm2 z < re z) by (rewrite Z2, Zr; nra).
  assert (Q1 : Cnorm2 z <= 1).
  { assert (re z * re z <= Cnorm2 z) by (unfold Cnorm2; nra). assert (0 < re z) by (rewrite Zr; nra). nra. }
  pose proof (Cnorm2_pos z) as Q0.
  assert (P : forall m, (2 <= m)%nat -> - Cnorm2 z <= re (Cpow z m)).
  { intros m Hm. apply sq_bnd; [exact Q0|].
    apply Rle_trans with (Cnorm2 (Cpow z m)); [unfold Cnorm2; nra|]. rewrite Cnorm2_pow.
    replace m with (2 + (m - 2))%nat by lia. rewrite pow_add.
    assert (0 <= Cnorm2 z ^ (m - 2) <= 1).
    { split; [now apply pow_le|]. rewrite <- (pow1 (m - 2)). apply pow_incr; lra. }
    cbn [pow]. rewrite Rmult_1_r. assert (0 <= Cnorm2 z * Cnorm2 z) by nra. nra. }
  pose proof (P 2%nat ltac:(lia)) as P2. pose proof (P 3%nat ltac:(lia)) as P3. pose proof (P 4%nat ltac:(lia)) as P4.
  assert (R : 1 < re (growth4 z)).
  { unfold growth4. set (a := Cpow z 2) in *. set (b := Cpow z 3) in *. set (c := Cpow z 4) in *. cbn [re Cadd Cscal C1]. lra. }
  unfold Cnorm2. nra.
Qed.

(** ** the unstable eigenmode *)
Section Unst.
Variables (p : par) (ny nx : nat) (h : R) (k l : Z).
Local Notation A := (amp_rhs p ny nx h k l).
Local Notation K := (ksq ny nx h k l).
Local Notation drift_b := (drift_b p ny nx h k l).
Local Notation drift_e := (drift_e p ny nx h k l).
Local Notation drift_u := (drift_u p ny nx h k l).
Local Notation drift_rate := (drift_rate p ny nx h k l).

Lemma ksq_pos : (0 < ny)%nat -> (0 < nx)%nat -> h <> 0 -> fits ny nx k l -> 0 < K.
Proof.
  intros Hy Hx Hh (_ & _ & F). unfold ksq. pose proof (INR_pos ny Hy). pose proof (INR_pos nx Hx). pose proof PI_RGT_0.
  assert (Z : forall (z : Z) L, L <> 0 -> z <> 0%Z -> 0 < (2 * PI * IZR z / L) ^ 2).
  { intros z L HL Hz. apply Rlt_le_trans with (Rsqr (2 * PI * IZR z / L)); [|unfold Rsqr; right; ring].
    apply Rlt_0_sqr. unfold Rdiv. apply Rmult_integral_contrapositive_currified; [apply Rmult_integral_contrapositive_currified; [lra|apply not_0_IZR; exact Hz]|now apply Rinv_neq_0_compat]. }
  assert (N1 : INR ny * h <> 0) by (apply Rmult_integral_contrapositive_currified; lra).
  assert (N2 : INR nx * h <> 0) by (apply Rmult_integral_contrapositive_currified; lra).
  destruct (Z.eq_dec k 0) as [E|E].
  - assert (E2 : l <> 0%Z) by tauto. pose proof (Z _ _ N2 E2). pose proof (pow2_ge_0 (2 * PI * IZR k / (INR ny * h))). lra.
  - pose proof (Z _ _ N1 E). pose proof (pow2_ge_0 (2 * PI * IZR l / (INR nx * h))). lra.
Qed.

Lemma drift_mode : 0 < K -> 0 < c1_of p k -> pkap p * gsym ny h k <> 0 ->
  0 < drift_rate /\
  exists s v, A v = amul s v /\ snd v = C1 /\ re s = drift_rate - damp p ny nx h k l.
Proof.
  intros HK Hc Hg.
  assert (Hb : 0 < drift_b) by (unfold SpecWave.drift_b; pose proof (Rinv_0_lt_compat _ HK); nra).
  assert (He : drift_e <> 0).
  { unfold SpecWave.drift_e, Rdiv. apply Rmult_integral_contrapositive_currified; [|apply Rinv_neq_0_compat; lra].
    apply Rmult_integral_contrapositive_currified; [lra|exact Hg]. }
  set (b := drift_b) in *. set (e := drift_e) in *.
  assert (S1 : 0 <= b ^ 4 + 16 * e ^ 2) by nra.
  set (r := sqrt (b ^ 4 + 16 * e ^ 2)).
  assert (Hr : r * r = b ^ 4 + 16 * e ^ 2) by (now apply sqrt_sqrt).
  assert (Hr0 : 0 <= r) by apply sqrt_pos.
  assert (E2 : 0 < e * e) by (now apply Rlt_0_sqr).
  assert (Hrb : b ^ 2 < r) by (assert (0 <= b ^ 2) by nra; nra).
  assert (Hu : drift_u * drift_u = (b ^ 2 + r) / 2).
  { unfold SpecWave.drift_u. fold b e r. apply sqrt_sqrt. nra. }
  assert (Hu0 : 0 <= drift_u) by apply sqrt_pos.
  set (u := drift_u) in *.
  assert (Hub : b < u) by nra.
  split; [unfold SpecWave.drift_rate; fold u b; lra|].
  set (v := - 2 * e / u).
  assert (Huv : u * v = - 2 * e) by (unfold v; field; lra).
  assert (Hv : v * v = (r - b ^ 2) / 2).
  { apply Rmult_eq_reg_l with (u * u); [|nra]. replace (u * u * (v * v)) with ((u * v) * (u * v)) by ring. rewrite Huv, Hu. nra. }
  set (mr := (u - b) / 2). set (mi := v / 2). set (c := c1_of p k) in *. set (d := damp p ny nx h k l).
  exists (mkC (mr - d) mi), (mkC (- (mr + c / K) / c) (- mi / c), C1).
  split; [|split; [reflexivity|unfold SpecWave.drift_rate; fold u b; reflexivity]].
  (* mu^2 + b mu + i e = 0 *)
  assert (Q1 : mr * mr - mi * mi + b * mr = 0) by (unfold mr, mi; nra).
  assert (Q2 : 2 * mr * mi + b * mi + e = 0) by (unfold mr, mi; nra).
  assert (Eb : b = c * (1 + / K)) by reflexivity.
  assert (Ee : e = c * (pkap p * gsym ny h k) / K) by reflexivity.
  rewrite Eb in Q1, Q2. rewrite Ee in Q2. set (g := pkap p * gsym ny h k) in *.
  unfold amp_rhs, amul. cbn [fst snd]. fold c d g. f_equal; apply C_eq; cbn.
  - apply Rmult_eq_reg_l with c; [|lra]. field_simplify_eq; [|lra]. 
    apply (Rmult_eq_compat_l K) in Q1. field_simplify in Q1; [|lra]. nra.
  - apply Rmult_eq_reg_l with c; [|lra]. field_simplify_eq; [|lra].
    apply (Rmult_eq_compat_l K) in Q2. field_simplify in Q2; [|lra]. nra.
  - field. lra.
  - field. lra.
Qed.
(** no mode grows faster *)
Lemma drift_max : 0 < K -> 0 < c1_of p k ->
  forall s v, ~ (fst v = C0 /\ snd v = C0) -> A v = amul s v -> re s <= drift_rate - damp p ny nx h k l.
Proof.
  intros HK Hc [x y] [[a b] [o q]] Hne E. unfold amp_rhs, amul in E. cbn [fst snd] in E, Hne.
  set (c := c1_of p k) in *. set (d := damp p ny nx h k l) in *. set (g := pkap p * gsym ny h k) in *.
  injection E as E1 E2 E3 E4. cbn [re].
  set (w := / K) in *. assert (Hw : 0 < w) by now apply Rinv_0_lt_compat.
  cbn in E1, E2, E3, E4.
  set (X := x + d).
  (* c n = - (mu + c w) o *)
  assert (N1 : c * a = - ((X + c * w) * o - y * q)) by (unfold X; lra).
  assert (N2 : c * b = - ((X + c * w) * q + y * o)) by (unfold X; lra).
  assert (M1 : (X + c) * a - y * b = - c * w * o - g * w * q) by (unfold X; lra).
  assert (M2 : (X + c) * b + y * a = - c * w * q + g * w * o) by (unfold X; lra).
  set (B := c * (1 + w)). set (e := c * g * w).
  set (P1 := X * X - y * y + B * X). set (P2 := 2 * X * y + B * y + e).
  assert (Z1 : P1 * o - P2 * q = 0).
  { apply (Rmult_eq_compat_l c) in M1.
    replace (c * ((X + c) * a - y * b)) with ((X + c) * (c * a) - y * (c * b)) in M1 by ring. rewrite N1, N2 in M1.
    unfold P1, P2, B, e. lra. }
  assert (Z2 : P1 * q + P2 * o = 0).
  { apply (Rmult_eq_compat_l c) in M2.
    replace (c * ((X + c) * b + y * a)) with ((X + c) * (c * b) + y * (c * a)) in M2 by ring. rewrite N1, N2 in M2.
    unfold P1, P2, B, e. lra. }
  assert (Ho : o * o + q * q <> 0).
  { intros Z. apply Hne. assert (o = 0) by nra. assert (q = 0) by nra. subst o q.
    split; [|reflexivity]. rewrite !Rmult_0_r in N1, N2.
    assert (a = 0) by nra. assert (b = 0) by nra. subst. reflexivity. }
  assert (Y1 : P1 = 0).
  { apply Rmult_eq_reg_r with (o * o + q * q); [|exact Ho]. rewrite Rmult_0_l.
    replace (P1 * (o * o + q * q)) with ((P1 * o - P2 * q) * o + (P1 * q + P2 * o) * q) by ring. rewrite Z1, Z2. ring. }
  assert (Y2 : P2 = 0).
  { apply Rmult_eq_reg_r with (o * o + q * q); [|exact Ho]. rewrite Rmult_0_l.
    replace (P2 * (o * o + q * q)) with ((P1 * q + P2 * o) * o - (P1 * o - P2 * q) * q) by ring. rewrite Z1, Z2. ring. }
  unfold P1 in Y1. unfold P2 in Y2.
  assert (Eb : drift_b = B) by reflexivity. assert (Ee : drift_e = e) by (unfold SpecWave.drift_e, e, Rdiv; reflexivity).
  assert (Hb : 0 < B) by (unfold B; nra).
  unfold SpecWave.drift_rate, SpecWave.drift_u. rewrite Eb, Ee. set (r := sqrt (B ^ 4 + 16 * e ^ 2)).
  assert (S1 : 0 <= B ^ 4 + 16 * e ^ 2) by nra.
  assert (Hr : r * r = B ^ 4 + 16 * e ^ 2) by (now apply sqrt_sqrt).
  assert (Hr0 : 0 <= r) by apply sqrt_pos.
  set (T := 2 * X + B).
  assert (T2 : T * T - (2 * y) * (2 * y) = B ^ 2) by (unfold T; nra).
  assert (Ty : T * (2 * y) = - 2 * e) by (unfold T; nra).
  set (Y := 2 * y) in *.
  assert (T4 : (T * T + Y * Y) * (T * T + Y * Y) = r * r).
  { rewrite Hr. replace ((T * T + Y * Y) * (T * T + Y * Y)) with ((T * T - Y * Y) * (T * T - Y * Y) + 4 * (T * Y) * (T * Y)) by ring.
    rewrite T2, Ty. ring. }
  assert (T5 : T * T + Y * Y = r) by (assert (0 <= T * T + Y * Y) by nra; nra).
  assert (T6 : T <= sqrt ((B ^ 2 + r) / 2)).
  { destruct (Rle_or_lt T 0) as [L|L]; [apply Rle_trans with (1 := L), sqrt_pos|].
    rewrite <- (sqrt_square T) by lra. apply sqrt_le_1_alt. lra. }
  unfold T in T6. unfold X in T6. lra.
Qed.
End Unst.

(** ** mean square of a wave *)
Section Mean.
Variables (ny nx : nat).
Hypothesis Hy : (0 < ny)%nat.
Hypothesis Hx : (0 < nx)%nat.
Lemma pwave_pw k l z i j : pwave ny nx k l z i j = re (Cmul z (pw ny nx k l (Z.of_nat i) (Z.of_nat j))).
Proof.
  unfold pw, wn. rewrite <- cis_add. unfold pwave, cis. cbn [re Cmul].
  replace (phase ny nx k l i j) with (2 * PI * IZR (k * Z.of_nat i) / INR ny + 2 * PI * IZR (l * Z.of_nat j) / INR nx); [reflexivity|].
  unfold phase. rewrite !mult_IZR, <- !INR_IZR_INZ. field. split; apply not_0_INR; lia.
Qed.
Lemma gsum_pwave k l z : ~ ((k mod Z.of_nat ny = 0)%Z /\ (l mod Z.of_nat nx = 0)%Z) -> gsum ny nx (pwave ny nx k l z) = 0.
Proof.
  intros H. rewrite (gsum_ext ny nx _ (fun i j => re (Cmul z (pw ny nx k l (Z.of_nat i) (Z.of_nat j))))) by (intros; apply pwave_pw).
  rewrite <- gcsum_re, gcsum_mul, gcsum_pw by assumption.
  destruct (Z.eqb_spec (k mod Z.of_nat ny) 0), (Z.eqb_spec (l mod Z.of_nat nx) 0); cbn [andb]; try tauto; cbn; ring.
Qed.
Lemma fits_2 k l : fits ny nx k l -> ~ (((2 * k) mod Z.of_nat ny = 0)%Z /\ ((2 * l) mod Z.of_nat nx = 0)%Z).
Proof.
  intros (F1 & F2 & F3) [A B]. apply F3.
  assert (G : forall n k, (2 * Z.abs k < Z.of_nat n)%Z -> ((2 * k) mod Z.of_nat n = 0)%Z -> k = 0%Z).
  { intros n q H M. apply Z.mod_divide in M; [|lia]. destruct M as [c M]. assert (c = 0)%Z by nia. lia. }
  split; [now apply (G ny)|now apply (G nx)].
Qed.
Lemma gmean_pwave_sq k l z : fits ny nx k l -> gmean ny nx (fun i j => pwave ny nx k l z i j ^ 2) = Cnorm2 z / 2.
Proof.
  intros F. unfold gmean.
  rewrite (gsum_ext ny nx _ (fun i j => Cnorm2 z / 2 + pwave ny nx (2 * k) (2 * l) (Cscal (/ 2) (Cmul z z)) i j)).
  - rewrite gsum_add, gsum_const, gsum_pwave by (now apply fits_2). pose proof (INR_pos ny Hy). pose proof (INR_pos nx Hx). field. lra.
  - intros i j _ _. unfold pwave. replace (phase ny nx (2 * k) (2 * l) i j) with (2 * phase ny nx k l i j).
    + rewrite sin_2a, cos_2a. set (c := cos _). set (s := sin _). unfold Cnorm2. cbn [re im Cscal Cmul].
      assert (E : s * s + c * c = 1) by (apply (sin2_cos2 (phase ny nx k l i j))).
      replace ((re z * re z + im z * im z) / 2) with ((re z * re z + im z * im z) / 2 * (s * s + c * c)) by (rewrite E; ring). field.
    + unfold phase. rewrite !mult_IZR. field. split; apply not_0_INR; lia.
Qed.

(** ** the Laplacian as a Fourier multiplier *)
Definition lbin (h : R) (a b : nat) : R := - lsym ny nx h (Z.of_nat a) (Z.of_nat b).
Lemma sin2_pidx n a : (0 < n)%nat -> (a < n)%nat -> sin (PI * IZR (Z.of_nat (pidx n (- Z.of_nat a))) / INR n) ^ 2 = sin (PI * IZR (Z.of_nat a) / INR n) ^ 2.
Proof.
  intros Hn Ha. rewrite pidx_mod by assumption. pose proof (INR_pos n Hn).
  destruct a as [|a].
  - cbn [Z.of_nat Z.opp]. rewrite Z.mod_0_l by lia. reflexivity.
  - replace ((- Z.of_nat (S a)) mod Z.of_nat n)%Z with (Z.of_nat n - Z.of_nat (S a))%Z.
    + rewrite minus_IZR, <- (INR_IZR_INZ n). replace (PI * (INR n - IZR (Z.of_nat (S a))) / INR n) with (PI - PI * IZR (Z.of_nat (S a)) / INR n) by (field; lra).
      rewrite (sin_PI_x (PI * IZR (Z.of_nat (S a)) / INR n)). reflexivity.
    + rewrite <- (Z.mod_add (- Z.of_nat (S a)) 1) by lia. rewrite Z.mod_small by lia. lia.
Qed.
Lemma lbin_even h : even_mult ny nx (lbin h).
Proof. intros a b Ha Hb. unfold lbin, lsym. now rewrite !sin2_pidx by assumption. Qed.
Lemma dft2_lap5 h f a b : h <> 0 -> dft2 ny nx (cfield (lap5 ny nx h f)) (Z.of_nat a) (Z.of_nat b) =
  Cscal (lbin h a b) (dft2 ny nx (cfield f) (Z.of_nat a) (Z.of_nat b)).
Proof.
  intros Hh. set (D := dft2 ny nx (cfield f) (Z.of_nat a) (Z.of_nat b)).
  assert (E : forall sy sx, dft2 ny nx (fun i j => cfield f (sh ny i sy) (sh nx j sx)) (Z.of_nat a) (Z.of_nat b) =
     Cmul (pw ny nx (Z.of_nat a) (Z.of_nat b) sy sx) D) by (intros; now apply dft2_shift).
  rewrite (dft2_ext ny nx _ (fun i j => Cadd (Cmul (RtoC (/ h ^ 2)) (Cadd (Cmul C1 (Cadd (Cmul C1 (cfield f (sh ny i 1) (sh nx j 0))) (Cmul C1 (cfield f (sh ny i (-1)) (sh nx j 0)))))
     (Cmul C1 (Cadd (Cmul C1 (cfield f (sh ny i 0) (sh nx j 1))) (Cmul C1 (cfield f (sh ny i 0) (sh nx j (-1))))))))
     (Cmul (RtoC (- 4 / h ^ 2)) (cfield f (sh ny i 0) (sh nx j 0))))).
  - rewrite dft2_lin.
    rewrite (dft2_lin ny nx C1 C1 (fun i j => Cadd (Cmul C1 (cfield f (sh ny i 1) (sh nx j 0))) (Cmul C1 (cfield f (sh ny i (-1)) (sh nx j 0))))
       (fun i j => Cadd (Cmul C1 (cfield f (sh ny i 0) (sh nx j 1))) (Cmul C1 (cfield f (sh ny i 0) (sh nx j (-1)))))).
    rewrite (dft2_lin ny nx C1 C1 (fun i j => cfield f (sh ny i 1) (sh nx j 0)) (fun i j => cfield f (sh ny i (-1)) (sh nx j 0))).
    rewrite (dft2_lin ny nx C1 C1 (fun i j => cfield f (sh ny i 0) (sh nx j 1)) (fun i j => cfield f (sh ny i 0) (sh nx j (-1)))).
    rewrite !E. unfold pw, wn, cis, lbin, lsym.
    rewrite !Z.mul_0_r, !Z.mul_1_r. replace (Z.of_nat a * -1)%Z with (- Z.of_nat a)%Z by lia. replace (Z.of_nat b * -1)%Z with (- Z.of_nat b)%Z by lia.
    rewrite !opp_IZR.
    replace (2 * PI * - IZR (Z.of_nat a) / INR ny) with (- (2 * (PI * IZR (Z.of_nat a) / INR ny))) by (field; apply not_0_INR; lia).
    replace (2 * PI * - IZR (Z.of_nat b) / INR nx) with (- (2 * (PI * IZR (Z.of_nat b) / INR nx))) by (field; apply not_0_INR; lia).
    replace (2 * PI * IZR (Z.of_nat a) / INR ny) with (2 * (PI * IZR (Z.of_nat a) / INR ny)) by (field; apply not_0_INR; lia).
    replace (2 * PI * IZR (Z.of_nat b) / INR nx) with (2 * (PI * IZR (Z.of_nat b) / INR nx)) by (field; apply not_0_INR; lia).
    replace (2 * PI * 0 / INR ny) with 0 by (unfold Rdiv; ring). replace (2 * PI * 0 / INR nx) with 0 by (unfold Rdiv; ring).
    rewrite !cos_neg, !sin_neg, !cos_half.
    rewrite ?cos_0, ?sin_0. apply C_eq; cbn [re im Cscal Cadd Cmul RtoC C1]; field; exact Hh.
  - intros i j Hi Hj. unfold cfield. rewrite lap5_R, !(sh_0 ny i Hi), !(sh_0 nx j Hj). apply C_eq; cbn; [field; exact Hh|ring].
Qed.
Lemma lap5_rmult h f i j : h <> 0 -> (i < ny)%nat -> (j < nx)%nat -> lap5 ny nx h f i j = rmult ny nx (lbin h) f i j.
Proof.
  intros Hh Hi Hj. unfold rmult, mult.
  rewrite (idft2_ext ny nx _ (fun a b => dft2 ny nx (cfield (lap5 ny nx h f)) (Z.of_nat a) (Z.of_nat b))) by (intros; symmetry; now apply dft2_lap5).
  now rewrite idft2_dft2.
Qed.
Lemma lap_iter_rmult m h f : h <> 0 -> agree ny nx (lap_iter m ny nx h f) (rmult ny nx (fun a b => lbin h a b ^ m) f).
Proof.
  intros Hh. induction m as [|m IH]; intros i j Hi Hj.
  - cbn [lap_iter pow]. now rewrite rmult_one.
  - cbn [lap_iter]. rewrite (lap5_ext ny nx h _ _ i j Hy Hx Hi Hj IH), lap5_rmult by assumption.
    rewrite rmult_rmult; [reflexivity|assumption|assumption|]. intros a b Ha Hb. cbv beta. now rewrite lbin_even.
Qed.
End Mean.
