(** The coupling on single plane waves. *)
From Coq Require Import List Arith ZArith Lia Bool Reals Lra Psatz String.
From Verif Require Import Num NdArray NdFacts Spec Cplx DftFacts SpecFourier ModelHW ModelBackend ModelRunHW DiagProps
  SpecHW SpecPlasma HWFacts HWProps SpecWave WaveHW WaveStab WaveDiff WaveTop WaveNyq WaveDefaults SpecCoupling.
Import ListNotations.
Local Open Scope R_scope.

Lemma aiter_fun (f : C * C -> C * C) (L : C * C -> C) r : (forall v, L (f v) = Cscal r (L v)) ->
  forall m v, L (aiter f m v) = Cscal (r ^ m) (L v).
Proof.
  intros E m. induction m as [|m IH]; intros v; cbn [aiter pow]; [apply C_eq; cbn; ring|].
  rewrite IH, E. apply C_eq; cbn; ring.
Qed.

Section Lin.
Variables (p : par) (ny nx : nat) (dx : R) (k l : Z).
Variables (L : C * C -> C) (s : R).
Hypothesis Ladd : forall v w, L (aadd v w) = Cadd (L v) (L w).
Hypothesis Lscal : forall c v, L (ascal c v) = Cscal c (L v).
Hypothesis Lrhs : forall v, L (amp_rhs p ny nx dx k l v) = Cscal s (L v).
Lemma lin_rk4 dt v : L (amp_rk4 p ny nx dx k l dt v) = Cscal (growth4R (dt * s)) (L v).
Proof.
  unfold amp_rk4. cbv zeta. rewrite !Ladd, !Lscal, !Lrhs. unfold growth4R. apply C_eq; cbn [Cplx.re Cplx.im Cadd Cscal]; field.
Qed.
Lemma lin_euler dt v : L (amp_euler p ny nx dx k l dt v) = Cscal (1 + dt * s) (L v).
Proof. unfold amp_euler. rewrite Ladd, Lscal, Lrhs. apply C_eq; cbn [Cplx.re Cplx.im Cadd Cscal]; ring. Qed.
End Lin.

Section S.
Variables (ny nx : nat) (dx : R) (k l : Z).
Hypothesis (Hy : (0 < ny)%nat) (Hx : (0 < nx)%nat) (Hd : dx <> 0).
Variables (b : backend R) (p : par) (dx0 : R) (test : bool).
Hypothesis Hb : backend_ok ny nx b.
Hypothesis Hk : pkap p * gsym ny dx k = 0.
Let K := ksq ny nx dx k l.
Definition gapf (K : R) (v : C * C) : C := Csub (Cscal (- / K) (snd v)) (fst v).
Definition difff (v : C * C) : C := Csub (fst v) (snd v).
Lemma gap_add v w : gapf K (aadd v w) = Cadd (gapf K v) (gapf K w).
Proof. apply C_eq; cbn; ring. Qed.
Lemma gap_scal c v : gapf K (ascal c v) = Cscal c (gapf K v).
Proof. apply C_eq; cbn; ring. Qed.
Lemma diff_add v w : difff (aadd v w) = Cadd (difff v) (difff w).
Proof. apply C_eq; cbn; ring. Qed.
Lemma diff_scal c v : difff (ascal c v) = Cscal c (difff v).
Proof. apply C_eq; cbn; ring. Qed.
Lemma gap_rhs v : gapf K (amp_rhs p ny nx dx k l v) = Cscal (- coupling_rate p ny nx dx k l) (gapf K v).
Proof.
  unfold amp_rhs, coupling_rate, gapf. cbv zeta. rewrite Hk. fold K. set (D := damp _ _ _ _ _ _). set (c := c1_of _ _). set (q := / K).
  apply C_eq; cbn [Cplx.re Cplx.im Csub Cadd Copp Cscal Cmul fst snd]; ring.
Qed.
Lemma diff_rhs v : difff (amp_rhs p ny nx dx k l v) = Cscal (- damp p ny nx dx k l) (difff v).
Proof.
  unfold amp_rhs, difff. cbv zeta. rewrite Hk. fold K. set (D := damp _ _ _ _ _ _). set (c := c1_of _ _). set (q := / K).
  apply C_eq; cbn [Cplx.re Cplx.im Csub Cadd Copp Cscal Cmul fst snd]; ring.
Qed.
Lemma pwave_sub z w i j : pwave ny nx k l z i j - pwave ny nx k l w i j = pwave ny nx k l (Csub z w) i j.
Proof. unfold pwave. cbn. ring. Qed.
Lemma pwave_scal c z i j : pwave ny nx k l (Cscal c z) i j = c * pwave ny nx k l z i j.
Proof. unfold pwave. cbn. ring. Qed.

Notation W := (pwave ny nx k l).
Notation ph := (fun v : C * C => Cscal (- / ksq ny nx dx k l) (snd v)).
Lemma c131_rk4 zn zo pl a dt m : fits ny nx k l ->
  plasma_ok test ny nx pl (W zn) (W zo) (W (Cscal (- / ksq ny nx dx k l) zo)) a ->
  exists pl' n' o' f', snd (steps (fun pl => rk4_step (hw_of b p dx0 test) pl dt dx) m pl) = Ok pl' /\
    plasma_ok test ny nx pl' n' o' f' (a + INR m * dt) /\
    forall i j, f' i j - n' i j = growth4R (- (dt * coupling_rate p ny nx dx k l)) ^ m * (W (Cscal (- / ksq ny nx dx k l) zo) i j - W zn i j) /\
      n' i j - o' i j = growth4R (- (dt * damp p ny nx dx k l)) ^ m * (W zn i j - W zo i j).
Proof.
  intros F P. destruct (c100_rk4 ny nx dx k l Hy Hx Hd b p dx0 test Hb pl (zn, zo) a dt m F P) as [pl' [E Q]].
  set (v' := aiter _ _ _) in Q. exists pl', (W (fst v')), (W (snd v')), (W (ph v')). split; [exact E|]. split; [exact Q|].
  intros i j. rewrite !pwave_sub, <- !pwave_scal. split.
  - change (W (gapf K v') i j = W (Cscal (growth4R (- (dt * coupling_rate p ny nx dx k l)) ^ m) (gapf K (zn, zo))) i j).
    unfold v'. rewrite (aiter_fun _ (gapf K) (growth4R (- (dt * coupling_rate p ny nx dx k l)))); [reflexivity|].
    intros v. rewrite (lin_rk4 p ny nx dx k l (gapf K) _ gap_add gap_scal gap_rhs). now rewrite Ropp_mult_distr_r.
  - change (W (difff v') i j = W (Cscal (growth4R (- (dt * damp p ny nx dx k l)) ^ m) (difff (zn, zo))) i j).
    unfold v'. rewrite (aiter_fun _ difff (growth4R (- (dt * damp p ny nx dx k l)))); [reflexivity|].
    intros v. rewrite (lin_rk4 p ny nx dx k l difff _ diff_add diff_scal diff_rhs). now rewrite Ropp_mult_distr_r.
Qed.
Lemma c131_euler zn zo pl a dt m : fits ny nx k l ->
  plasma_ok test ny nx pl (W zn) (W zo) (W (Cscal (- / ksq ny nx dx k l) zo)) a ->
  exists pl' n' o' f', snd (steps (fun pl => euler_step (hw_of b p dx0 test) pl dt dx) m pl) = Ok pl' /\
    plasma_ok test ny nx pl' n' o' f' (a + INR m * dt) /\
    forall i j, f' i j - n' i j = (1 - dt * coupling_rate p ny nx dx k l) ^ m * (W (Cscal (- / ksq ny nx dx k l) zo) i j - W zn i j) /\
      n' i j - o' i j = (1 - dt * damp p ny nx dx k l) ^ m * (W zn i j - W zo i j).
Proof.
  intros F P. destruct (c100_euler ny nx dx k l Hy Hx Hd b p dx0 test Hb pl (zn, zo) a dt m F P) as [pl' [E Q]].
  set (v' := aiter _ _ _) in Q. exists pl', (W (fst v')), (W (snd v')), (W (ph v')). split; [exact E|]. split; [exact Q|].
  intros i j. rewrite !pwave_sub, <- !pwave_scal. split.
  - change (W (gapf K v') i j = W (Cscal ((1 - dt * coupling_rate p ny nx dx k l) ^ m) (gapf K (zn, zo))) i j).
    unfold v'. rewrite (aiter_fun _ (gapf K) (1 - dt * coupling_rate p ny nx dx k l)); [reflexivity|].
    intros v. rewrite (lin_euler p ny nx dx k l (gapf K) _ gap_add gap_scal gap_rhs). f_equal. ring.
  - change (W (difff v') i j = W (Cscal ((1 - dt * damp p ny nx dx k l) ^ m) (difff (zn, zo))) i j).
    unfold v'. rewrite (aiter_fun _ difff (1 - dt * damp p ny nx dx k l)); [reflexivity|].
    intros v. rewrite (lin_euler p ny nx dx k l difff _ diff_add diff_scal diff_rhs). f_equal. ring.
Qed.

Lemma pow_abs_le1 r m : Rabs r <= 1 -> Rabs (r ^ m) <= 1.
Proof. intros H. rewrite <- RPow_abs. replace 1 with (1 ^ m) by apply pow1. apply pow_incr. split; [apply Rabs_pos|exact H]. Qed.

(** what the factor does to the difference between potential and density *)
Lemma c131_stable zn zo pl a dt m : fits ny nx k l ->
  plasma_ok test ny nx pl (W zn) (W zo) (W (Cscal (- / ksq ny nx dx k l) zo)) a ->
  0 <= dt * coupling_rate p ny nx dx k l <= 2.78 ->
  exists pl' n' o' f', snd (steps (fun pl => rk4_step (hw_of b p dx0 test) pl dt dx) m pl) = Ok pl' /\
    plasma_ok test ny nx pl' n' o' f' (a + INR m * dt) /\
    forall i j, Rabs (f' i j - n' i j) <= Rabs (W (Cscal (- / ksq ny nx dx k l) zo) i j - W zn i j).
Proof.
  intros F P R. destruct (c131_rk4 zn zo pl a dt m F P) as (pl' & n' & o' & f' & E & Q & H). exists pl', n', o', f'.
  split; [exact E|]. split; [exact Q|]. intros i j. destruct (H i j) as [-> _]. rewrite Rabs_mult.
  assert (G : Rabs (growth4R (- (dt * coupling_rate p ny nx dx k l))) <= 1) by (apply Rabs_le, growth4R_le1; lra).
  pose proof (pow_abs_le1 _ m G). set (z := _ - _). pose proof (Rabs_pos z). nra.
Qed.
Lemma c131_unstable zn zo pl a dt m : fits ny nx k l ->
  plasma_ok test ny nx pl (W zn) (W zo) (W (Cscal (- / ksq ny nx dx k l) zo)) a ->
  2.79 <= dt * coupling_rate p ny nx dx k l ->
  exists pl' n' o' f', snd (steps (fun pl => rk4_step (hw_of b p dx0 test) pl dt dx) m pl) = Ok pl' /\
    plasma_ok test ny nx pl' n' o' f' (a + INR m * dt) /\
    forall i j, 1.007 ^ m * Rabs (W (Cscal (- / ksq ny nx dx k l) zo) i j - W zn i j) <= Rabs (f' i j - n' i j).
Proof.
  intros F P R. destruct (c131_rk4 zn zo pl a dt m F P) as (pl' & n' & o' & f' & E & Q & H). exists pl', n', o', f'.
  split; [exact E|]. split; [exact Q|]. intros i j. destruct (H i j) as [-> _]. rewrite Rabs_mult.
  pose proof (growth4R_gt1 _ R) as G.
  assert (P1 : 1.007 ^ m <= growth4R (- (dt * coupling_rate p ny nx dx k l)) ^ m) by (apply pow_incr; lra).
  assert (0 <= 1.007 ^ m) by (apply pow_le; lra).
  rewrite (Rabs_pos_eq (_ ^ m)) by lra. set (z := _ - _). pose proof (Rabs_pos z). nra.
Qed.
End S.

Lemma pow2_gt_0 x : x <> 0 -> 0 < x ^ 2.
Proof. intros H. pose proof (Rsqr_pos_lt x H) as P. unfold Rsqr in P. lra. Qed.
(** the largest waves of a square box couple fastest *)
Lemma ksq_sq n dx k l : (0 < n)%nat -> dx <> 0 -> ksq n n dx k l = (2 * PI / (INR n * dx)) ^ 2 * IZR (k ^ 2 + l ^ 2).
Proof.
  intros Hn Hd. assert (INR n <> 0) by (apply not_0_INR; lia). unfold ksq. rewrite plus_IZR, !Z.pow_2_r, !mult_IZR. field. tauto.
Qed.
Lemma kl_ge1 (k l : Z) : ~ (k = 0 /\ l = 0)%Z -> (1 <= k ^ 2 + l ^ 2)%Z.
Proof. intros H. rewrite !Z.pow_2_r. nia. Qed.
Lemma c131_scale n dx p k l : (0 < n)%nat -> dx <> 0 -> 0 <= pc1 p -> fits n n k l ->
  let k0 := 2 * PI / (INR n * dx) in
  c1_of p k * (1 + / ksq n n dx k l) <= pc1 p * (1 + / k0 ^ 2) /\
  ((k ^ 2 + l ^ 2)%Z = 1%Z -> pzon p = false -> c1_of p k * (1 + / ksq n n dx k l) = pc1 p * (1 + / k0 ^ 2)).
Proof.
  intros Hn Hd Hc F. cbv zeta. rewrite ksq_sq by assumption. set (q := (2 * PI / (INR n * dx)) ^ 2).
  assert (Hq : 0 < q).
  { unfold q. apply pow2_gt_0. apply Rmult_integral_contrapositive. pose proof PI_RGT_0. split; [lra|]. apply Rinv_neq_0_compat.
    apply Rmult_integral_contrapositive. split; [apply not_0_INR; lia|assumption]. }
  destruct F as (_ & _ & F). pose proof (kl_ge1 k l F) as G. apply IZR_le in G.
  split.
  - assert (I : / (q * IZR (k ^ 2 + l ^ 2)) <= / q) by (apply Rinv_le_contravar; [assumption|nra]).
    assert (0 < / (q * IZR (k ^ 2 + l ^ 2))) by (apply Rinv_0_lt_compat; nra).
    unfold c1_of. destruct (_ && _)%bool; nra.
  - intros -> Z. unfold c1_of. rewrite Z. cbn [andb]. rewrite Rmult_1_r. reflexivity.
Qed.

(** the table *)
Lemma readme_k0 : 2 * PI / (INR 512 * readme_dx) = 0.15.
Proof.
  unfold readme_dx, domain_dx. pose proof PI_RGT_0. assert (INR 512 <> 0) by (apply not_0_INR; lia).
  replace 0.15 with (15 / 100) by lra. field. split; lra.
Qed.
Lemma readme_dx0 : readme_dx <> 0.
Proof. apply dx_pos. lia. Qed.
Lemma readme_ksq k l : ksq 512 512 readme_dx k l = 0.0225 * IZR (k ^ 2 + l ^ 2).
Proof. rewrite ksq_sq by (try lia; apply readme_dx0). rewrite readme_k0. lra. Qed.
Lemma lsym_ksq ny nx dx k l : (0 < ny)%nat -> (0 < nx)%nat -> dx <> 0 -> 0 <= lsym ny nx dx k l <= ksq ny nx dx k l.
Proof.
  intros Hy Hx Hd. split; [now apply lsym_range|].
  assert (INR ny <> 0) by (apply not_0_INR; lia). assert (INR nx <> 0) by (apply not_0_INR; lia).
  replace (ksq ny nx dx k l) with (4 * ((PI * IZR k / INR ny) * (PI * IZR k / INR ny) + (PI * IZR l / INR nx) * (PI * IZR l / INR nx)) / dx ^ 2) by (unfold ksq; field; tauto).
  unfold lsym. pose proof (sin_sq_le (PI * IZR k / INR ny)). pose proof (sin_sq_le (PI * IZR l / INR nx)).
  unfold Rdiv at 1 4. apply Rmult_le_compat_r; [left; apply Rinv_0_lt_compat, pow2_gt_0; assumption|]. lra.
Qed.
Lemma readme_damp c k l : 0 <= damp (readme_par c) 512 512 readme_dx k l <= 8.8.
Proof.
  unfold damp. cbn [readme_par pnu pN]. pose proof (lsym_range 512 512 readme_dx readme_dx0 k l) as [A B].
  assert (C : lsym 512 512 readme_dx k l ^ 3 <= (8 / readme_dx ^ 2) ^ 3) by (now apply pow_incr).
  assert (D : 0 <= lsym 512 512 readme_dx k l ^ 3) by (now apply pow_le).
  pose proof (stiff_512 5e-8 ltac:(lra)) as [_ G]. fold readme_dx in G. lra.
Qed.
Lemma readme_damp1 c k l : (k ^ 2 + l ^ 2 = 1)%Z -> 0 <= damp (readme_par c) 512 512 readme_dx k l <= 0.001.
Proof.
  intros E. split; [apply readme_damp|]. unfold damp. cbn [readme_par pnu pN].
  pose proof (lsym_ksq 512 512 readme_dx k l ltac:(lia) ltac:(lia) readme_dx0) as [A B].
  rewrite readme_ksq, E in B. assert (lsym 512 512 readme_dx k l ^ 3 <= 1 ^ 3) by (apply pow_incr; lra). lra.
Qed.
Lemma c131_table c dt : In (c, dt) readme_rows -> forall k l, fits 512 512 k l ->
  0 <= dt * coupling_rate (readme_par c) 512 512 readme_dx k l <= 2.78.
Proof.
  intros I k l F.
  assert (Hc : 0 < c /\ 0 < dt /\ dt * (c * 45.45 + 0.001) <= 2.78 /\ dt * (c * 23.23 + 8.8) <= 2.78).
  { cbn [In readme_rows] in I. repeat (destruct I as [I|I]; [injection I as <- <-; lra|]). destruct I. }
  destruct Hc as (C0 & D0 & C1' & C2). unfold coupling_rate. rewrite readme_ksq.
  change (c1_of (readme_par c) k) with c.
  destruct F as (_ & _ & F). pose proof (kl_ge1 k l F) as G.
  destruct (Z.eq_dec (k ^ 2 + l ^ 2) 1) as [E|E].
  - pose proof (readme_damp1 c k l E) as B. rewrite E. replace (/ (0.0225 * 1)) with (400 / 9) by lra. set (D := damp _ _ _ _ _ _) in *.
    split; [apply Rmult_le_pos; nra|]. apply Rle_trans with (dt * (c * 45.45 + 0.001)); [|exact C1']. apply Rmult_le_compat_l; [lra|]. nra.
  - pose proof (readme_damp c k l) as B. set (D := damp _ _ _ _ _ _) in *. assert (G2 : (2 <= k ^ 2 + l ^ 2)%Z) by lia. apply IZR_le in G2.
    assert (I1 : / (0.0225 * IZR (k ^ 2 + l ^ 2)) <= / 0.045) by (apply Rinv_le_contravar; lra).
    assert (I2 : 0 < / (0.0225 * IZR (k ^ 2 + l ^ 2))) by (apply Rinv_0_lt_compat; lra).
    replace (/ 0.045) with (200 / 9) in I1 by lra. set (q := / _) in *.
    split; [apply Rmult_le_pos; nra|]. apply Rle_trans with (dt * (c * 23.23 + 8.8)); [|exact C2]. apply Rmult_le_compat_l; [lra|]. nra.
Qed.
Lemma c131_next c dt : In (c, dt) readme_next -> forall k l, (k ^ 2 + l ^ 2 = 1)%Z ->
  2.79 <= dt * coupling_rate (readme_par c) 512 512 readme_dx k l.
Proof.
  intros I k l E. unfold coupling_rate. rewrite readme_ksq, E. change (c1_of (readme_par c) k) with c.
  pose proof (readme_damp1 c k l E) as B. set (D := damp _ _ _ _ _ _) in *. replace (/ (0.0225 * 1)) with (400 / 9) by lra.
  assert (Hc : 0 < c /\ 0 < dt /\ 2.79 <= dt * (c * (1 + 400 / 9))).
  { cbn [In readme_next] in I. repeat (destruct I as [I|I]; [injection I as <- <-; lra|]). destruct I. }
  destruct Hc as (A & A' & A''). nra.
Qed.
(** zonal waves of the largest size in the README's setting, any drift *)
Lemma gsym_0 n dx : gsym n dx 0 = 0.
Proof. unfold gsym. replace (2 * PI * 0 / INR n) with 0 by (unfold Rdiv; ring). rewrite sin_0. unfold Rdiv. ring. Qed.
