(** Stability limits of the time steps for hyper-diffusion. *)
From Coq Require Import List Arith ZArith Lia Bool Reals Lra Psatz.
From Verif Require Import Num NdArray NdFacts Spec GradFacts SumFacts LapFacts GradProps Cplx DftFacts SpecFourier PoissonFacts PoissonProps
  SpecHW SpecPlasma HWFacts StepFacts RhsFacts HWProps SmoothStencil WaveFacts SpecWave WaveHW WaveStab.
Import ListNotations.
Local Open Scope R_scope.

(** ** the growth factor on the negative axis *)
Lemma growth4R_le1 x : 0 <= x <= 2.78 -> -1 <= growth4R (- x) <= 1.
Proof.
  intros H. unfold growth4R. split.
  - replace (1 + - x + (- x) ^ 2 / 2 + (- x) ^ 3 / 6 + (- x) ^ 4 / 24) with
      ((x ^ 2 - 2 * x) ^ 2 / 24 + (x - 1) ^ 2 / 3 + x ^ 2 * 0 + (2 / 3 - x / 3 )) by field.
    pose proof (pow2_ge_0 (x ^ 2 - 2 * x)). pose proof (pow2_ge_0 (x - 1)). lra.
  - replace (1 + - x + (- x) ^ 2 / 2 + (- x) ^ 3 / 6 + (- x) ^ 4 / 24) with (1 + x * (x ^ 3 - 4 * x ^ 2 + 12 * x - 24) / 24) by field.
    assert (x ^ 3 - 4 * x ^ 2 + 12 * x - 24 <= 0); [|nra].
    assert (E : x ^ 3 - 4 * x ^ 2 + 12 * x - 24 = (x - 2.78) * (x ^ 2 - 1.22 * x + 8.6084) - 0.068648) by (field_simplify; lra).
    rewrite E. assert (0 <= x ^ 2 - 1.22 * x + 8.6084) by nra. nra.
Qed.
Lemma growth4R_gt1 x : 2.79 <= x -> 1.007 <= growth4R (- x).
Proof.
  intros H. unfold growth4R.
  replace (1 + - x + (- x) ^ 2 / 2 + (- x) ^ 3 / 6 + (- x) ^ 4 / 24) with (1 + x * (x ^ 3 - 4 * x ^ 2 + 12 * x - 24) / 24) by field.
  assert (E : x ^ 3 - 4 * x ^ 2 + 12 * x - 24 = (x - 2.79) * (x ^ 2 - 1.21 * x + 8.6241) + 0.061239) by (field_simplify; lra).
  assert (0 <= (x - 2.79) * (x ^ 2 - 1.21 * x + 8.6241)) by (apply Rmult_le_pos; nra).
  assert (0.061239 <= x ^ 3 - 4 * x ^ 2 + 12 * x - 24) by lra.
  assert (2.79 * 0.061239 <= x * (x ^ 3 - 4 * x ^ 2 + 12 * x - 24)) by (apply Rmult_le_compat; lra). lra.
Qed.

Section D.
Variables (ny nx : nat) (h : R).
Hypothesis Hy : (0 < ny)%nat.
Hypothesis Hx : (0 < nx)%nat.
Hypothesis Hh : h <> 0.
Local Notation Rm := (rmult ny nx).

Lemma rmult_madd m m' f i j : Rm (fun a b => m a b + m' a b) f i j = Rm m f i j + Rm m' f i j.
Proof.
  unfold rmult, mult.
  rewrite (idft2_ext ny nx _ (fun a b => Cadd (Cmul C1 (Cscal (m a b) (dft2 ny nx (cfield f) (Z.of_nat a) (Z.of_nat b))))
     (Cmul C1 (Cscal (m' a b) (dft2 ny nx (cfield f) (Z.of_nat a) (Z.of_nat b)))))) by (intros; cring).
  rewrite idft2_lin. cbn [re im Cadd Cmul C1]. ring.
Qed.

(** a multiplier of modulus at most one does not increase the sum of squares *)
Lemma rmult_contract m f : even_mult ny nx m -> (forall a b, (a < ny)%nat -> (b < nx)%nat -> -1 <= m a b <= 1) ->
  inner ny nx (Rm m f) (Rm m f) <= inner ny nx f f.
Proof.
  intros He Hm.
  rewrite <- rmult_selfadjoint by assumption.
  apply Rle_trans with (inner ny nx f (Rm (fun a b => m a b * m a b) f)).
  - right. apply gsum_ext. intros i j Hi Hj. f_equal. now apply rmult_rmult.
  - rewrite inner_rmult_sq by (try assumption; intros a b Ha Hb; cbv beta; now rewrite He).
    pose proof (plancherel ny nx f Hy Hx) as P.
    assert (I : 0 < INR ny * INR nx) by (apply Rmult_lt_0_compat; now apply INR_pos).
    apply Rmult_le_reg_l with (INR ny * INR nx); [exact I|]. rewrite <- P, <- Rmult_assoc, Rinv_r, Rmult_1_l by lra.
    apply rsum_le. intros a Ha. apply rsum_le. intros b Hb. pose proof (Hm a b Ha Hb). 
    pose proof (Cnorm2_pos (dft2 ny nx (cfield f) (Z.of_nat a) (Z.of_nat b))). assert (m a b * m a b <= 1) by nra. nra.
Qed.

Section P.
Variables (N : nat) (nu : R) (zon : bool) (dt : R).
Local Notation p := (pure_diffusion N nu zon).
Local Notation F := (hw_rhs p ny nx h).
Definition dbin (a b : nat) : R := - damp p ny nx h (Z.of_nat a) (Z.of_nat b).
Lemma dbin_even : even_mult ny nx dbin.
Proof.
  intros a b Ha Hb. unfold dbin, damp. pose proof (lbin_even ny nx Hy Hx h a b Ha Hb) as E. unfold lbin in E.
  replace (lsym ny nx h (Z.of_nat (pidx ny (- Z.of_nat a))) (Z.of_nat (pidx nx (- Z.of_nat b)))) with (lsym ny nx h (Z.of_nat a) (Z.of_nat b)) by lra.
  reflexivity.
Qed.
Lemma hyper_rmult f : agree ny nx (hyper p ny nx h f) (Rm dbin f).
Proof.
  intros i j Hi Hj. unfold hyper. rewrite (lap_iter_rmult ny nx Hy Hx (pN p) h f Hh i j Hi Hj).
  rewrite <- rmult_scale. apply rmult_ext; [|reflexivity]. intros a b _ _. unfold dbin, damp, lbin.
  set (L := lsym ny nx h (Z.of_nat a) (Z.of_nat b)). replace (- L) with ((-1) * L) by ring. rewrite Rpow_mult_distr, pow_add, pow_1.
  assert (E : (-1) ^ pN p * (-1) ^ pN p = 1) by (rewrite <- pow_add; replace (pN p + pN p)%nat with (2 * pN p)%nat by lia; apply pow_1_even).
  replace ((-1) ^ pN p * -1 * pnu p * ((-1) ^ pN p * L ^ pN p)) with (- ((-1) ^ pN p * (-1) ^ pN p) * (pnu p * L ^ pN p)) by ring.
  rewrite E. ring.
Qed.
Lemma F_pure y : sagree ny nx (F y) (hyper p ny nx h (fst y), hyper p ny nx h (snd y)).
Proof. split; intros i j _ _; cbn [fst snd hw_rhs]; unfold rhs_n, rhs_o, pure_diffusion; cbn [pc1 ppb pkap]; ring. Qed.

Variables (n0 o0 : field).
Definition is_mult (m : nat -> nat -> R) (y : state) : Prop :=
  even_mult ny nx m /\ sagree ny nx y (Rm m n0, Rm m o0).
Lemma im_0 : is_mult (fun _ _ => 1) (n0, o0).
Proof. split; [intros ? ? ? ?; reflexivity|]. split; intros i j Hi Hj; cbn [fst snd]; now rewrite rmult_one. Qed.
Lemma im_F m y : is_mult m y -> is_mult (fun a b => dbin a b * m a b) (F y).
Proof.
  intros [E [A B]]. split; [intros a b Ha Hb; now rewrite dbin_even, E|].
  destruct (F_pure y) as [P Q]. cbn [fst snd] in *.
  assert (G : forall f f0, agree ny nx f (Rm m f0) -> agree ny nx (hyper p ny nx h f) (Rm (fun a b => dbin a b * m a b) f0)).
  { intros f f0 Hf i j Hi Hj. rewrite (hyper_ext p ny nx h Hy Hx f (Rm m f0) Hf i j Hi Hj), hyper_rmult by assumption. now apply rmult_rmult. }
  split; intros i j Hi Hj; cbn [fst snd]; [rewrite (P i j Hi Hj)|rewrite (Q i j Hi Hj)]; now apply G.
Qed.
Lemma im_add m m' y y' : is_mult m y -> is_mult m' y' -> is_mult (fun a b => m a b + m' a b) (sadd y y').
Proof.
  intros [E [A B]] [E' [A' B']]. split; [intros a b Ha Hb; now rewrite E, E'|].
  split; intros i j Hi Hj; cbn [fst snd sadd] in *; unfold fadd; rewrite rmult_madd; [now rewrite A, A'|now rewrite B, B'].
Qed.
Lemma im_scal c m y : is_mult m y -> is_mult (fun a b => c * m a b) (sscale c y).
Proof.
  intros [E [A B]]. split; [intros a b Ha Hb; now rewrite E|].
  split; intros i j Hi Hj; cbn [fst snd sscale] in *; unfold fscale; rewrite rmult_scale; [now rewrite A|now rewrite B].
Qed.
Lemma im_ext m m' y : (forall a b, m a b = m' a b) -> is_mult m y -> is_mult m' y.
Proof.
  intros H [E [A B]]. split; [intros a b Ha Hb; rewrite <- !H; now apply E|].
  split; intros i j Hi Hj; cbn [fst snd] in *; [rewrite (A i j Hi Hj)|rewrite (B i j Hi Hj)]; apply rmult_ext; auto.
Qed.
Lemma im_rk4 m y : is_mult m y -> is_mult (fun a b => growth4R (dt * dbin a b) * m a b) (rk4 F dt y).
Proof.
  intros H. unfold rk4, rk4_from. cbv zeta.
  pose proof (im_F _ _ H) as H1. set (k1 := F y) in *.
  pose proof (im_F _ _ (im_add _ _ _ _ H (im_scal (dt / 2) _ _ H1))) as H2. set (k2 := F (sadd y (sscale (dt / 2) k1))) in *.
  pose proof (im_F _ _ (im_add _ _ _ _ H (im_scal (dt / 2) _ _ H2))) as H3. set (k3 := F (sadd y (sscale (dt / 2) k2))) in *.
  pose proof (im_F _ _ (im_add _ _ _ _ H (im_scal dt _ _ H3))) as H4. set (k4 := F (sadd y (sscale dt k3))) in *.
  eapply im_ext; [|exact (im_add _ _ _ _ H (im_scal (dt / 6) _ _ (im_add _ _ _ _ (im_add _ _ _ _ (im_add _ _ _ _ H1 (im_scal 2 _ _ H2)) (im_scal 2 _ _ H3)) H4)))].
  intros a b. cbv beta. unfold growth4R. field.
Qed.
Lemma im_euler m y : is_mult m y -> is_mult (fun a b => (1 + dt * dbin a b) * m a b) (euler F dt y).
Proof.
  intros H. unfold euler. eapply im_ext; [|exact (im_add _ _ _ _ H (im_scal dt _ _ (im_F _ _ H)))]. intros a b. cbv beta. ring.
Qed.
End P.

Lemma lsym_range k l : 0 <= lsym ny nx h k l <= 8 / h ^ 2.
Proof.
  unfold lsym. assert (Ph : 0 < / h ^ 2) by (apply Rinv_0_lt_compat; nra). unfold Rdiv.
  assert (S : forall t, 0 <= sin t ^ 2 <= 1) by (intros t; pose proof (SIN_bound t); nra).
  pose proof (S (PI * IZR k * / INR ny)). pose proof (S (PI * IZR l * / INR nx)). split; [apply Rmult_le_pos; lra|].
  apply Rmult_le_compat_r; lra.
Qed.
Lemma damp_range N nu zon dt k l B : 0 <= dt * nu -> dt * nu * (8 / h ^ 2) ^ N <= B ->
  0 <= dt * damp (pure_diffusion N nu zon) ny nx h k l <= B.
Proof.
  intros Ht HB. unfold damp. cbn [pN pnu pure_diffusion]. destruct (lsym_range k l) as [A C]. rewrite <- Rmult_assoc.
  split; [apply Rmult_le_pos; [exact Ht|now apply pow_le]|].
  apply Rle_trans with (2 := HB). apply Rmult_le_compat_l; [exact Ht|]. apply pow_incr. lra.
Qed.

(** one step *)
Lemma rk4_contract N nu zon dt n o : 0 <= dt * nu -> dt * nu * (8 / h ^ 2) ^ N <= 2.78 ->
  let y := rk4 (hw_rhs (pure_diffusion N nu zon) ny nx h) dt (n, o) in
  inner ny nx (fst y) (fst y) <= inner ny nx n n /\ inner ny nx (snd y) (snd y) <= inner ny nx o o.
Proof.
  intros Ht HB y. destruct (im_rk4 N nu zon dt n o _ _ (im_0 n o)) as [E [A B]]. cbn [fst snd] in A, B. fold y in A, B.
  set (m := fun a b => growth4R (dt * dbin N nu zon a b) * 1) in *.
  assert (M : forall a b, (a < ny)%nat -> (b < nx)%nat -> -1 <= m a b <= 1).
  { intros a b _ _. unfold m, dbin. rewrite Rmult_1_r, <- Ropp_mult_distr_r. apply growth4R_le1. now apply damp_range. }
  split; [rewrite (inner_ext ny nx (fst y) (Rm m n) (fst y) (Rm m n) A A)|rewrite (inner_ext ny nx (snd y) (Rm m o) (snd y) (Rm m o) B B)];
    now apply rmult_contract.
Qed.
Lemma euler_contract N nu zon dt n o : 0 <= dt * nu -> dt * nu * (8 / h ^ 2) ^ N <= 2 ->
  let y := euler (hw_rhs (pure_diffusion N nu zon) ny nx h) dt (n, o) in
  inner ny nx (fst y) (fst y) <= inner ny nx n n /\ inner ny nx (snd y) (snd y) <= inner ny nx o o.
Proof.
  intros Ht HB y. destruct (im_euler N nu zon dt n o _ _ (im_0 n o)) as [E [A B]]. cbn [fst snd] in A, B. fold y in A, B.
  set (m := fun a b => (1 + dt * dbin N nu zon a b) * 1) in *.
  assert (M : forall a b, (a < ny)%nat -> (b < nx)%nat -> -1 <= m a b <= 1).
  { intros a b _ _. unfold m, dbin. pose proof (damp_range N nu zon dt (Z.of_nat a) (Z.of_nat b) 2 Ht HB). lra. }
  split; [rewrite (inner_ext ny nx (fst y) (Rm m n) (fst y) (Rm m n) A A)|rewrite (inner_ext ny nx (snd y) (Rm m o) (snd y) (Rm m o) B B)];
    now apply rmult_contract.
Qed.
Lemma iter_contract (step : state -> state) :
  (forall n o, let y := step (n, o) in inner ny nx (fst y) (fst y) <= inner ny nx n n /\ inner ny nx (snd y) (snd y) <= inner ny nx o o) ->
  forall k n o, let y := iter_step step k (n, o) in inner ny nx (fst y) (fst y) <= inner ny nx n n /\ inner ny nx (snd y) (snd y) <= inner ny nx o o.
Proof.
  intros H k. induction k as [|k IH]; intros n o; [cbn; lra|]. cbn [iter_step].
  destruct (step (n, o)) as [n1 o1] eqn:E. pose proof (H n o) as S. rewrite E in S. cbn [fst snd] in S.
  pose proof (IH n1 o1) as I. cbv zeta in I. lra.
Qed.

(** ** the alternating field *)
Lemma checker_sh a b i j : Nat.Even ny -> Nat.Even nx -> (i < ny)%nat -> (j < nx)%nat -> (a = 1 \/ a = -1 \/ a = 0)%Z -> (b = 1 \/ b = -1 \/ b = 0)%Z ->
  checker (sh ny i a) (sh nx j b) = (-1) ^ (Z.to_nat (Z.abs a) + Z.to_nat (Z.abs b)) * checker i j.
Proof.
  intros Ey Ex Hi Hj Ha Hb.
  assert (G : forall n i a, Nat.Even n -> (i < n)%nat -> (a = 1 \/ a = -1 \/ a = 0)%Z -> (-1) ^ (sh n i a) = (-1) ^ (Z.to_nat (Z.abs a)) * (-1) ^ i).
  { intros n q c [e En] Hq Hc.
    assert (P2 : forall u, (-1) ^ (2 * u) = 1) by (intros; apply pow_1_even).
    destruct Hc as [->|[->| ->]].
    - change (Z.to_nat (Z.abs 1)) with 1%nat. rewrite pow_1.
      destruct (Nat.eq_dec q (n - 1)) as [E|E].
      + replace (sh n q 1) with 0%nat.
        * replace q with (S (2 * (e - 1))) by lia. cbn [pow]. rewrite P2. ring.
        * unfold sh. apply Nat2Z.inj. rewrite pidx_mod by lia. replace (Z.of_nat q + 1)%Z with (1 * Z.of_nat n)%Z by lia. now rewrite Z_mod_mult.
      + replace (sh n q 1) with (S q); [cbn [pow]; ring|].
        unfold sh. apply Nat2Z.inj. rewrite pidx_mod by lia. rewrite Z.mod_small by lia. lia.
    - change (Z.to_nat (Z.abs (-1))) with 1%nat. rewrite pow_1.
      destruct q as [|q].
      + replace (sh n 0 (-1)) with (S (2 * (e - 1))).
        * cbn [pow]. rewrite P2. ring.
        * unfold sh. apply Nat2Z.inj. rewrite pidx_mod by lia.
          rewrite <- (Z.mod_add _ 1) by lia. rewrite Z.mod_small by lia. lia.
      + replace (sh n (S q) (-1)) with q; [cbn [pow]; ring|].
        unfold sh. apply Nat2Z.inj. rewrite pidx_mod by lia. rewrite Z.mod_small by lia. lia.
    - change (Z.to_nat (Z.abs 0)) with 0%nat. rewrite sh_0 by assumption. cbn [pow]. ring. }
  unfold checker. rewrite !pow_add, !G by assumption. ring.
Qed.
Lemma lap5_checker i j : Nat.Even ny -> Nat.Even nx -> (i < ny)%nat -> (j < nx)%nat -> lap5 ny nx h checker i j = - (8 / h ^ 2) * checker i j.
Proof.
  intros Ey Ex Hi Hj. rewrite lap5_R.
  pose proof (checker_sh 1 0 i j Ey Ex Hi Hj) as A. pose proof (checker_sh (-1) 0 i j Ey Ex Hi Hj) as B.
  pose proof (checker_sh 0 1 i j Ey Ex Hi Hj) as C. pose proof (checker_sh 0 (-1) i j Ey Ex Hi Hj) as D.
  rewrite (sh_0 nx j Hj) in A, B. rewrite (sh_0 ny i Hi) in C, D.
  rewrite A, B, C, D by lia.
  change (Z.to_nat (Z.abs 1) + Z.to_nat (Z.abs 0))%nat with 1%nat. change (Z.to_nat (Z.abs (-1)) + Z.to_nat (Z.abs 0))%nat with 1%nat.
  change (Z.to_nat (Z.abs 0) + Z.to_nat (Z.abs 1))%nat with 1%nat. change (Z.to_nat (Z.abs 0) + Z.to_nat (Z.abs (-1)))%nat with 1%nat.
  rewrite pow_1. field. exact Hh.
Qed.
Lemma hyper_checker N nu zon c : Nat.Even ny -> Nat.Even nx ->
  agree ny nx (hyper (pure_diffusion N nu zon) ny nx h (fscale c checker)) (fscale (- (nu * (8 / h ^ 2) ^ N) * c) checker).
Proof.
  intros Ey Ex.
  assert (I : forall m, agree ny nx (lap_iter m ny nx h (fscale c checker)) (fscale ((- (8 / h ^ 2)) ^ m * c) checker)).
  { induction m as [|m IH]; intros i j Hi Hj.
    - cbn [lap_iter pow]. unfold fscale. ring.
    - cbn [lap_iter]. rewrite (lap5_ext ny nx h _ _ i j Hy Hx Hi Hj IH).
      transitivity ((- (8 / h ^ 2)) ^ m * c * lap5 ny nx h checker i j).
      + rewrite !lap5_R. unfold fscale. unfold Rdiv. ring.
      + rewrite lap5_checker by assumption. unfold fscale.
        change ((- (8 / h ^ 2)) ^ S m) with (- (8 / h ^ 2) * (- (8 / h ^ 2)) ^ m). ring. }
  intros i j Hi Hj. unfold hyper. cbn [pN pnu pure_diffusion]. rewrite (I N i j Hi Hj). unfold fscale.
  set (L := 8 / h ^ 2). replace (- L) with ((-1) * L) by ring. rewrite Rpow_mult_distr, pow_add, pow_1.
  assert (E : (-1) ^ N * (-1) ^ N = 1) by (rewrite <- pow_add; replace (N + N)%nat with (2 * N)%nat by lia; apply pow_1_even).
  replace ((-1) ^ N * -1 * nu * ((-1) ^ N * L ^ N * c * checker i j)) with (- ((-1) ^ N * (-1) ^ N) * (nu * L ^ N * c) * checker i j) by ring.
  rewrite E. ring.
Qed.
Definition cst (c d : R) : state := (fscale c checker, fscale d checker).
Section Ck.
Variables (N : nat) (nu : R) (zon : bool) (dt : R).
Hypothesis Ey : Nat.Even ny.
Hypothesis Ex : Nat.Even nx.
Local Notation p := (pure_diffusion N nu zon).
Local Notation F := (hw_rhs p ny nx h).
Local Notation s := (- (nu * (8 / h ^ 2) ^ N)).
Lemma ck_F y c d : sagree ny nx y (cst c d) -> sagree ny nx (F y) (cst (s * c) (s * d)).
Proof.
  intros H. apply (sagree_trans ny nx _ (F (cst c d))); [now apply hw_rhs_ext|].
  apply (sagree_trans ny nx _ _ _ (F_pure N nu zon (cst c d))). split; cbn [fst snd cst]; now apply hyper_checker.
Qed.
Lemma ck_add y z c d c' d' : sagree ny nx y (cst c d) -> sagree ny nx z (cst c' d') -> sagree ny nx (sadd y z) (cst (c + c') (d + d')).
Proof. intros [A B] [A' B']. split; intros i j Hi Hj; cbn [fst snd sadd cst] in *; unfold fadd; [rewrite A, A' by assumption|rewrite B, B' by assumption]; unfold fscale; ring. Qed.
Lemma ck_scal a y c d : sagree ny nx y (cst c d) -> sagree ny nx (sscale a y) (cst (a * c) (a * d)).
Proof. intros [A B]. split; intros i j Hi Hj; cbn [fst snd sscale cst] in *; unfold fscale; [rewrite A by assumption|rewrite B by assumption]; unfold fscale; ring. Qed.
Lemma ck_eq y c d c' d' : c = c' -> d = d' -> sagree ny nx y (cst c d) -> sagree ny nx y (cst c' d').
Proof. now intros -> ->. Qed.
Lemma ck_rk4 y c d : sagree ny nx y (cst c d) -> sagree ny nx (rk4 F dt y) (cst (growth4R (dt * s) * c) (growth4R (dt * s) * d)).
Proof.
  intros H. unfold rk4, rk4_from. cbv zeta.
  pose proof (ck_F _ _ _ H) as H1. set (k1 := F y) in *.
  pose proof (ck_F _ _ _ (ck_add _ _ _ _ _ _ H (ck_scal (dt / 2) _ _ _ H1))) as H2. set (k2 := F (sadd y (sscale (dt / 2) k1))) in *.
  pose proof (ck_F _ _ _ (ck_add _ _ _ _ _ _ H (ck_scal (dt / 2) _ _ _ H2))) as H3. set (k3 := F (sadd y (sscale (dt / 2) k2))) in *.
  pose proof (ck_F _ _ _ (ck_add _ _ _ _ _ _ H (ck_scal dt _ _ _ H3))) as H4. set (k4 := F (sadd y (sscale dt k3))) in *.
  set (t := s) in *.
  eapply ck_eq; [| |exact (ck_add _ _ _ _ _ _ H (ck_scal (dt / 6) _ _ _ (ck_add _ _ _ _ _ _ (ck_add _ _ _ _ _ _ (ck_add _ _ _ _ _ _ H1 (ck_scal 2 _ _ _ H2)) (ck_scal 2 _ _ _ H3)) H4)))];
  unfold growth4R; field.
Qed.
Lemma ck_euler y c d : sagree ny nx y (cst c d) -> sagree ny nx (euler F dt y) (cst ((1 + dt * s) * c) ((1 + dt * s) * d)).
Proof.
  intros H. unfold euler. eapply ck_eq; [| |exact (ck_add _ _ _ _ _ _ H (ck_scal dt _ _ _ (ck_F _ _ _ H)))]; ring.
Qed.
Lemma ck_iter step g m y c d : (forall y c d, sagree ny nx y (cst c d) -> sagree ny nx (step y) (cst (g * c) (g * d))) ->
  sagree ny nx y (cst c d) -> sagree ny nx (iter_step step m y) (cst (g ^ m * c) (g ^ m * d)).
Proof.
  intros Hs. revert y c d. induction m as [|m IH]; intros y c d H.
  - cbn [iter_step pow]. eapply ck_eq; [| |exact H]; ring.
  - cbn [iter_step]. eapply ck_eq; [| |exact (IH _ _ _ (Hs _ _ _ H))]; cbn [pow]; ring.
Qed.
End Ck.
End D.
