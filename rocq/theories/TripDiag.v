(** Reported energy and enstrophy against the ones the equations conserve. *)
From Coq Require Import List Arith ZArith Lia Bool Reals Lra Psatz.
From Verif Require Import Num NdArray NdFacts Spec ModelGradients ModelPoisson ModelBackend ModelHW ModelProperties GradFacts SumFacts LapFacts Cplx DftFacts SpecFourier PoissonFacts PoissonProps SpecHW SpecPlasma SpecConv HWFacts
  DiagFacts DiagProps SpecPde SpecWave WaveStab WaveDiff WaveFacts WaveNyq NormFacts SymbolFacts StepFacts SpecTrip TripFacts.
Import ListNotations.
Local Open Scope R_scope.

Lemma sin2_two_theta n a : (0 < n)%nat -> sin (2 * PI * IZR (Z.of_nat a) / INR n) ^ 2 = sin (2 * theta n a) ^ 2.
Proof.
  intros Hn. unfold theta, sfreq. pose proof (INR_pos n Hn). destruct (2 * a <? n)%nat; [f_equal; f_equal; field; lra|].
  rewrite minus_IZR, <- (INR_IZR_INZ n). replace (2 * (PI * (IZR (Z.of_nat a) - INR n) / INR n)) with (2 * PI * IZR (Z.of_nat a) / INR n - 2 * PI) by (field; lra).
  set (u := 2 * PI * IZR (Z.of_nat a) / INR n). rewrite sin_minus, sin_2PI, cos_2PI. f_equal. ring.
Qed.

Section D.
Variables (ny nx : nat) (h : R).
Hypothesis Hy : (0 < ny)%nat.
Hypothesis Hx : (0 < nx)%nat.
Hypothesis Hh : 0 < h.
Local Notation Rm := (rmult ny nx).
Local Notation idm := (SymbolFacts.idm ny nx h).
Local Notation mu := (SymbolFacts.mu ny nx h).
Local Notation imu := (SymbolFacts.imu ny nx h).
Local Notation C2 := (INR ny * INR nx * (INR ny * INR nx)).
Local Notation pw2 f := (fun a b => Cnorm2 (hat ny nx f a b)).

Lemma C2_pos : 0 < C2.
Proof. pose proof (INR_pos ny Hy). pose proof (INR_pos nx Hx). repeat apply Rmult_lt_0_compat; assumption. Qed.
Lemma kinetic_sum f : gmean ny nx (fun i j => cdx nx h f i j ^ 2 + cdy ny h f i j ^ 2) =
  gsum ny nx (fun a b => csq ny nx h a b * Cnorm2 (hat ny nx f a b)) / C2.
Proof.
  pose proof (INR_pos ny Hy). pose proof (INR_pos nx Hx).
  assert (E : gmean ny nx (fun i j => cdx nx h f i j ^ 2 + cdy ny h f i j ^ 2) =
    gsum ny nx (fun k l => Cnorm2 (hat ny nx (cdx nx h f) k l) + Cnorm2 (hat ny nx (cdy ny h f) k l)) / C2).
  { rewrite gsum_add, !power_sum by assumption. unfold gmean. rewrite gsum_add. unfold inner.
    rewrite (gsum_ext ny nx (fun i j => cdx nx h f i j ^ 2) (fun i j => cdx nx h f i j * cdx nx h f i j)) by (intros; ring).
    rewrite (gsum_ext ny nx (fun i j => cdy ny h f i j ^ 2) (fun i j => cdy ny h f i j * cdy ny h f i j)) by (intros; ring).
    field. split; lra. }
  rewrite E. f_equal. apply gsum_ext. intros a b Ha Hb. rewrite hat_cdx, hat_cdy by (assumption || lra). unfold csq.
  replace ((sin (2 * theta ny a) / h) ^ 2) with ((sin (2 * PI * IZR (Z.of_nat a) / INR ny) / h) ^ 2)
    by (unfold Rdiv; rewrite !Rpow_mult_distr; now rewrite <- sin2_two_theta).
  replace ((sin (2 * theta nx b) / h) ^ 2) with ((sin (2 * PI * IZR (Z.of_nat b) / INR nx) / h) ^ 2)
    by (unfold Rdiv; rewrite !Rpow_mult_distr; now rewrite <- sin2_two_theta).
  unfold Cnorm2. cbn. ring.
Qed.
Lemma hat_invlap f a b : (a < ny)%nat -> (b < nx)%nat -> hat ny nx (invlap ny nx h f) a b = Cscal (imu a b) (hat ny nx f a b).
Proof.
  intros Ha Hb. unfold hat. rewrite (dft2_ext ny nx (cfield (invlap ny nx h f)) (mult ny nx imu (cfield f))).
  - unfold mult. now rewrite dft2_idft2.
  - intros i j Hi Hj. rewrite rmult_cfield by (try assumption; now apply imu_even). unfold cfield. now rewrite (invlap_imu ny nx h Hy Hx Hh f i j Hi Hj).
Qed.
Lemma cross_sum f : gmean ny nx (fun i j => invlap ny nx h f i j * f i j) = gsum ny nx (fun a b => imu a b * Cnorm2 (hat ny nx f a b)) / C2.
Proof.
  pose proof (INR_pos ny Hy). pose proof (INR_pos nx Hx).
  assert (E : inner ny nx f (Rm imu f) = gsum ny nx (fun i j => invlap ny nx h f i j * f i j)).
  { apply gsum_ext. intros i j Hi Hj. rewrite (invlap_imu ny nx h Hy Hx Hh f i j Hi Hj). ring. }
  unfold gmean. rewrite <- E, inner_rmult_sq by (try assumption; now apply imu_even). unfold hat. field. split; lra.
Qed.
Lemma square_sum f : gmean ny nx (fun i j => f i j ^ 2) = gsum ny nx (fun a b => Cnorm2 (hat ny nx f a b)) / C2.
Proof.
  pose proof (INR_pos ny Hy). pose proof (INR_pos nx Hx). rewrite power_sum by assumption. unfold gmean, inner.
  rewrite (gsum_ext ny nx (fun i j => f i j ^ 2) (fun i j => f i j * f i j)) by (intros; ring). field. split; lra.
Qed.
(** twice the missing kinetic energy *)
Lemma kinetic_gap f : 0 <= - gmean ny nx (fun i j => invlap ny nx h f i j * f i j) - gmean ny nx (fun i j => cdx nx h (invlap ny nx h f) i j ^ 2 + cdy ny h (invlap ny nx h f) i j ^ 2)
  <= h ^ 2 / 3 * gmean ny nx (fun i j => f i j ^ 2).
Proof.
  rewrite kinetic_sum, cross_sum, square_sum. pose proof C2_pos as P. assert (0 < / C2) by now apply Rinv_0_lt_compat.
  set (T := fun a b => (- imu a b - csq ny nx h a b * imu a b ^ 2) * Cnorm2 (hat ny nx f a b)).
  assert (E : - (gsum ny nx (fun a b => imu a b * Cnorm2 (hat ny nx f a b)) / C2) - gsum ny nx (fun a b => csq ny nx h a b * Cnorm2 (hat ny nx (invlap ny nx h f) a b)) / C2 = gsum ny nx T / C2).
  { transitivity ((gsum ny nx (fun a b => - (imu a b * Cnorm2 (hat ny nx f a b))) + gsum ny nx (fun a b => - (csq ny nx h a b * Cnorm2 (hat ny nx (invlap ny nx h f) a b)))) / C2).
    - rewrite !gsum_opp. unfold Rdiv. ring.
    - rewrite <- gsum_add. f_equal. apply gsum_ext. intros a b Ha Hb. rewrite hat_invlap by assumption. unfold T, Cnorm2. cbn. ring. }
  rewrite E.
  assert (B : forall a b, (a < ny)%nat -> (b < nx)%nat -> 0 <= - imu a b - csq ny nx h a b * imu a b ^ 2 <= h ^ 2 / 3).
  { intros a b Ha Hb. unfold SymbolFacts.imu. destruct (is00 a b) eqn:E0; [split; nra|]. apply is00_false in E0.
    pose proof (mu_gap ny nx h Hy Hx Hh a b Ha Hb E0) as M. pose proof (gap_pos ny nx h Hy Hx Hh).
    pose proof (csq_mu ny nx h Hy Hx Hh a b) as L. pose proof (mu_csq ny nx h Hy Hx Hh a b Ha Hb) as U.
    set (m := mu a b) in *. set (q := csq ny nx h a b) in *. assert (Hm : 0 < m) by lra.
    replace (- - / m - q * (- / m) ^ 2) with ((m - q) / m ^ 2) by (field; lra). assert (0 < m ^ 2) by nra.
    split.
    - apply Rmult_le_pos; [lra|left; now apply Rinv_0_lt_compat].
    - apply Rmult_le_reg_r with (m ^ 2); [assumption|]. unfold Rdiv at 1. rewrite Rmult_assoc, Rinv_l by lra. lra. }
  replace (h ^ 2 / 3 * (gsum ny nx (pw2 f) / C2)) with (h ^ 2 / 3 * gsum ny nx (pw2 f) * / C2) by (unfold Rdiv; ring).
  change (gsum ny nx T / C2) with (gsum ny nx T * / C2). split.
  - apply Rmult_le_pos; [|lra]. apply rsum_nonneg. intros a Ha. apply rsum_nonneg. intros b Hb. unfold T. apply Rmult_le_pos; [now apply B|apply Cnorm2_nonneg].
  - apply Rmult_le_compat_r; [lra|]. rewrite <- gsum_scal.
    apply rsum_le. intros a Ha. apply rsum_le. intros b Hb. unfold T. apply Rmult_le_compat_r; [apply Cnorm2_nonneg|]. now apply B.
Qed.

Section Fr.
Variables (rest : list nat) (n o p : list nat -> nat -> nat -> R).
Hypothesis Hp : forall r, inb rest r -> get_phi np_solve (Ok (grid ny nx (o r))) h = Ok (grid ny nx (p r)).
Lemma phi_invlap r : inb rest r -> agree ny nx (p r) (invlap ny nx h (o r)).
Proof.
  intros Hr i j Hi Hj. pose proof (Hp r Hr) as E.
  destruct (backend_acts ny nx np_backend h 1 Hy Hx ltac:(lra) (or_introl eq_refl)) as [A _ _ _].
  change np_solve with (poisson_solver np_backend) in E. rewrite A in E.
  assert (Q : grid ny nx (invlap ny nx h (o r)) = grid ny nx (p r)) by congruence. symmetry. now apply (grid_inj ny nx _ _ Q).
Qed.
Lemma energy_gap : exists e,
  get_energy (Ok (stack rest ny nx n)) (Ok (stack rest ny nx p)) h = Ok (build rest e) /\
  forall r, inb rest r ->
    0 <= spec_energy ny nx h (n r) (o r) - e r <= h ^ 2 / 6 * gmean ny nx (fun i j => o r i j ^ 2).
Proof.
  eexists. split; [apply energy_stack; assumption|]. intros r Hr. cbv beta. pose proof (phi_invlap r Hr) as A.
  pose proof (kinetic_gap (o r)) as K. unfold spec_energy.
  rewrite (gm_add ny nx (fun i j => n r i j ^ 2) (fun i j => cdx nx h (p r) i j ^ 2 + cdy ny h (p r) i j ^ 2)).
  rewrite (gm_ext ny nx (fun i j => cdx nx h (p r) i j ^ 2 + cdy ny h (p r) i j ^ 2) (fun i j => cdx nx h (invlap ny nx h (o r)) i j ^ 2 + cdy ny h (invlap ny nx h (o r)) i j ^ 2)).
  2:{ intros i j Hi Hj. rewrite !cdx_R, !cdy_R. rewrite !A by (assumption || now apply sh_lt). reflexivity. }
  set (a := gmean ny nx (fun i j => cdx nx h (invlap ny nx h (o r)) i j ^ 2 + cdy ny h (invlap ny nx h (o r)) i j ^ 2)) in *.
  set (b := gmean ny nx (fun i j => invlap ny nx h (o r) i j * o r i j)) in *.
  set (c := gmean ny nx (fun i j => o r i j ^ 2)) in *. lra.
Qed.
Lemma phi_trip r i j : inb rest r -> (i < ny)%nat -> (j < nx)%nat -> lap5 ny nx h (p r) i j = trip ny nx h (o r) i j.
Proof.
  intros Hr Hi Hj. pose proof (phi_invlap r Hr) as A. unfold trip. rewrite <- (lap5_invlap ny nx h Hy Hx Hh (o r) i j Hi Hj).
  now apply lap5_ext.
Qed.
Lemma enstrophy_gap : (forall r, inb rest r -> gmean ny nx (o r) = 0) -> exists u v,
  get_enstrophy (Ok (stack rest ny nx n)) (Ok (stack rest ny nx o)) h = Ok (build rest u) /\
  get_enstrophy_phi (Ok (stack rest ny nx n)) (Ok (stack rest ny nx p)) h = Ok (build rest v) /\
  forall r, inb rest r -> Rabs (sqrt (2 * v r) - sqrt (2 * u r)) <= h ^ 2 / 12 * rms ny nx (rlap ny nx h (o r)).
Proof.
  intros Z. do 2 eexists. split; [apply enstrophy_stack; assumption|]. split; [apply enstrophy_phi_stack; assumption|]. intros r Hr. cbv beta.
  pose proof (trip_close ny nx h Hy Hx Hh (o r)) as T.
  replace (2 * (gmean ny nx (fun i j => (n r i j - lap5 ny nx h (p r) i j) ^ 2) / 2)) with (gmean ny nx (fun i j => (n r i j - lap5 ny nx h (p r) i j) ^ 2)) by field.
  replace (2 * (gmean ny nx (fun i j => (n r i j - o r i j) ^ 2) / 2)) with (gmean ny nx (fun i j => (n r i j - o r i j) ^ 2)) by field.
  change (sqrt (gmean ny nx (fun i j => (n r i j - lap5 ny nx h (p r) i j) ^ 2))) with (rms ny nx (fun i j => n r i j - lap5 ny nx h (p r) i j)).
  change (sqrt (gmean ny nx (fun i j => (n r i j - o r i j) ^ 2))) with (rms ny nx (fun i j => n r i j - o r i j)).
  eapply Rle_trans; [|exact T]. rewrite !rms_nm.
  set (d := fun i j => trip ny nx h (o r) i j - demean ny nx (o r) i j).
  assert (E1 : nm ny nx (fun i j => n r i j - lap5 ny nx h (p r) i j) = nm ny nx (fsub (fun i j => n r i j - o r i j) d)).
  { apply nm_ext. intros i j Hi Hj. unfold fsub, d, demean. rewrite Z, phi_trip by assumption. ring. }
  assert (E2 : nm ny nx (fun i j => n r i j - o r i j) = nm ny nx (fadd (fsub (fun i j => n r i j - o r i j) d) d)).
  { apply nm_ext. intros i j Hi Hj. unfold fsub, fadd. ring. }
  pose proof (nm_sub ny nx Hy Hx (fun i j => n r i j - o r i j) d) as A1. rewrite <- E1 in A1.
  pose proof (nm_add ny nx Hy Hx (fsub (fun i j => n r i j - o r i j) d) d) as A2. rewrite <- E2, <- E1 in A2.
  apply Rabs_le. lra.
Qed.
Lemma enstrophy_zero_n : (forall r, inb rest r -> agree ny nx (n r) (fconst 0)) -> (forall r, inb rest r -> gmean ny nx (o r) = 0) -> exists u v,
  get_enstrophy (Ok (stack rest ny nx n)) (Ok (stack rest ny nx o)) h = Ok (build rest u) /\
  get_enstrophy_phi (Ok (stack rest ny nx n)) (Ok (stack rest ny nx p)) h = Ok (build rest v) /\
  forall r, inb rest r -> 16 / PI ^ 4 * u r <= v r <= u r.
Proof.
  intros N Z. do 2 eexists. split; [apply enstrophy_stack; assumption|]. split; [apply enstrophy_phi_stack; assumption|]. intros r Hr. cbv beta.
  pose proof (trip_upper ny nx h Hy Hx Hh (o r)) as U. pose proof (trip_lower ny nx h Hy Hx Hh (o r)) as L. rewrite !rms_nm in U, L.
  assert (E1 : gmean ny nx (fun i j => (n r i j - lap5 ny nx h (p r) i j) ^ 2) = nm ny nx (trip ny nx h (o r)) ^ 2).
  { rewrite nm_sq by assumption. rewrite ip_msq. apply gm_ext. intros i j Hi Hj. rewrite phi_trip, (N r Hr) by assumption. unfold fconst. ring. }
  assert (E2 : gmean ny nx (fun i j => (n r i j - o r i j) ^ 2) = nm ny nx (demean ny nx (o r)) ^ 2).
  { rewrite nm_sq by assumption. rewrite ip_msq. apply gm_ext. intros i j Hi Hj. unfold demean. rewrite Z, (N r Hr) by assumption. unfold fconst. ring. }
  rewrite E1, E2. set (a := nm ny nx (trip ny nx h (o r))) in *. set (b := nm ny nx (demean ny nx (o r))) in *.
  assert (0 <= a) by apply nm_pos. assert (0 <= b) by apply nm_pos. pose proof pi2_pos as P. pose proof PI_RGT_0.
  assert ((4 / PI ^ 2 * b) ^ 2 <= a ^ 2) by (apply pow_incr; split; [apply Rmult_le_pos; lra|exact L]).
  assert (a ^ 2 <= b ^ 2) by (apply pow_incr; split; assumption).
  replace ((4 / PI ^ 2 * b) ^ 2) with (16 / PI ^ 4 * b ^ 2) in * by (field; lra). lra.
Qed.
End Fr.
End D.

(** ** alternating fields: the reported kinetic energy is zero *)
Section Chk.
Variables (ny nx : nat) (h : R).
Hypothesis Hy : (0 < ny)%nat.
Hypothesis Hx : (0 < nx)%nat.
Hypothesis Hh : 0 < h.
Hypothesis Ey : Nat.Even ny.
Hypothesis Ex : Nat.Even nx.
Lemma cdx_ck c i j : (i < ny)%nat -> (j < nx)%nat -> cdx nx h (fscale c checker) i j = 0.
Proof.
  intros Hi Hj. rewrite cdx_R. unfold fscale.
  pose proof (checker_sh ny nx Hy Hx 0 1 i j Ey Ex Hi Hj) as A. pose proof (checker_sh ny nx Hy Hx 0 (-1) i j Ey Ex Hi Hj) as B.
  rewrite sh_0 in A, B by assumption. rewrite A, B by lia. cbn. field. lra.
Qed.
Lemma cdy_ck c i j : (i < ny)%nat -> (j < nx)%nat -> cdy ny h (fscale c checker) i j = 0.
Proof. intros Hi Hj. apply (cdy_checker ny nx h Hy Hx); try assumption; lra. Qed.
Lemma checker_sq i j : checker i j ^ 2 = 1.
Proof. unfold checker. rewrite <- pow_mult, Nat.mul_comm, pow_mult. replace ((-1) ^ 2) with 1 by ring. apply pow1. Qed.
Lemma energy_ck : exists p,
  get_phi np_solve (Ok (grid ny nx checker)) h = Ok (grid ny nx p) /\
  get_energy (Ok (grid ny nx (fconst 0))) (Ok (grid ny nx p)) h = Ok (build [] (fun _ => 0)) /\
  spec_energy ny nx h (fconst 0) checker = h ^ 2 / (4 * PI ^ 2).
Proof.
  exists (invlap ny nx h checker).
  destruct (backend_acts ny nx np_backend h 1 Hy Hx ltac:(lra) (or_introl eq_refl)) as [A _ _ _].
  assert (I : forall i j, invlap ny nx h checker i j = fscale (- (h ^ 2 / (2 * PI ^ 2))) checker i j).
  { intros i j. rewrite (invlap_ext ny nx h checker (fscale 1 checker)) by (intros a b _ _; unfold fscale; ring).
    rewrite invlap_checker by (assumption || lra). unfold fscale. ring. }
  split; [|split].
  - change np_solve with (poisson_solver np_backend). apply A.
  - change (grid ny nx (fconst 0)) with (stack [] ny nx (fun _ => fconst 0)). change (grid ny nx (invlap ny nx h checker)) with (stack [] ny nx (fun _ => invlap ny nx h checker)).
    rewrite energy_stack by assumption. f_equal. apply build_ext. intros r _.
    rewrite (gm_ext ny nx _ (fun _ _ => 0)).
    + unfold gmean. rewrite gsum_const. pose proof (INR_pos ny Hy). pose proof (INR_pos nx Hx). field. split; lra.
    + intros i j Hi Hj. rewrite !cdx_R, !cdy_R, !I, <- cdx_R, <- cdy_R, cdx_ck, cdy_ck by assumption. unfold fconst. ring.
  - unfold spec_energy. pose proof (INR_pos ny Hy). pose proof (INR_pos nx Hx). pose proof PI_RGT_0.
    rewrite (gm_ext ny nx (fun i j => fconst 0 i j ^ 2) (fun _ _ => 0)) by (intros; unfold fconst; ring).
    rewrite (gm_ext ny nx (fun i j => invlap ny nx h checker i j * checker i j) (fun _ _ => - (h ^ 2 / (2 * PI ^ 2)))).
    + unfold gmean. rewrite !gsum_const. field. repeat split; lra.
    + intros i j _ _. rewrite I. unfold fscale. pose proof (checker_sq i j). replace (- (h ^ 2 / (2 * PI ^ 2)) * checker i j * checker i j) with (- (h ^ 2 / (2 * PI ^ 2)) * checker i j ^ 2) by ring. rewrite H2. ring.
Qed.
End Chk.
