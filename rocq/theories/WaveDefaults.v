(** The defaults of the drivers against the stability limit. *)
From Coq Require Import List Arith ZArith Lia Bool Reals Lra Psatz String Permutation.
From Verif Require Import Num NdArray NdFacts Spec ModelHW ModelBackend SpecHW SpecPlasma HWFacts HWProps ModelIO ModelRun ModelRunHW ModelArgs ModelDefaults
  RunHWFacts InitProps SpecWave WaveDiff WaveTop WaveNyq.
Import ListNotations.
Local Open Scope R_scope.

(** step size times the largest damping rate of the grid *)
Definition stiffness (a : run_args) : R :=
  a_step a * a_nu a * (8 / domain_dx (a_k0 a) (a_grid a) ^ 2) ^ Z.to_nat (a_N a).

Lemma stiff_gen s nu n N : (0 < n)%nat ->
  s * nu * (8 / domain_dx 0.15 n ^ 2) ^ N = s * nu * ((0.045 * INR n ^ 2) / PI ^ 2) ^ N.
Proof.
  intros Hn. pose proof PI_RGT_0. assert (0 < INR n) by (apply lt_0_INR; lia). do 2 f_equal. unfold domain_dx.
  replace 0.15 with (15 / 100) by lra. replace 0.045 with (45 / 1000) by lra. field. lra.
Qed.
Lemma inr_z n z : Z.of_nat n = z -> INR n = IZR z.
Proof. intros <-. apply INR_IZR_INZ. Qed.
Lemma PI2_bounds : 9.8 < PI ^ 2 < 9.93.
Proof. pose proof PI_bounds. nra. Qed.
Lemma stiff_run : 130 <= stiffness run_defaults.
Proof.
  unfold stiffness. cbn [a_step a_nu a_k0 a_grid a_N run_defaults].
  change (Z.to_nat 3) with 3%nat. rewrite stiff_gen by lia. rewrite (inr_z 1024 1024 eq_refl).
  pose proof PI2_bounds as [L U].
  assert (E : 4750 <= 0.045 * 1024 ^ 2 / PI ^ 2).
  { apply Rmult_le_reg_r with (PI ^ 2); [lra|]. unfold Rdiv. rewrite Rmult_assoc, Rinv_l by lra. lra. }
  assert (E3 : 4750 ^ 3 <= (0.045 * 1024 ^ 2 / PI ^ 2) ^ 3) by (apply pow_incr; lra). lra.
Qed.
Lemma stiff_512 nu : 0 <= nu <= 5e-8 -> 0 <= 0.025 * nu * (8 / domain_dx 0.15 512 ^ 2) ^ 3 <= 2.2.
Proof.
  intros Hnu. rewrite stiff_gen by lia. rewrite (inr_z 512 512 eq_refl).
  pose proof PI2_bounds as [L U].
  assert (E0 : 0 <= 0.045 * 512 ^ 2 / PI ^ 2) by (apply Rmult_le_pos; [lra|left; apply Rinv_0_lt_compat; lra]).
  assert (E : 0.045 * 512 ^ 2 / PI ^ 2 <= 1204).
  { apply Rmult_le_reg_r with (PI ^ 2); [lra|]. unfold Rdiv. rewrite Rmult_assoc, Rinv_l by lra. lra. }
  assert (E3 : (0.045 * 512 ^ 2 / PI ^ 2) ^ 3 <= 1204 ^ 3) by (apply pow_incr; lra).
  assert (E4 : 0 <= (0.045 * 512 ^ 2 / PI ^ 2) ^ 3) by (now apply pow_le). 
  set (q := (0.045 * 512 ^ 2 / PI ^ 2) ^ 3) in *. split; [nra|].
  apply Rle_trans with (0.025 * 5e-8 * 1204 ^ 3); [|lra]. nra.
Qed.
Lemma stiff_readme : 0 <= stiffness readme_args <= 2.2.
Proof. unfold stiffness. cbn [a_step a_nu a_k0 a_grid a_N readme_args]. change (Z.to_nat 3) with 3%nat. apply stiff_512. lra. Qed.
Lemma stiff_run2 : 0 <= stiffness run2_defaults <= 2.2.
Proof. unfold stiffness. cbn [a_step a_nu a_k0 a_grid a_N run2_defaults]. change (Z.to_nat 3) with 3%nat. apply stiff_512. lra. Qed.

Lemma growth4R_big x : 130 <= x -> 10 ^ 7 <= growth4R (- x).
Proof.
  intros H. unfold growth4R.
  replace (1 + - x + (- x) ^ 2 / 2 + (- x) ^ 3 / 6 + (- x) ^ 4 / 24) with (1 - x + x ^ 2 / 2 + x ^ 3 * (x - 4) / 24) by field.
  assert (x ^ 2 >= 130 ^ 2) by nra. assert (x ^ 3 >= 130 ^ 3) by nra. nra.
Qed.

Lemma dx_pos n : (0 < n)%nat -> domain_dx 0.15 n <> 0.
Proof.
  intros Hn. unfold domain_dx. pose proof PI_RGT_0. assert (0 < INR n) by (apply lt_0_INR; lia).
  apply Rgt_not_eq. apply Rdiv_lt_0_compat; [|assumption]. apply Rdiv_lt_0_compat; lra.
Qed.
Lemma even_1024 : Nat.Even 1024.
Proof. exists 512%nat. reflexivity. Qed.
Lemma c103_run b : backend_ok 1024 1024 b ->
  let dx := c_dx (run_cfg run_defaults) in let dt := c_step (run_cfg run_defaults) in let w := dx ^ 2 / (2 * PI ^ 2) in
  exists h g, hw_of_phys b (c_phys (run_cfg run_defaults)) = Ok h /\ 10 ^ 7 <= g /\
    forall pl c a m,
    plasma_ok true 1024 1024 pl (fscale (- w * c) checker) (fscale c checker) (fscale (- w * c) checker) a ->
    exists pl', snd (steps (fun pl => rk4_step h pl dt dx) m pl) = Ok pl' /\
      plasma_ok true 1024 1024 pl' (fscale (- w * (g ^ m * c)) checker) (fscale (g ^ m * c) checker) (fscale (- w * (g ^ m * c)) checker) (a + INR m * dt).
Proof.
  intros Hb dx dt w.
  set (p := mkPar 3 1 5e-8 1 1 false).
  exists (hw_of b p dx true), (growth4R (- stiffness run_defaults)).
  split; [|split].
  - change (c_phys (run_cfg run_defaults)) with (physics_params dx (Z.of_nat (pN p)) (pc1 p) (pnu p) 0.15 (ppb p) (pkap p)).
    apply (hw_of_params b p dx 0.15). lra.
  - apply growth4R_big, stiff_run.
  - intros pl c a m P.
    exact (c103 1024 1024 dx ltac:(lia) ltac:(lia) (dx_pos 1024 ltac:(lia)) even_1024 even_1024 b p dx true Hb pl c a dt m P).
Qed.
