(** Proofs of C12-C17 (statements repeated in PropPoisson.v). *)
From Coq Require Import Bool List Arith ZArith Lia Reals Lra Psatz.
From Verif Require Import Num NdArray NdFacts Spec GradFacts SumFacts LapFacts GradProps Cplx DftFacts SpecFourier ModelPoisson PoissonFacts.
Import ListNotations.
Local Open Scope R_scope.

Definition np_solve : nd R -> R -> nd R := fun t dx => np_fourier_poisson_double t dx 1.
Definition nb_solve : nd R -> R -> nd R := fun t dx => nb_fourier_poisson_double t dx 1.

Lemma get_phi_np ny nx om dx : (0 < ny)%nat -> (0 < nx)%nat ->
  get_phi np_solve (Ok (grid ny nx om)) dx =
  Ok (grid ny nx (fun i j => rmult ny nx (inv_sym ny nx 0 1) (centered ny nx om) i j * dx ^ 2)).
Proof. intros Hy Hx. rewrite get_phi_grid. unfold np_solve. now rewrite np_solver_grid. Qed.

Lemma rmult_eq0_dc ny nx c f i j : (0 < ny)%nat -> (0 < nx)%nat -> (i < ny)%nat -> (j < nx)%nat ->
  rmult ny nx (inv_sym ny nx c 1) f i j = rmult ny nx (inv_sym ny nx 0 1) f i j + c * gmean ny nx f.
Proof.
  intros Hy Hx Hi Hj. rewrite (rmult_dc ny nx _ (inv_sym ny nx 0 1)); try assumption.
  - cbn. ring.
  - intros k l Hk Hl Hne. unfold inv_sym. destruct (is00 k l) eqn:E; [apply is00_true in E; lia|reflexivity].
Qed.

Lemma get_phi_nb ny nx om dx : (0 < ny)%nat -> (0 < nx)%nat ->
  (Z.of_nat ny <= 65536)%Z -> (Z.of_nat nx <= 65536)%Z ->
  get_phi nb_solve (Ok (grid ny nx om)) dx = get_phi np_solve (Ok (grid ny nx om)) dx.
Proof.
  intros Hy Hx By Bx. rewrite get_phi_np by assumption. rewrite get_phi_grid. unfold nb_solve.
  rewrite nb_solver_grid by assumption. f_equal. apply grid_ext. intros i j Hi Hj. f_equal.
  rewrite rmult_eq0_dc by assumption. unfold gmean. rewrite gsum_centered by assumption. unfold Rdiv. ring.
Qed.

Lemma rmult_1 ny nx f i j : rmult ny nx (lam ny nx) f i j = rmult ny nx (fun k l => lam ny nx k l ^ 1) f i j.
Proof. apply rmult_ext; auto. intros. cbn [pow]. ring. Qed.

Lemma rmult_cscale ny nx m c f i j : rmult ny nx m (fun i j => f i j * c) i j = rmult ny nx m f i j * c.
Proof.
  rewrite Rmult_comm, <- rmult_fscale. apply rmult_ext; auto. intros. ring.
Qed.

Lemma c12 ny nx dx om : (0 < ny)%nat -> (0 < nx)%nat -> dx <> 0 ->
  exists phi,
    get_phi np_solve (Ok (grid ny nx om)) dx = Ok (grid ny nx phi) /\
    (forall i j, (i < ny)%nat -> (j < nx)%nat ->
       speclap ny nx dx phi i j = RtoC (om i j - gmean ny nx om)) /\
    gmean ny nx phi = 0 /\
    (forall psi,
       (forall i j, (i < ny)%nat -> (j < nx)%nat ->
          speclap ny nx dx psi i j = RtoC (om i j - gmean ny nx om)) ->
       gmean ny nx psi = 0 ->
       forall i j, (i < ny)%nat -> (j < nx)%nat -> psi i j = phi i j).
Proof.
  intros Hy Hx Hd. eexists. split; [now apply get_phi_np|]. split; [|split].
  - intros i j Hi Hj. rewrite speclap_rmult by assumption. f_equal.
    rewrite rmult_cscale.
    rewrite rmult_1, (lam_inv ny nx 0) by assumption.
    unfold gmean at 1. rewrite gsum_centered by assumption. unfold centered. field.
    repeat split; try assumption; apply not_0_INR; lia.
  - unfold gmean.
    rewrite (gsum_ext ny nx _ (fun i j => dx ^ 2 * rmult ny nx (inv_sym ny nx 0 1) (centered ny nx om) i j)) by (intros; ring).
    rewrite gsum_scal, gsum_rmult by assumption. cbn [inv_sym is00 Nat.eqb andb]. unfold Rdiv. ring.
  - intros psi Hpsi Hm i j Hi Hj.
    assert (E : forall i j, (i < ny)%nat -> (j < nx)%nat ->
       centered ny nx om i j = rmult ny nx (lam ny nx) psi i j * / dx ^ 2).
    { intros a b Ha Hb. specialize (Hpsi a b Ha Hb). rewrite speclap_rmult in Hpsi by assumption.
      apply (f_equal re) in Hpsi. cbn [re RtoC] in Hpsi. unfold centered. rewrite <- Hpsi. reflexivity. }
    rewrite (rmult_ext ny nx (inv_sym ny nx 0 1) (inv_sym ny nx 0 1) (centered ny nx om)
       (fun i j => rmult ny nx (fun k l => lam ny nx k l ^ 1) psi i j * / dx ^ 2)); auto.
    2:{ intros. rewrite E by assumption. now rewrite rmult_1. }
    rewrite rmult_cscale, (inv_lam ny nx 0) by assumption. rewrite Hm. field. assumption.
Qed.

Lemma c13_diff ny nx dx f : (0 < ny)%nat -> (0 < nx)%nat ->
  (Z.of_nat ny <= 65536)%Z -> (Z.of_nat nx <= 65536)%Z ->
  exists u,
    np_fourier_poisson_double (Ok (grid ny nx f)) dx 1 = Ok (grid ny nx u) /\
    nb_fourier_poisson_double (Ok (grid ny nx f)) dx 1 =
    Ok (grid ny nx (fun i j => u i j + gmean ny nx f * dx ^ 2 / 10 ^ 14)).
Proof.
  intros Hy Hx By Bx. eexists. split; [now apply np_solver_grid|].
  rewrite nb_solver_grid by assumption. f_equal. apply grid_ext. intros i j Hi Hj.
  rewrite rmult_eq0_dc by assumption. cbn [dc0].
  replace (10 ^ 14) with 100000000000000 by ring. field.
Qed.

Lemma c13_times ny nx dx f t : (0 < ny)%nat -> (0 < nx)%nat ->
  (Z.of_nat ny <= 65536)%Z -> (Z.of_nat nx <= 65536)%Z ->
  exists u,
    np_fourier_poisson_double (Ok (grid ny nx f)) dx (S t) = Ok (grid ny nx u) /\
    nb_fourier_poisson_double (Ok (grid ny nx f)) dx (S t) =
    Ok (grid ny nx (fun i j => u i j + gmean ny nx f * dx ^ 2 / (10 ^ 14) ^ S t)).
Proof.
  intros Hy Hx By Bx. eexists. split; [now apply np_solver_grid|].
  rewrite nb_solver_grid by assumption. f_equal. apply grid_ext. intros i j Hi Hj.
  rewrite (rmult_dc ny nx (inv_sym ny nx (/ 100000000000000 ^ S t) (S t)) (inv_sym ny nx (dc0 (S t)) (S t))); try assumption.
  - cbn [dc0]. replace (10 ^ 14) with 100000000000000 by ring.
    unfold inv_sym at 2 3. cbn [is00 Nat.eqb andb]. unfold Rdiv. ring.
  - intros k l Hk Hl Hne. unfold inv_sym. destruct (is00 k l) eqn:E; [apply is00_true in E; lia|reflexivity].
Qed.

Lemma c14_eq n : (1 <= n)%nat -> (Z.of_nat n <= 65536)%Z -> custom_fftfreq n = np_fftfreq n.
Proof. intros. now apply custom_fftfreq_eq. Qed.
Lemma c14_ne n : (65536 < Z.of_nat n)%Z -> custom_fftfreq n <> np_fftfreq n.
Proof. apply custom_fftfreq_ne. Qed.
Lemma c14_spec n i : (i < n)%nat -> nth i (np_fftfreq n) 0 = IZR (sfreq n i) / INR n.
Proof. apply np_fftfreq_nth. Qed.

(** ** C15 *)
Definition solved (ny nx : nat) (dx : R) (f u : nat -> nat -> R) : Prop :=
  np_solve (Ok (grid ny nx f)) dx = Ok (grid ny nx u).

Lemma solved_eq ny nx dx f u : (0 < ny)%nat -> (0 < nx)%nat -> solved ny nx dx f u ->
  forall i j, (i < ny)%nat -> (j < nx)%nat -> u i j = dx ^ 2 * rmult ny nx (inv_sym ny nx 0 1) f i j.
Proof.
  intros Hy Hx H i j Hi Hj. unfold solved, np_solve in H. rewrite np_solver_grid in H by assumption.
  rewrite <- (grid_ok_inj _ _ _ _ H i j Hi Hj). cbn [dc0]. ring.
Qed.
Lemma solved_total ny nx dx f : (0 < ny)%nat -> (0 < nx)%nat -> exists u, solved ny nx dx f u.
Proof. intros Hy Hx. eexists. now apply np_solver_grid. Qed.
Lemma solved_intro ny nx dx f u : (0 < ny)%nat -> (0 < nx)%nat ->
  (forall i j, (i < ny)%nat -> (j < nx)%nat -> u i j = dx ^ 2 * rmult ny nx (inv_sym ny nx 0 1) f i j) ->
  solved ny nx dx f u.
Proof.
  intros Hy Hx H. unfold solved, np_solve. rewrite np_solver_grid by assumption. f_equal.
  apply grid_ext. intros i j Hi Hj. rewrite H by assumption. cbn [dc0]. ring.
Qed.

Lemma c15_linear ny nx dx a b f g u v : (0 < ny)%nat -> (0 < nx)%nat ->
  solved ny nx dx f u -> solved ny nx dx g v ->
  solved ny nx dx (fadd (fscale a f) (fscale b g)) (fadd (fscale a u) (fscale b v)).
Proof.
  intros Hy Hx Hu Hv. apply solved_intro; try assumption. intros i j Hi Hj.
  rewrite rmult_lin. unfold fadd, fscale.
  rewrite (solved_eq _ _ _ _ _ Hy Hx Hu), (solved_eq _ _ _ _ _ Hy Hx Hv) by assumption. ring.
Qed.

(** the complex field before np.real has no imaginary part *)
Lemma c15_real ny nx f t : (0 < ny)%nat -> (0 < nx)%nat ->
  exists w, np_poisson_complex (Ok (grid ny nx f)) t = Ok (grid ny nx w) /\
    forall i j, im (w i j) = 0.
Proof.
  intros Hy Hx. eexists. split; [now apply np_complex_grid|].
  intros i j. apply mult_real; auto using inv_sym_even.
Qed.

Lemma inner_scal_r ny nx c f g : inner ny nx f (fun i j => c * g i j) = c * inner ny nx f g.
Proof. unfold inner. rewrite <- gsum_scal. apply gsum_ext; intros; ring. Qed.
Lemma inner_scal_l ny nx c f g : inner ny nx (fun i j => c * f i j) g = c * inner ny nx f g.
Proof. unfold inner. rewrite <- gsum_scal. apply gsum_ext; intros; ring. Qed.

Lemma c15_symmetric ny nx dx f g u v : (0 < ny)%nat -> (0 < nx)%nat ->
  solved ny nx dx f u -> solved ny nx dx g v ->
  inner ny nx f v = inner ny nx u g.
Proof.
  intros Hy Hx Hu Hv.
  rewrite (inner_ext ny nx f f v (fun i j => dx ^ 2 * rmult ny nx (inv_sym ny nx 0 1) g i j))
    by (auto; intros; now apply solved_eq).
  rewrite (inner_ext ny nx u (fun i j => dx ^ 2 * rmult ny nx (inv_sym ny nx 0 1) f i j) g g)
    by (auto; intros; now apply solved_eq).
  rewrite inner_scal_r, inner_scal_l. f_equal. apply rmult_selfadjoint; auto using inv_sym_even.
Qed.

Lemma inv_sym_1_neg ny nx k l : (k < ny)%nat -> (l < nx)%nat -> (k <> 0 \/ l <> 0)%nat ->
  inv_sym ny nx 0 1 k l < 0.
Proof.
  intros Hk Hl Hne. unfold inv_sym. destruct (is00 k l) eqn:E; [apply is00_true in E; lia|].
  rewrite pow_1. apply Rinv_lt_0_compat. now apply lam_neg.
Qed.
Lemma inv_sym_1_00 ny nx : inv_sym ny nx 0 1 0 0 = 0. Proof. reflexivity. Qed.

Lemma Cnorm2_nonneg c : 0 <= Cnorm2 c.
Proof. unfold Cnorm2. pose proof (Rle_0_sqr (re c)). pose proof (Rle_0_sqr (im c)). unfold Rsqr in *. lra. Qed.
Lemma Cnorm2_0 c : Cnorm2 c = 0 -> c = C0.
Proof.
  unfold Cnorm2. intros H. pose proof (Rle_0_sqr (re c)). pose proof (Rle_0_sqr (im c)). unfold Rsqr in *.
  apply C_eq; cbn; apply Rsqr_0_uniq; unfold Rsqr; lra.
Qed.

Lemma neg_term ny nx f k l : (k < ny)%nat -> (l < nx)%nat ->
  0 <= - (inv_sym ny nx 0 1 k l * Cnorm2 (dft2 ny nx (cfield f) (Z.of_nat k) (Z.of_nat l))).
Proof.
  intros Hk Hl. pose proof (Cnorm2_nonneg (dft2 ny nx (cfield f) (Z.of_nat k) (Z.of_nat l))) as Hn.
  destruct (is00 k l) eqn:E.
  - apply is00_true in E as [-> ->]. rewrite inv_sym_1_00. lra.
  - pose proof (inv_sym_1_neg ny nx k l Hk Hl (is00_false _ _ E)). nra.
Qed.

Lemma const_of_spectrum ny nx f : (0 < ny)%nat -> (0 < nx)%nat ->
  (forall k l, (k < ny)%nat -> (l < nx)%nat -> (k <> 0 \/ l <> 0)%nat ->
     dft2 ny nx (cfield f) (Z.of_nat k) (Z.of_nat l) = C0) ->
  forall i j, (i < ny)%nat -> (j < nx)%nat -> f i j = gmean ny nx f.
Proof.
  intros Hy Hx H i j Hi Hj. pose proof (idft2_dft2 ny nx (cfield f) i j Hi Hj) as E.
  rewrite idft2_gc in E. rewrite (gcsum_single ny nx 0 0 _ Hy Hx) in E.
  - cbn [Z.of_nat] in E. rewrite pw_00, dft2_00, gcsum_cfield in E.
    apply (f_equal re) in E. cbn in E. rewrite <- E. unfold gmean. field.
    split; apply not_0_INR; lia.
  - intros k l Hk Hl Hne. rewrite H by assumption. ring.
Qed.

Lemma c15_negative ny nx dx f u : (0 < ny)%nat -> (0 < nx)%nat -> dx <> 0 ->
  solved ny nx dx f u ->
  inner ny nx f u <= 0 /\ (inner ny nx f u = 0 <-> is_const ny nx f).
Proof.
  intros Hy Hx Hd Hu.
  assert (E : inner ny nx f u = - (dx ^ 2 / (INR ny * INR nx) * gsum ny nx (fun k l =>
      - (inv_sym ny nx 0 1 k l * Cnorm2 (dft2 ny nx (cfield f) (Z.of_nat k) (Z.of_nat l)))))).
  { rewrite (inner_ext ny nx f f u (fun i j => dx ^ 2 * rmult ny nx (inv_sym ny nx 0 1) f i j))
      by (auto; intros; now apply solved_eq).
    rewrite inner_scal_r, inner_rmult_sq by (auto using inv_sym_even).
    rewrite gsum_opp. unfold Rdiv. ring. }
  pose proof (INR_pos ny Hy) as Py. pose proof (INR_pos nx Hx) as Px.
  assert (P : 0 < dx ^ 2 / (INR ny * INR nx)).
  { apply Rdiv_lt_0_compat; [|nra]. pose proof (Rlt_0_sqr dx Hd). unfold Rsqr in *. cbn [pow]. lra. }
  pose proof (gsum_nonneg ny nx _ (fun k l Hk Hl => neg_term ny nx f k l Hk Hl)) as G.
  rewrite E. split; [nra|]. split.
  - intros H0.
    assert (G0 : gsum ny nx (fun k l =>
      - (inv_sym ny nx 0 1 k l * Cnorm2 (dft2 ny nx (cfield f) (Z.of_nat k) (Z.of_nat l)))) = 0) by nra.
    rewrite (gsum_0_iff ny nx _ (fun k l Hk Hl => neg_term ny nx f k l Hk Hl)) in G0.
    assert (Z0 : forall k l, (k < ny)%nat -> (l < nx)%nat -> (k <> 0 \/ l <> 0)%nat ->
       dft2 ny nx (cfield f) (Z.of_nat k) (Z.of_nat l) = C0).
    { intros k l Hk Hl Hne. apply Cnorm2_0. specialize (G0 k l Hk Hl). cbn beta in G0.
      pose proof (inv_sym_1_neg ny nx k l Hk Hl Hne). nra. }
    intros i j i' j' Hi Hj Hi' Hj'.
    now rewrite (const_of_spectrum ny nx f Hy Hx Z0 i j Hi Hj), (const_of_spectrum ny nx f Hy Hx Z0 i' j' Hi' Hj').
  - intros Hc.
    rewrite (gsum_ext ny nx _ (fun _ _ => 0)); [rewrite gsum_zero; ring|].
    intros k l Hk Hl. destruct (is00 k l) eqn:E0.
    + apply is00_true in E0 as [-> ->]. rewrite inv_sym_1_00. ring.
    + assert (D : dft2 ny nx (cfield f) (Z.of_nat k) (Z.of_nat l) = C0).
      { rewrite dft2_gc.
        rewrite (gcsum_ext ny nx _ (fun i j => Cmul (RtoC (f 0%nat 0%nat))
           (pw ny nx (- Z.of_nat k) (- Z.of_nat l) (Z.of_nat i) (Z.of_nat j)))).
        2:{ intros i j Hi Hj. unfold cfield. now rewrite (Hc i j 0%nat 0%nat). }
        rewrite gcsum_mul, gcsum_pw by assumption.
        destruct (Z.eqb_spec (- Z.of_nat k mod Z.of_nat ny) 0) as [Ek|], (Z.eqb_spec (- Z.of_nat l mod Z.of_nat nx) 0) as [El|];
          cbn [andb]; try ring.
        exfalso. apply is00_false in E0.
        apply Z.mod_divide in Ek; [|lia]. apply Z.mod_divide in El; [|lia].
        destruct Ek as [a Ea], El as [b Eb]. assert (a = 0)%Z by nia. assert (b = 0)%Z by nia. lia. }
      rewrite D. unfold Cnorm2. cbn. ring.
Qed.

Lemma c15_shift ny nx dx sy sx f u : (0 < ny)%nat -> (0 < nx)%nat ->
  solved ny nx dx f u -> solved ny nx dx (ftrans ny nx sy sx f) (ftrans ny nx sy sx u).
Proof.
  intros Hy Hx Hu. apply solved_intro; try assumption. intros i j Hi Hj.
  rewrite rmult_shift by assumption. unfold ftrans. apply solved_eq; auto; now apply sh_lt.
Qed.

(** ** C17 *)
Lemma c17_nameerror ny nx g dx N : (0 < ny)%nat -> (0 < nx)%nat ->
  np_fourier_laplace (Ok (grid ny nx g)) dx N = Exn NameError.
Proof.
  intros Hy Hx. unfold np_fourier_laplace. now rewrite to_complex_grid, fft2_grid.
Qed.
Lemma c17_never (g : nd R) dx N a : np_fourier_laplace g dx N <> Ok a.
Proof. unfold np_fourier_laplace. destruct (fft2 (to_complex g)); cbn; discriminate. Qed.

Lemma c17_inverse ny nx dx N f : (0 < ny)%nat -> (0 < nx)%nat -> dx <> 0 -> gmean ny nx f = 0 ->
  exists L, pm_fourier_laplace (Ok (grid ny nx f)) dx N = Ok (grid ny nx L) /\
    np_fourier_poisson_double (Ok (grid ny nx L)) dx N = Ok (grid ny nx f).
Proof.
  intros Hy Hx Hd Hm. eexists. split; [now apply pm_laplace_grid|].
  rewrite np_solver_grid by assumption. f_equal. apply grid_ext. intros i j Hi Hj.
  rewrite (rmult_ext ny nx _ (inv_sym ny nx (dc0 N) N) _ (fun i j => rmult ny nx (fun k l => lam ny nx k l ^ N) f i j * / dx ^ 2)) by auto.
  rewrite rmult_cscale. destruct N as [|N]; cbn [dc0].
  - rewrite (rmult_ext ny nx (inv_sym ny nx 1 0) (fun _ _ => 1) (rmult ny nx (fun k l => lam ny nx k l ^ 0) f) f).
    + rewrite rmult_one by assumption. field. assumption.
    + intros k l _ _. unfold inv_sym. destruct (is00 k l); cbn; [reflexivity|apply Rinv_1].
    + intros k l Hk Hl. cbn [pow]. now apply rmult_one.
  - rewrite inv_lam by assumption. rewrite Hm. field. assumption.
Qed.

Lemma lam_pow_even ny nx N : even_mult ny nx (fun k l => lam ny nx k l ^ N).
Proof. intros k l Hk Hl. now rewrite (lam_even ny nx k l Hk Hl). Qed.
Lemma speclap_iter_rmult N ny nx dx f i j : (0 < ny)%nat -> (0 < nx)%nat -> dx <> 0 ->
  (i < ny)%nat -> (j < nx)%nat ->
  speclap_iter N ny nx dx f i j = rmult ny nx (fun k l => lam ny nx k l ^ N) f i j / (dx ^ 2) ^ N.
Proof.
  intros Hy Hx Hd. revert i j. induction N as [|N IH]; intros i j Hi Hj.
  - cbn [speclap_iter pow]. rewrite rmult_one by assumption. field.
  - cbn [speclap_iter]. rewrite speclap_rmult by assumption. cbn [re RtoC].
    rewrite (rmult_ext ny nx _ (lam ny nx) _ (fun i j => rmult ny nx (fun k l => lam ny nx k l ^ N) f i j * / (dx ^ 2) ^ N))
      by (auto; intros; now rewrite IH).
    rewrite rmult_cscale, rmult_rmult by (auto using lam_pow_even).
    change (fun k l => lam ny nx k l * lam ny nx k l ^ N) with (fun k l => lam ny nx k l ^ S N).
    assert (dx ^ 2 <> 0) by (now apply pow_nonzero).
    assert ((dx ^ 2) ^ N <> 0) by (now apply pow_nonzero).
    replace ((dx ^ 2) ^ S N) with (dx ^ 2 * (dx ^ 2) ^ N) by reflexivity. field. auto.
Qed.
Lemma c56_char ny nx dx N f : (0 < ny)%nat -> (0 < nx)%nat -> dx <> 0 ->
  pm_fourier_laplace (Ok (grid ny nx f)) dx (S N) =
  Ok (grid ny nx (fun i j => (dx ^ 2) ^ N * speclap_iter (S N) ny nx dx f i j)).
Proof.
  intros Hy Hx Hd. rewrite pm_laplace_grid by assumption. f_equal. apply grid_ext. intros i j Hi Hj.
  rewrite speclap_iter_rmult by assumption.
  assert (dx ^ 2 <> 0) by (now apply pow_nonzero).
  assert ((dx ^ 2) ^ N <> 0) by (now apply pow_nonzero).
  replace ((dx ^ 2) ^ S N) with (dx ^ 2 * (dx ^ 2) ^ N) by reflexivity. field. auto.
Qed.

(** ** a concrete field: the checkerboard row (1, -1) *)
Definition zig : nat -> nat -> R := fun _ j => match j with O => 1 | _ => -1 end.
Lemma wn2_1 : wn 2 1 = RtoC (-1).
Proof.
  unfold wn. replace (2 * PI * 1 / INR 2) with PI by (cbn; field).
  apply C_eq; cbn; [apply cos_PI|apply sin_PI].
Qed.
Lemma wn2_m1 : wn 2 (-1) = RtoC (-1).
Proof. rewrite <- wn2_1. apply wn_eqm; [lia|reflexivity]. Qed.
Lemma wn1 z : wn 1 z = C1.
Proof. rewrite <- (wn_mult 1 z) by lia. f_equal. lia. Qed.
Lemma rmult_zig m i j : (i < 1)%nat -> (j < 2)%nat -> rmult 1 2 m zig i j = m 0%nat 1%nat * zig i j.
Proof.
  intros Hi Hj. assert (i = 0%nat) as -> by lia.
  assert (j = 0%nat \/ j = 1%nat) as [-> | ->] by lia;
  unfold rmult, mult, idft2, dft2, cfield, zig; cbn [csum Z.of_nat Z.mul Z.opp Pos.of_succ_nat Pos.mul];
  rewrite ?wn1, ?wn_0, ?wn2_1, ?wn2_m1; cbn; field.
Qed.
Lemma gmean_zig : gmean 1 2 zig = 0.
Proof. unfold gmean, gsum, zig. cbn. field. Qed.
Lemma lam_12 : lam 1 2 0 1 = - PI ^ 2.
Proof. unfold lam, sfreq. cbn -[PI pow]. field. Qed.

Lemma zig_phi : get_phi np_solve (Ok (grid 1 2 zig)) (1/2) = Ok (grid 1 2 (fun i j => - zig i j / (4 * PI ^ 2))).
Proof.
  rewrite get_phi_np by lia. f_equal. apply grid_ext. intros i j Hi Hj.
  rewrite (rmult_ext 1 2 _ (inv_sym 1 2 0 1) (centered 1 2 zig) zig) by
    (auto; intros; unfold centered; rewrite gmean_zig; ring).
  rewrite rmult_zig by assumption. unfold inv_sym. cbn [is00 Nat.eqb andb].
  rewrite lam_12. pose proof PI_neq0. field. assumption.
Qed.

Lemma c56_counter : exists (ny nx : nat) (dx : R) (f g h : nat -> nat -> R),
  pm_fourier_laplace (Ok (grid ny nx f)) dx 1 = Ok (grid ny nx g) /\
  pm_fourier_laplace (Ok (grid ny nx g)) dx 1 = Ok (grid ny nx h) /\
  pm_fourier_laplace (Ok (grid ny nx f)) dx 2 <> Ok (grid ny nx h).
Proof.
  exists 1%nat, 2%nat, 2, zig, (fun i j => (- PI ^ 2) / 4 * zig i j), (fun i j => PI ^ 4 / 16 * zig i j).
  rewrite !pm_laplace_grid by lia. split; [|split].
  - f_equal. apply grid_ext. intros i j Hi Hj. rewrite rmult_zig by assumption. rewrite lam_12. field.
  - f_equal. apply grid_ext. intros i j Hi Hj.
    rewrite rmult_fscale, rmult_zig by assumption. rewrite lam_12. field.
  - intros E. pose proof (grid_ok_inj _ _ _ _ E 0%nat 0%nat ltac:(lia) ltac:(lia)) as H. cbn beta in H.
    rewrite rmult_zig in H by lia. rewrite lam_12 in H. cbn [zig] in H.
    pose proof PI_RGT_0. assert (0 < PI ^ 4) by (apply pow_lt; assumption). nra.
Qed.
