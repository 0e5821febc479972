(** Values of the diagnostics on stacks of frames. *)
From Coq Require Import List Arith ZArith Lia Bool Reals Lra Psatz.
From Verif Require Import Num NdArray NdFacts ModelGradients Spec GradFacts SumFacts LapFacts GradProps
  Cplx DftFacts SpecFourier ModelPoisson PoissonFacts ModelProperties ModelHW SpecHW HWFacts BalanceProps
  ModelSpectral SpecDiag.
Import ListNotations.
Local Open Scope R_scope.

(** ** physical space *)
Section Phys.
Variables (rest : list nat) (ny nx : nat).
Hypothesis Hy : (0 < ny)%nat.
Hypothesis Hx : (0 < nx)%nat.
Implicit Types n p o : frames.

Lemma gamma_n_stack n p d : get_gamma_n (Ok (stack rest ny nx n)) (Ok (stack rest ny nx p)) d None =
  Ok (build rest (fun r => - gmean ny nx (fun i j => n r i j * cdy ny d (p r) i j))).
Proof.
  unfold get_gamma_n. rewrite np_grad_m2 by assumption. cbn [force bind]. unfold mul_.
  rewrite lift2_stack, mean2_stack. unfold neg_. rewrite map1_build. reflexivity.
Qed.
Lemma gamma_c_stack n p c d : get_gamma_c (Ok (stack rest ny nx n)) (Ok (stack rest ny nx p)) c d =
  Ok (build rest (fun r => c * gmean ny nx (fun i j => (n r i j - p r i j) ^ 2))).
Proof.
  clear Hy Hx. unfold get_gamma_c, sub_, powk, mul_. rewrite lift2_stack, map1_stack, mean2_stack. apply lift2_scl.
Qed.
Lemma energy_stack n p d : get_energy (Ok (stack rest ny nx n)) (Ok (stack rest ny nx p)) d =
  Ok (build rest (fun r => gmean ny nx (fun i j =>
     n r i j ^ 2 + (cdx nx d (p r) i j ^ 2 + cdy ny d (p r) i j ^ 2)) / 2)).
Proof.
  unfold get_energy. rewrite np_grad_m2, np_grad_m1 by assumption. cbn [force bind].
  unfold add_, powk, div_. rewrite !map1_stack, !lift2_stack, mean2_stack. apply lift2_scr.
Qed.
Lemma enstrophy_stack n o d : get_enstrophy (Ok (stack rest ny nx n)) (Ok (stack rest ny nx o)) d =
  Ok (build rest (fun r => gmean ny nx (fun i j => (n r i j - o r i j) ^ 2) / 2)).
Proof.
  clear Hy Hx. unfold get_enstrophy, sub_, powk, div_. rewrite lift2_stack, map1_stack, mean2_stack. apply lift2_scr.
Qed.
Lemma mean_keep_stack (F : frames) : mean_last2_keep (Ok (stack rest ny nx F)) =
  Ok (stack rest 1 1 (fun r _ _ => gmean ny nx (F r))).
Proof.
  clear Hy Hx. rewrite mean_last2_keep_eq. f_equal. apply stack_ext. intros r i j _ _ _. unfold gmean.
  cbn [ndiv nofZ NumR]. now rewrite gsum_nsum, IZR_mul_nat.
Qed.
Lemma bshape_11 : bshape (nx :: ny :: rest) (1 :: 1 :: rest)%nat = Some (nx :: ny :: rest)%nat.
Proof.
  clear Hy Hx. cbn [bshape]. rewrite bshape_refl.
  destruct (Nat.eqb_spec ny 1); destruct (Nat.eqb_spec nx 1); subst; cbn; rewrite ?Nat.eqb_refl; reflexivity.
Qed.
Lemma isub_11 (F : frames) (g : list nat -> R) :
  isub (Ok (stack rest ny nx F)) (Ok (stack rest 1 1 (fun r _ _ => g r))) =
  Ok (stack rest ny nx (fun r i j => F r i j - g r)).
Proof.
  clear Hy Hx. unfold isub, bc2. cbn [bind shape build stack]. rewrite bshape_11. cbn [bind shape build].
  destruct (list_eq_dec Nat.eq_dec (nx :: ny :: rest) (nx :: ny :: rest)); [|congruence].
  f_equal. unfold stack at 3. apply build_ext. intros ix Hi.
  pose proof (bidx_self _ _ Hi) as E. rewrite E.
  apply inb_stack in Hi as (i & j & r & -> & Hj & Hi & Hr).
  cbn [bidx]. rewrite !Nat.eqb_refl. cbn [skipn nth nsub NumR].
  change (build (nx :: ny :: rest) (fun ix => F (skipn 2 ix) (nth 1 ix 0%nat) (nth 0 ix 0%nat))) with (stack rest ny nx F).
  change (build (1 :: 1 :: rest)%nat (fun ix => g (skipn 2 ix))) with (stack rest 1 1 (fun r _ _ => g r)).
  rewrite get_stack by assumption. rewrite (bidx_self rest r Hr).
  rewrite (get_stack rest 1 1 (fun r _ _ => g r) r 0 0) by (auto; lia). reflexivity.
Qed.
Lemma enstrophy_phi_stack n p d : get_enstrophy_phi (Ok (stack rest ny nx n)) (Ok (stack rest ny nx p)) d =
  Ok (build rest (fun r => gmean ny nx (fun i j => (n r i j - lap5 ny nx d (p r) i j) ^ 2) / 2)).
Proof.
  unfold get_enstrophy_phi.
  rewrite np_periodic_laplace_N_stack by assumption. rewrite mean_keep_stack, isub_11.
  unfold sub_, powk, div_. rewrite lift2_stack, map1_stack, mean2_stack.
  rewrite lift2_scr. f_equal. apply build_ext. intros r Hr. cbn [ndiv NumR]. f_equal. apply mn_ext; auto.
  intros i j Hi Hj. change (Z.to_nat 1) with 1%nat. cbn [lap_iter npow nsub NumR]. unfold gmean.
  rewrite gsum_lap5 by assumption. unfold Rdiv. rewrite Rmult_0_l, Rminus_0_r. reflexivity.
Qed.
End Phys.

(** ** Fourier space *)
Lemma cast_build {A B} (f : A -> B) s g : cast f (Ok (build s g)) = Ok (build s (fun ix => f (g ix))).
Proof. unfold cast, bind, build. cbn [shape data]. now rewrite map_map. Qed.
Lemma cast_stack {A B} (f : A -> B) rest ny nx F :
  cast f (Ok (stack rest ny nx F)) = Ok (stack rest ny nx (fun r i j => f (F r i j))).
Proof. apply cast_build. Qed.

Lemma wavenumbers_tab n dx : wavenumbers n dx = map (fun z => IZR z * (1 / (INR n * dx)) * 2 * PI) (itab n).
Proof. reflexivity. Qed.
Lemma wavenumbers_length n dx : (0 < n)%nat -> length (wavenumbers n dx) = n.
Proof. intros. rewrite wavenumbers_tab, map_length. now apply itab_length. Qed.
Definition kk (n : nat) (dx : R) (i : nat) : R := 2 * PI * IZR (sfreq n i) / (INR n * dx).
Lemma wavenumbers_nth n dx i : (i < n)%nat -> nth i (wavenumbers n dx) 0 = kk n dx i.
Proof.
  intros Hi. rewrite wavenumbers_tab.
  rewrite (nth_indep _ 0 (IZR 0 * (1 / (INR n * dx)) * 2 * PI)) by (rewrite map_length, itab_length; lia).
  rewrite (map_nth (fun z => IZR z * (1 / (INR n * dx)) * 2 * PI)), itab_nth by exact Hi.
  unfold kk, Rdiv. ring.
Qed.

Section Fou.
Variables (rest : list nat) (ny nx : nat).
Hypothesis Hy : (0 < ny)%nat.
Hypothesis Hx : (0 < nx)%nat.

Definition hat (f : nat -> nat -> R) (k l : nat) : C := dft2 ny nx (cfield f) (Z.of_nat k) (Z.of_nat l).
Local Notation rt := (sqrt (INR ny * INR nx)).

Lemma rt_sq : rt * rt = INR ny * INR nx.
Proof. apply sqrt_sqrt. apply Rmult_le_pos; apply pos_INR. Qed.
Lemma rt_ne : rt <> 0.
Proof. intros E. pose proof rt_sq as H. rewrite E in H. pose proof (INR2_ne ny nx Hy Hx). lra. Qed.

Lemma fft2_stack (F : list nat -> nat -> nat -> C) :
  fft2 (Ok (stack rest ny nx F)) = Ok (stack rest ny nx (fun r k l => dft2 ny nx (F r) (Z.of_nat k) (Z.of_nat l))).
Proof.
  unfold fft2. cbn [bind]. unfold stack at 1. unfold build at 1. cbn [shape].
  rewrite pos_orb by assumption. f_equal. apply stack_ext. intros r i j Hr Hi Hj.
  apply dft2_ext. intros a b Ha Hb. now rewrite get_stack.
Qed.
Lemma fft2_ortho_stack (F : frames) :
  fft2_ortho (Ok (stack rest ny nx F)) = Ok (stack rest ny nx (fun r k l => Cdivr (hat (F r) k l) rt)).
Proof.
  unfold fft2_ortho, to_complex. rewrite cast_stack, fft2_stack. cbn [bind].
  unfold stack at 1 2 3. unfold build at 1 2 3. cbn [shape data]. rewrite map_map. reflexivity.
Qed.

Lemma Cnorm2_divr c s : s <> 0 -> Cnorm2 (Cdivr c s) = Cnorm2 c / (s * s).
Proof. intros. unfold Cnorm2, Cdivr. cbn. field. assumption. Qed.
Lemma Cnorm2_nonneg c : 0 <= Cnorm2 c.
Proof. unfold Cnorm2. nra. Qed.
Lemma Cabs_sq c : Cabs c ^ 2 = Cnorm2 c.
Proof. unfold Cabs. cbn [pow]. rewrite Rmult_1_r. apply sqrt_sqrt, Cnorm2_nonneg. Qed.
Lemma Cmul_conj c : Cmul c (Cconj c) = RtoC (Cnorm2 c).
Proof. apply C_eq; cbn; unfold Cnorm2; ring. Qed.
Lemma Cabs_RtoC r : 0 <= r -> Cabs (RtoC r) = r.
Proof.
  intros H. unfold Cabs, Cnorm2. cbn. replace (r * r + 0 * 0) with (r * r) by ring. now apply sqrt_square.
Qed.

Lemma mean_last_stack (F : frames) : mean_last (Ok (stack rest ny nx F)) =
  Ok (build (ny :: rest) (fun ix => rsum nx (fun l => F (tl ix) (nth 0 ix 0%nat) l) / INR nx)).
Proof.
  clear Hy Hx. unfold mean_last. cbn [bind]. unfold stack at 1. unfold build at 1. cbn [shape]. f_equal.
  apply build_ext. intros ix Hi. inversion Hi as [|k d r s Hk Hr]; subst. cbn [tl nth].
  cbn [ndiv nofZ NumR]. rewrite <- INR_IZR_INZ. f_equal. rewrite nsum_R. apply rsum_ext. intros j Hj.
  now rewrite get_stack.
Qed.
Lemma mean_last_build (G : nat -> list nat -> R) : mean_last (Ok (build (ny :: rest) (fun ix => G (nth 0 ix 0%nat) (tl ix)))) =
  Ok (build rest (fun r => rsum ny (fun k => G k r) / INR ny)).
Proof.
  clear Hy Hx. unfold mean_last. cbn [bind shape build]. f_equal. apply build_ext. intros r Hr.
  cbn [ndiv nofZ NumR]. rewrite <- INR_IZR_INZ. f_equal. rewrite nsum_R. apply rsum_ext. intros k Hk.
  rewrite get_build; [reflexivity|]. now constructor.
Qed.

(** spectral power *)
Lemma parseval_real f g :
  gcsum ny nx (fun k l => Cmul (hat f k l) (Cconj (hat g k l))) = RtoC (INR ny * INR nx * inner ny nx f g).
Proof.
  unfold hat. rewrite parseval by assumption.
  rewrite (gcsum_ext ny nx _ (cfield (fun i j => f i j * g i j))).
  - rewrite gcsum_cfield. apply C_eq; cbn; unfold inner; ring.
  - intros i j _ _. apply C_eq; cbn; ring.
Qed.
Lemma power_sum f : gsum ny nx (fun k l => Cnorm2 (hat f k l)) = INR ny * INR nx * inner ny nx f f.
Proof.
  pose proof (parseval_real f f) as E. apply (f_equal re) in E. rewrite gcsum_re in E. cbn [re RtoC] in E.
  rewrite <- E. apply gsum_ext. intros. rewrite Cmul_conj. reflexivity.
Qed.

Lemma energy_N_stack (F : frames) : get_energy_N_spectrally (Ok (stack rest ny nx F)) =
  Ok (build rest (fun r => gmean ny nx (fun i j => F r i j ^ 2) / 2)).
Proof.
  unfold get_energy_N_spectrally, get_energy_N_ky. rewrite fft2_ortho_stack. unfold np_abs, powk, div_.
  rewrite cast_stack, map1_stack, lift2_stack_scr, mean_last_stack.
  etransitivity; [exact (mean_last_build (fun k r => rsum nx (fun l => Cabs (Cdivr (hat (F r) k l) rt) ^ 2 / 2) / INR nx))|].
  f_equal. apply build_ext. intros r Hr.
  transitivity (gsum ny nx (fun k l => / (2 * (INR ny * INR nx)) * Cnorm2 (hat (F r) k l)) / (INR ny * INR nx)).
  - unfold gsum.
    transitivity (rsum ny (fun k => rsum nx (fun l => / (2 * (INR ny * INR nx)) * Cnorm2 (hat (F r) k l)) * / INR nx) / INR ny).
    + f_equal. apply rsum_ext. intros k Hk. unfold Rdiv at 1. f_equal.
      apply rsum_ext. intros l Hl. rewrite Cabs_sq, Cnorm2_divr by (apply rt_ne). rewrite rt_sq.
      field. split; apply not_0_INR; lia.
    + rewrite rsum_scal_r. field. split; apply not_0_INR; lia.
  - rewrite gsum_scal, power_sum. unfold gmean, inner.
    replace (gsum ny nx (fun i j => F r i j ^ 2)) with (gsum ny nx (fun i j => F r i j * F r i j))
      by (apply gsum_ext; intros; ring).
    field. split; apply not_0_INR; lia.
Qed.
End Fou.

(** ** broadcasting a wave-number table over a stack *)
Section Bc.
Context {A : Type} {Nm : Num A}.
Lemma bshape_nil_r s : bshape s [] = Some s.
Proof. now destruct s. Qed.
Lemma bshape_stack_grid rest ny nx : bshape (nx :: ny :: rest) [nx; ny] = Some (nx :: ny :: rest)%nat.
Proof. cbn [bshape]. rewrite bshape_nil_r, !Nat.eqb_refl. reflexivity. Qed.
Lemma bshape_grid_stack rest ny nx : bshape [nx; ny] (nx :: ny :: rest) = Some (nx :: ny :: rest)%nat.
Proof. cbn [bshape]. rewrite !Nat.eqb_refl. reflexivity. Qed.
Lemma bidx_one d i : (i < d)%nat -> (if (d =? 1)%nat then 0%nat else i) = i.
Proof. intros. destruct (Nat.eqb_spec d 1); lia. Qed.
Lemma lift2_stack_grid op rest ny nx (F : list nat -> nat -> nat -> A) (g : nat -> nat -> A) :
  lift2 op (Ok (stack rest ny nx F)) (Ok (grid ny nx g)) = Ok (stack rest ny nx (fun r i j => op (F r i j) (g i j))).
Proof.
  unfold lift2, bc2. cbn [bind]. unfold grid. cbn [shape stack build]. rewrite bshape_stack_grid. f_equal.
  unfold stack at 3. apply build_ext. intros ix Hi. pose proof (bidx_self _ _ Hi) as E. rewrite E.
  apply inb_stack in Hi as (i & j & r & -> & Hj & Hi & Hr). cbn [skipn nth bidx].
  rewrite !bidx_one by assumption.
  change (build (nx :: ny :: rest) (fun ix => F (skipn 2 ix) (nth 1 ix 0%nat) (nth 0 ix 0%nat))) with (stack rest ny nx F).
  rewrite (get_stack rest ny nx F) by assumption. f_equal.
  exact (at2_grid ny nx g i j Hi Hj).
Qed.
Lemma lift2_grid_stack op rest ny nx (F : list nat -> nat -> nat -> A) (g : nat -> nat -> A) :
  lift2 op (Ok (grid ny nx g)) (Ok (stack rest ny nx F)) = Ok (stack rest ny nx (fun r i j => op (g i j) (F r i j))).
Proof.
  unfold lift2, bc2. cbn [bind]. unfold grid. cbn [shape stack build]. rewrite bshape_grid_stack. f_equal.
  unfold stack at 3. apply build_ext. intros ix Hi. pose proof (bidx_self _ _ Hi) as E. rewrite E.
  apply inb_stack in Hi as (i & j & r & -> & Hj & Hi & Hr). cbn [skipn nth bidx].
  rewrite !bidx_one by assumption.
  change (build (nx :: ny :: rest) (fun ix => F (skipn 2 ix) (nth 1 ix 0%nat) (nth 0 ix 0%nat))) with (stack rest ny nx F).
  rewrite (get_stack rest ny nx F) by assumption. f_equal.
  exact (at2_grid ny nx g i j Hi Hj).
Qed.
Lemma bshape_bad rest ny nx : (2 <= ny)%nat -> (2 <= nx)%nat -> ny <> nx ->
  bshape (nx :: ny :: rest) [ny; nx] = None /\ bshape [ny; nx] (nx :: ny :: rest) = None.
Proof.
  intros H1 H2 Hn. cbn [bshape]. rewrite bshape_nil_r. split.
  - destruct (Nat.eqb_spec ny nx); [lia|]. destruct (Nat.eqb_spec ny 1); [lia|]. destruct (Nat.eqb_spec nx 1); [lia|]. reflexivity.
  - destruct (Nat.eqb_spec nx ny); [lia|]. destruct (Nat.eqb_spec nx 1); [lia|]. destruct (Nat.eqb_spec ny 1); [lia|]. reflexivity.
Qed.
End Bc.

Lemma ps_take_len m d : ps_len (PS None (Some (Z.of_nat m)) 1) d = Nat.min m d.
Proof.
  unfold ps_len, ps_start, ps_stop, clip. cbn [ps_lo ps_hi ps_step]. rewrite Nat.div_1_r.
  destruct (Z.ltb_spec (Z.of_nat m) 0); destruct (Z.ltb_spec 0 0); lia.
Qed.
Lemma ps_take_start m d : ps_start (PS None (Some (Z.of_nat m)) 1) d = 0%nat.
Proof. unfold ps_start, clip. cbn [ps_lo]. destruct (Z.ltb_spec 0 0); lia. Qed.

(** ** square grids: flux and kinetic energy *)
Section Sq.
Variables (rest : list nat) (n : nat).
Hypothesis Hn : (0 < n)%nat.
Local Notation hat := (hat n n).
Local Notation rt := (sqrt (INR n * INR n)).
Lemma rt_n : rt = INR n.
Proof. apply sqrt_square. apply pos_INR. Qed.
Lemma Hn0 : INR n <> 0.
Proof. apply not_0_INR. lia. Qed.

Lemma mesh1 dx : Ok (meshgrid_1 (wavenumbers n dx) (wavenumbers n dx)) = Ok (grid n n (fun i j => kk n dx i)).
Proof.
  unfold meshgrid_1. rewrite wavenumbers_length by assumption. f_equal. apply grid_ext. intros. now rewrite wavenumbers_nth.
Qed.
Lemma mesh0 dx : Ok (meshgrid_0 (wavenumbers n dx) (wavenumbers n dx)) = Ok (grid n n (fun i j => kk n dx j)).
Proof.
  unfold meshgrid_0. rewrite wavenumbers_length by assumption. f_equal. apply grid_ext. intros. now rewrite wavenumbers_nth.
Qed.

(** one row of the flux spectrum *)
Definition fluxrow (dx : R) (f g : nat -> nat -> R) (k : nat) : R :=
  rsum n (fun l => re (Cmul (Cmul (Cmul (hat f k l) (mkC 0 1)) (RtoC (kk n dx k))) (Cconj (hat g k l)))) / (INR n * INR n * INR n).

Lemma flux_row_eq dx f g k l :
  re (Cmul (Cmul (Cmul (Cdivr (hat f k l) rt) (mkC 0 1)) (RtoC (kk n dx k))) (Cconj (Cdivr (hat g k l) rt))) =
  re (Cmul (Cmul (Cmul (hat f k l) (mkC 0 1)) (RtoC (kk n dx k))) (Cconj (hat g k l))) * / (INR n * INR n).
Proof. rewrite rt_n. cbn. field. exact Hn0. Qed.

Lemma take_last_build m d (G : nat -> list nat -> R) : (m <= d)%nat ->
  take_last m (Ok (build (d :: rest) (fun ix => G (nth 0 ix 0%nat) (tl ix)))) =
  Ok (build (m :: rest) (fun ix => G (nth 0 ix 0%nat) (tl ix))).
Proof.
  clear Hn. intros Hm. unfold take_last. cbn [bind]. cbn [shape build]. f_equal.
  change (mkArr (d :: rest) (map (fun ix => G (nth 0 ix 0%nat) (tl ix)) (indices (d :: rest))))
    with (build (d :: rest) (fun ix => G (nth 0 ix 0%nat) (tl ix))).
  rewrite slice_build by (cbn; lia). cbn [upd nth ps_step]. rewrite ps_take_len.
  replace (Nat.min m d) with m by lia. apply build_ext. intros ix Hi.
  inversion Hi as [|k d' r s Hk Hr]; subst. cbn [upd nth tl]. rewrite ps_take_start. f_equal. lia.
Qed.

Lemma gamma_ky_stack dx (F P : frames) :
  exists ky, get_gamma_n_ky (Ok (stack rest n n F)) (Ok (stack rest n n P)) dx =
  Ok (ky, build ((n / 2)%nat :: rest) (fun ix => fluxrow dx (F (tl ix)) (P (tl ix)) (nth 0 ix 0%nat)))
  /\ length ky = (n / 2)%nat /\ (forall i, (i < n / 2)%nat -> nth i ky 0 = kk n dx i).
Proof.
  unfold get_gamma_n_ky. cbn [bind]. unfold stack at 1. unfold build at 1. cbn [shape].
  rewrite !fft2_ortho_stack by assumption. rewrite mesh1. unfold np_conj, mul_.
  rewrite lift2_stack_scr, map1_stack.
  replace (cast RtoC (Ok (grid n n (fun i _ => kk n dx i)))) with (Ok (grid n n (fun i _ => RtoC (kk n dx i))))
    by (symmetry; apply cast_build).
  rewrite lift2_stack_grid, lift2_stack. unfold np_real. rewrite cast_stack, mean_last_stack.
  assert (Hh : (n / 2 <= n)%nat) by (apply Nat.div_le_upper_bound; lia).
  eexists. split.
  - pose proof (take_last_build (n / 2) n (fun k r => rsum n (fun l => re (Cmul (Cmul (Cmul (Cdivr (hat (F r) k l) rt)
      (mkC 0 1)) (RtoC (kk n dx k))) (Cconj (Cdivr (hat (P r) k l) rt)))) / INR n) Hh) as ET.
    etransitivity; [apply f_equal2; [exact ET|reflexivity]|]. clear ET. cbn [bind]. f_equal. f_equal. apply build_ext. intros ix Hi. unfold fluxrow.
    replace (rsum n _) with (rsum n (fun l => re (Cmul (Cmul (Cmul (hat (F (tl ix)) (nth 0 ix 0%nat) l) (mkC 0 1))
      (RtoC (kk n dx (nth 0 ix 0%nat)))) (Cconj (hat (P (tl ix)) (nth 0 ix 0%nat) l)))) * / (INR n * INR n)).
    + field. exact Hn0.
    + rewrite <- rsum_scal_r. apply rsum_ext. intros l Hl. symmetry. apply flux_row_eq.
  - rewrite wavenumbers_length by assumption. replace (Nat.min (n / 2) n) with (n / 2)%nat by lia. split.
    + now rewrite map_length, seq_length.
    + intros i Hi. rewrite (nth_map_seq 0) by exact Hi.
      assert (E : meshgrid_1 (wavenumbers n dx) (wavenumbers n dx) = grid n n (fun i j => kk n dx i))
        by (pose proof (mesh1 dx); congruence). rewrite E. rewrite at2_grid by lia; reflexivity.
Qed.

Lemma gamma_spec_stack dx (F P : frames) :
  get_gamma_n_spectrally (Ok (stack rest n n F)) (Ok (stack rest n n P)) dx =
  Ok (build rest (fun r => rsum (n / 2)%nat (fluxrow dx (F r) (P r)) / INR (n / 2)%nat)).
Proof.
  unfold get_gamma_n_spectrally. destruct (gamma_ky_stack dx F P) as (ky & E & _). rewrite E. cbn [bind snd].
  etransitivity; [exact (mean_last_build rest (n / 2)%nat (fun k r => fluxrow dx (F r) (P r) k))|]. reflexivity.
Qed.

Lemma energy_V_stack dx (P : frames) :
  get_energy_V_spectrally (Ok (stack rest n n P)) dx =
  Ok (build rest (fun r => gsum n n (fun k l => (kk n dx k ^ 2 + kk n dx l ^ 2) * Cnorm2 (hat (P r) k l)) / (2 * (INR n * INR n) * (INR n * INR n)))).
Proof.
  unfold get_energy_V_spectrally, get_energy_V_ky. cbn [bind]. unfold stack at 1. unfold build at 1. cbn [shape].
  rewrite fft2_ortho_stack by assumption. rewrite mesh1, mesh0. unfold np_conj, mul_, add_, powk, np_abs, div_.
  rewrite !map1_grid, lift2_grid. 
  replace (cast RtoC (Ok (grid n n (fun i j => nadd (npow (kk n dx i) 2) (npow (kk n dx j) 2)))))
    with (Ok (grid n n (fun i j => RtoC (kk n dx i ^ 2 + kk n dx j ^ 2))))
    by (symmetry; apply cast_build).
  rewrite map1_stack, lift2_grid_stack, lift2_stack, cast_stack, lift2_stack_scr, mean_last_stack.
  etransitivity; [exact (mean_last_build rest n (fun k r => rsum n (fun l => Cabs (Cmul (Cmul (RtoC (kk n dx k ^ 2 + kk n dx l ^ 2))
     (Cdivr (hat (P r) k l) rt)) (Cconj (Cdivr (hat (P r) k l) rt))) / 2) / INR n))|].
  f_equal. apply build_ext. intros r Hr. pose proof Hn0 as H0.
  transitivity (rsum n (fun k => rsum n (fun l => (kk n dx k ^ 2 + kk n dx l ^ 2) * Cnorm2 (hat (P r) k l)) * / (2 * (INR n * INR n) * INR n)) / INR n).
  - f_equal. apply rsum_ext. intros k Hk.
    rewrite <- rsum_scal_r. unfold Rdiv at 1. rewrite <- rsum_scal_r. apply rsum_ext. intros l Hl.
    replace (Cmul (Cmul (RtoC (kk n dx k ^ 2 + kk n dx l ^ 2)) (Cdivr (hat (P r) k l) rt)) (Cconj (Cdivr (hat (P r) k l) rt)))
      with (RtoC ((kk n dx k ^ 2 + kk n dx l ^ 2) * (Cnorm2 (hat (P r) k l) / (rt * rt)))).
    + rewrite Cabs_RtoC.
      * rewrite rt_n. field. exact H0.
      * rewrite rt_n. apply Rmult_le_pos; [nra|]. unfold Rdiv. apply Rmult_le_pos; [apply Cnorm2_nonneg|].
        apply Rlt_le, Rinv_0_lt_compat. pose proof (INR_pos n Hn). nra.
    + rewrite rt_n. apply C_eq; cbn; unfold Cnorm2; field; exact H0.
  - rewrite rsum_scal_r. unfold gsum. field. exact H0.
Qed.
End Sq.
