(** The potential of the model in binary64 with Fourier solvers of known
    accuracy. *)
From Coq Require Import List Arith ZArith Reals Lra Lia SpecFloat Bool Psatz.
From Verif Require Import Num NdArray Spec Cplx SpecFourier SpecHW SpecRound SpecRoundStep SpecRun64 ModelHW ModelSchemes RoundFacts RoundProps RoundCons
  ModelPoisson ModelPoisson64 SpecPoisson64 NdFacts SumFacts DftFacts PoissonFacts StepFacts RhsFacts RunHWWit PiFacts SymRound PoissonRound.
Import ListNotations.
Local Open Scope R_scope.
Local Existing Instance NumF64.

(** ** the mean of bounded numbers *)
Lemma nsum_bound n (f : nat -> f64) B : 0 <= B -> B <= W -> INR n <= 1000000000000 -> (forall k, (k < n)%nat -> finite64 (f k) /\ Rabs (fval (f k)) <= B) ->
  finite64 (nsum n f) /\ Rabs (fval (nsum n f)) <= (1 + 2 * INR n * uro) * (INR n * B).
Proof.
  intros B0 BW Hn H. destruct uro_small as [U1 U2]. induction n as [|n IH].
  - cbn [nsum INR]. split; [apply zero_finite|]. change (fval nzero) with 0. rewrite Rabs_R0. lra.
  - cbn [nsum]. rewrite nadd_F. rewrite S_INR in *. pose proof (pos_INR n) as Pn.
    destruct IH as [F V]; [lra|intros; apply H; lia|]. destruct (H n ltac:(lia)) as [F' V'].
    set (x := fval (nsum n f)) in *. set (y := fval (f n)) in *.
    assert (U3 : 0 <= INR n * uro <= 0.001) by (split; [apply Rmult_le_pos; lra|]; apply Rle_trans with (1000000000000 * / 1000000000000000); [apply Rmult_le_compat; lra|lra]).
    assert (S : Rabs (x + y) <= (1 + 2 * INR n * uro) * (INR n * B) + B) by (apply Rle_trans with (1 := Rabs_triang _ _); lra).
    assert (PB : 0 <= INR n * B <= 1000000000000 * B) by (split; [apply Rmult_le_pos; lra|apply Rmult_le_compat_r; lra]).
    assert (S2 : (1 + 2 * INR n * uro) * (INR n * B) <= 1.002 * (INR n * B)) by (apply Rmult_le_compat_r; lra).
    assert (HB : 1000000 * (1000000000000 * W) <= big).
    { apply huge. pose proof W_num. change (W ^ 4) with (W * (W * (W * (W * 1)))). assert (1000000 * 1000000 <= W * W) by (apply Rmult_le_compat; lra).
      rewrite Rmult_1_r. rewrite (Rmult_comm 1000000000000). apply Rmult_le_compat_l; [lra|].
      apply Rle_trans with (1 * (1000000 * 1000000)); [lra|]. apply Rmult_le_compat; lra. }
    destruct (add_ok _ _ F F') as [G E]. { change (2 ^ 1023) with big. fold x y. lra. }
    split; [exact G|]. fold x y in E. apply tri in E.
    assert (E2 : Rabs (fval (SFadd 53 1024 (nsum n f) (f n))) <= (1 + uro) * ((1 + 2 * INR n * uro) * (INR n * B) + B)).
    { apply Rle_trans with ((1 + uro) * Rabs (x + y)); [lra|]. apply Rmult_le_compat_l; lra. }
    apply Rle_trans with (1 := E2).
    replace ((1 + 2 * (INR n + 1) * uro) * ((INR n + 1) * B)) with ((1 + 2 * INR n * uro) * (INR n * B) + B + 2 * uro * (INR n * B) + 2 * (INR n * uro) * B + 2 * uro * B) by ring.
    assert (uro * ((1 + 2 * INR n * uro) * (INR n * B) + B) <= uro * (1.002 * (INR n * B) + B)) by (apply Rmult_le_compat_l; lra).
    assert (0 <= uro * (INR n * B)) by (apply Rmult_le_pos; lra). assert (0 <= uro * B) by (apply Rmult_le_pos; lra).
    assert (0 <= INR n * uro * B) by (apply Rmult_le_pos; lra). lra.
Qed.
Lemma mean_bound ny nx (f : nat -> nat -> f64) B : (0 < ny)%nat -> (0 < nx)%nat -> (Z.of_nat ny <= 1000000)%Z -> (Z.of_nat nx <= 1000000)%Z -> scale64 B ->
  bounded64 ny nx B f -> exists m, mean_all (Ok (grid ny nx f)) = sc m /\ finite64 m /\ Rabs (fval m) <= 1.01 * B.
Proof.
  intros Hy Hx Ly Lx HB Hf. destruct uro_small as [U1 U2]. pose proof (mag_pos _ _ (scale_mag _ HB)) as PB.
  destruct (scale_mag _ HB) as [BL BW]. rewrite pow_1 in BW. pose proof (N_size ny nx Hy Hx Ly Lx) as NS.
  assert (EN : INR (ny * nx) = INR ny * INR nx) by apply mult_INR.
  assert (D : forall k, (k < ny * nx)%nat -> finite64 (nth k (data (grid ny nx f)) nzero) /\ Rabs (fval (nth k (data (grid ny nx f)) nzero)) <= B).
  { intros k Hk. assert (I : In (nth k (data (grid ny nx f)) nzero) (data (grid ny nx f))) by (apply nth_In; rewrite length_data_grid; exact Hk).
    revert I. generalize (nth k (data (grid ny nx f)) nzero). intros v I. unfold grid, stack, build in I. cbn [data] in I. apply in_map_iff in I.
    destruct I as (ix & <- & Hin). apply in_indices, inb_stack in Hin. destruct Hin as (i & j & r & -> & Hj & Hi & _).
    cbn [nth skipn]. now apply Hf. }
  destruct (nsum_bound (ny * nx) (fun k => nth k (data (grid ny nx f)) nzero) B ltac:(lra) BW ltac:(rewrite EN; lra) D) as [F V].
  rewrite EN in V. set (N := INR ny * INR nx) in *.
  eexists. split; [unfold mean_all; cbn [bind]; rewrite length_data_grid; reflexivity|].
  destruct (ofZ_exact (Z.of_nat (ny * nx))) as [G E].
  { rewrite Nat2Z.inj_mul, Z.abs_eq by lia. apply Z.le_trans with (1000000 * 1000000)%Z; [apply Z.mul_le_mono_nonneg; lia|lia]. }
  rewrite <- INR_IZR_INZ, EN in E. fold N in E.
  set (x := nsum (ny * nx) (fun k => nth k (data (grid ny nx f)) nzero)) in *. set (y := SpecFloat.binary_normalize 53 1024 (Z.of_nat (ny * nx)) 0 false) in *.
  change (ndiv x (nofZ (Z.of_nat (ny * nx)))) with (SFdiv 53 1024 x y).
  assert (Q : Rabs (fval x / fval y) <= 1.002 * B).
  { rewrite E. unfold Rdiv. rewrite Rabs_mult, Rabs_inv, (Rabs_right N) by lra. apply Rmult_le_reg_r with N; [lra|]. rewrite Rmult_assoc, Rinv_l, Rmult_1_r by lra.
    apply Rle_trans with (1 := V). replace (1.002 * B * N) with (1.002 * (N * B)) by ring. apply Rmult_le_compat_r; [apply Rmult_le_pos; lra|].
    assert (N * uro <= 1000000000000 * / 1000000000000000) by (apply Rmult_le_compat; lra). lra. }
  pose proof (mag_huge 1 _ ltac:(lia) (scale_mag _ HB)) as HH. pose proof (mag_tiny 1 _ ltac:(lia) (scale_mag _ HB)) as HT.
  destruct (div_ok x y F G) as [A1 A2]; [rewrite E; lra|change (2 ^ 1023) with big; lra|].
  split; [exact A1|]. apply tri in A2. assert (uro * Rabs (fval x / fval y) <= uro * (1.002 * B)) by (apply Rmult_le_compat_l; lra).
  assert (uro * B <= / 1000000000000000 * B) by (apply Rmult_le_compat_r; lra). lra.
Qed.

(** ** centring costs next to nothing: the inverse Laplacian does not see
    constants, however inaccurate the mean *)
Lemma get_phi_solves ny nx dx solver h B P' d0 Lam P : poisson_solver (schemes h) = solver ->
  (0 < ny)%nat -> (0 < nx)%nat -> (Z.of_nat ny <= 1000000)%Z -> (Z.of_nat nx <= 1000000)%Z -> scale64 B -> 0 < fval dx ->
  0 <= Lam -> inv_bound ny nx (fval dx) Lam -> solves64 ny nx dx solver (2.02 * B) P' d0 ->
  let d := d0 + 2.02 * uro * (Lam * B) in Lam * B + d <= P ->
  solves64 ny nx dx (fun om dx => snd (hw_get_phi h om dx)) B P d.
Proof.
  intros Es Hy Hx Ly Lx HB Hdx HL0 HL Hs d HP om Hom. destruct uro_small as [U1 U2]. pose proof (mag_pos _ _ (scale_mag _ HB)) as PB.
  destruct (mean_bound ny nx om B Hy Hx Ly Lx HB Hom) as (m & Em & Fm & Vm).
  pose proof (mag_huge 1 _ ltac:(lia) (scale_mag _ HB)) as HH.
  set (cen := fun i j => nsub (om i j) m).
  assert (Cn : forall i j, (i < ny)%nat -> (j < nx)%nat -> finite64 (cen i j) /\ Rabs (fval (cen i j) - (fval (om i j) - fval m)) <= 2.02 * uro * B).
  { intros i j Hi Hj. destruct (Hom i j Hi Hj) as [Fo Vo]. unfold cen. rewrite nsub_F.
    assert (S : Rabs (fval (om i j) - fval m) <= 2.01 * B) by (unfold Rminus; apply Rle_trans with (1 := Rabs_triang _ _); rewrite Rabs_Ropp; lra).
    destruct (sub_ok _ _ Fo Fm) as [G E]; [change (2 ^ 1023) with big; lra|]. split; [exact G|].
    assert (uro * Rabs (fval (om i j) - fval m) <= uro * (2.01 * B)) by (apply Rmult_le_compat_l; lra).
    assert (0 <= uro * B) by (apply Rmult_le_pos; lra). lra. }
  assert (Bc : bounded64 ny nx (2.02 * B) cen).
  { intros i j Hi Hj. destruct (Cn i j Hi Hj) as [G E]. split; [exact G|]. destruct (Hom i j Hi Hj) as [Fo Vo]. apply tri in E.
    assert (S : Rabs (fval (om i j) - fval m) <= 2.01 * B) by (unfold Rminus; apply Rle_trans with (1 := Rabs_triang _ _); rewrite Rabs_Ropp; lra).
    assert (uro * B <= / 1000000000000000 * B) by (apply Rmult_le_compat_r; lra). lra. }
  destruct (Hs cen Bc) as (phi & E1 & _ & N1). exists phi.
  assert (X : forall i j, (i < ny)%nat -> (j < nx)%nat -> near (phi i j) (invlap ny nx (fval dx) (values om) i j) d).
  { intros i j Hi Hj. destruct (N1 i j Hi Hj) as [F V]. split; [exact F|].
    set (del := fun i j => fval (cen i j) - (fval (om i j) - fval m)).
    assert (I1 : invlap ny nx (fval dx) (values cen) i j = invlap ny nx (fval dx) (values om) i j + invlap ny nx (fval dx) del i j).
    { rewrite (invlap_ext ny nx (fval dx) (values cen) (fadd (fscale 1 (values om)) (fscale 1 (fadd (fscale (- fval m) (fconst 1)) (fscale 1 del))))).
      - rewrite !(invlap_lin ny nx (fval dx) Hy Hx (Rgt_not_eq _ _ Hdx)). rewrite (invlap_const ny nx (fval dx) 1 i j Hy Hx (Rgt_not_eq _ _ Hdx) Hi Hj). ring.
      - intros a b _ _. unfold values, fadd, fscale, fconst, del. ring. }
    assert (I2 : Rabs (invlap ny nx (fval dx) del i j) <= Lam * (2.02 * uro * B)) by (apply (HL del); [intros a b Ha Hb; apply (Cn a b Ha Hb)|assumption|assumption]).
    rewrite I1 in V. replace (fval (phi i j) - invlap ny nx (fval dx) (values om) i j) with
      ((fval (phi i j) - (invlap ny nx (fval dx) (values om) i j + invlap ny nx (fval dx) del i j)) + invlap ny nx (fval dx) del i j) by ring.
    apply Rle_trans with (1 := Rabs_triang _ _). unfold d. lra. }
  split; [|split; [|exact X]].
  - unfold hw_get_phi. cbv beta zeta. change (mean_all (Ok (grid ny nx om))) with (@mean_all f64 NumF64 (Ok (grid ny nx (om : nat -> nat -> f64)))). rewrite Em, Es. unfold sub_. rewrite (lift2_grid_scr nsub ny nx m om). match goal with |- context [mlift (solver ?x ?y)] => change (solver x y) with (solver (Ok (grid ny nx cen)) dx) end. rewrite E1. reflexivity.
  - intros i j Hi Hj. destruct (X i j Hi Hj) as [A1 A2]. split; [exact A1|]. apply tri in A2.
    pose proof (HL (values om) B ltac:(intros a b Ha Hb; apply (Hom a b Ha Hb)) i j Hi Hj). lra.
Qed.

(** the schemes of the model with the Fourier solvers of ModelPoisson64.v;
    model.py:34-50, 200 *)
Definition fft_schemes (nb : bool) (fft ifft : fft_fun) : backend f64 :=
  if nb then nb_schemes (nb_poisson64 fft ifft) else np_schemes (np_poisson64 fft ifft).

Lemma fft_size_mil nb n : fft_size nb n -> (Z.of_nat n <= 1000000)%Z.
Proof. unfold fft_size. destruct nb; lia. Qed.
Lemma inv_sum_low ny nx dx : (0 < ny)%nat -> (0 < nx)%nat -> (1 < ny * nx)%nat -> (Z.of_nat ny <= 1000000)%Z -> (Z.of_nat nx <= 1000000)%Z -> dx <> 0 ->
  dx ^ 2 / 21 <= inv_sum ny nx dx.
Proof.
  intros Hy Hx H1 Ly Lx Hd. rewrite inv_sum_wt by assumption. destruct (L0_size ny nx Hy Hx H1 Ly Lx) as [L _]. unfold Rdiv.
  apply Rmult_le_compat_l; [apply pow2_ge_0|exact L].
Qed.
Lemma fft_phi (nb : bool) ny nx eps fft ifft dx (h : hw f64) B P : (1 < ny * nx)%nat -> fft_size nb ny -> fft_size nb nx -> eps <= / 20000 ->
  fft_accurate ny nx eps fft -> ifft_accurate ny nx eps ifft -> finite64 dx -> scale64 (fval dx) -> scale64 B -> scale64 (2.02 * B) ->
  poisson_solver (schemes h) = (if nb then nb_poisson64 fft ifft else np_poisson64 fft ifft) ->
  let Lam := inv_sum ny nx (fval dx) in let d := phi_fft_err nb eps ny nx (fval dx) B in
  1.001 * (Lam * B) <= P ->
  0 <= d <= Lam * B / 1000 /\ solves64 ny nx dx (fun om dx => snd (hw_get_phi h om dx)) B P d.
Proof.
  intros H1 Sy Sx He HF HI Fd Hd HB HB2 Es Lam d HP.
  assert (Hy : (0 < ny)%nat) by (destruct ny; lia). assert (Hx : (0 < nx)%nat) by (destruct nx; lia).
  pose proof (fft_size_mil _ _ Sy) as Ly. pose proof (fft_size_mil _ _ Sx) as Lx. destruct uro_small as [U1 U2].
  pose proof (mag_pos _ _ (scale_mag _ HB)) as PB. pose proof (mag_pos _ _ (scale_mag _ Hd)) as Pd.
  assert (Zb : bounded64 ny nx B (fun _ _ => S754_zero false)) by (intros i j _ _; split; [apply zero_finite|cbn [fval]; rewrite Rabs_R0; lra]).
  pose proof (eps_pos ny nx eps B fft _ Hy Hx Ly Lx HB HF Zb) as E0.
  assert (LL : fval dx ^ 2 / 21 <= Lam) by (apply inv_sum_low; try assumption; lra).
  pose proof (pow2_ge_0 (fval dx)) as P2. assert (L0 : 0 <= Lam) by lra.
  assert (PL : 0 <= Lam * B) by (apply Rmult_le_pos; lra).
  assert (Q : 0 <= fval dx ^ 2 * B <= 21 * (Lam * B)).
  { split; [apply Rmult_le_pos; lra|]. rewrite <- Rmult_assoc. apply Rmult_le_compat_r; lra. }
  assert (D1 : 0 <= (11 * eps + 90 * uro) * (Lam * B) <= (11 / 20000 + / 1000000) * (Lam * B))
    by (split; [apply Rmult_le_pos; lra|apply Rmult_le_compat_r; lra]).
  assert (D : 0 <= d <= Lam * B / 1000) by (unfold d, phi_fft_err; fold Lam; destruct nb; lra).
  split; [exact D|].
  assert (S0 : exists P' d0, d0 + 2.02 * uro * (Lam * B) <= d /\ solves64 ny nx dx (poisson_solver (schemes h)) (2.02 * B) P' d0).
  { rewrite Es. destruct nb.
    - set (d0 := (5 * eps + 40 * uro) * (Lam * (2.02 * B)) + 2.1 / 100000000000000 * (fval dx ^ 2 * (2.02 * B))). exists (Lam * (2.02 * B) + d0), d0. assert (He' : eps <= 0.01) by lra.
      split; [|exact (nb_solves ny nx eps fft ifft dx (2.02 * B) _ H1 Sy Sx He' HF HI Fd Hd HB2 (Rle_refl _))]. unfold d0.
      unfold d, phi_fft_err. fold Lam.
      replace ((5 * eps + 40 * uro) * (Lam * (2.02 * B))) with ((10.1 * eps + 80.8 * uro) * (Lam * B)) by lra.
      assert (((10.1 * eps + 80.8 * uro) + 2.02 * uro) * (Lam * B) <= (11 * eps + 90 * uro) * (Lam * B)) by (apply Rmult_le_compat_r; lra). lra.
    - set (d0 := (5 * eps + 40 * uro) * (Lam * (2.02 * B))). exists (Lam * (2.02 * B) + d0), d0. assert (He' : eps <= 0.01) by lra.
      split; [|exact (np_solves ny nx eps fft ifft dx (2.02 * B) _ H1 Sy Sx He' HF HI Fd Hd HB2 (Rle_refl _))]. unfold d0.
      unfold d, phi_fft_err. fold Lam.
      replace ((5 * eps + 40 * uro) * (Lam * (2.02 * B))) with ((10.1 * eps + 80.8 * uro) * (Lam * B)) by lra.
      assert (((10.1 * eps + 80.8 * uro) + 2.02 * uro) * (Lam * B) <= (11 * eps + 90 * uro) * (Lam * B)) by (apply Rmult_le_compat_r; lra). lra. }
  destruct S0 as (P' & d0 & Hd0 & S0).
  pose proof (get_phi_solves ny nx dx _ h B P' d0 Lam P eq_refl Hy Hx Ly Lx HB Pd L0 (inv_sum_bound ny nx (fval dx) Hy Hx) S0 ltac:(lra)) as S1.
  intros om Hom. destruct (S1 om Hom) as (phi & A1 & A2 & A3). exists phi. split; [exact A1|]. split; [exact A2|].
  intros i j Hi Hj. eapply near_mono; [now apply A3|exact Hd0].
Qed.
Lemma mean_all_sc ny nx (f : nat -> nat -> f64) : exists m : f64, mean_all (Ok (grid ny nx f)) = sc m.
Proof. eexists. unfold mean_all. cbn [bind]. reflexivity. Qed.
Lemma fft_keeps (nb : bool) ny nx fft ifft dx (h : hw f64) : poisson_solver (schemes h) = (if nb then nb_poisson64 fft ifft else np_poisson64 fft ifft) ->
  keeps_shape ny nx dx (fun om dx => snd (hw_get_phi h om dx)).
Proof.
  intros Es om p. destruct (mean_all_sc ny nx om) as [m Em]. unfold hw_get_phi. cbv beta zeta.
  change (mean_all (Ok (grid ny nx om))) with (@mean_all f64 NumF64 (Ok (grid ny nx (om : nat -> nat -> f64)))). rewrite Em, Es. unfold sub_.
  rewrite (lift2_grid_scr nsub ny nx m om). intros E.
  assert (E2 : (if nb then nb_poisson64 fft ifft else np_poisson64 fft ifft) (Ok (grid ny nx (fun i j => nsub (om i j) m))) dx = Ok p).
  { revert E. destruct ((if nb then nb_poisson64 fft ifft else np_poisson64 fft ifft) (Ok (grid ny nx (fun i j => nsub (om i j) m))) dx);
      intros E; vm_compute in E; [injection E as <-; reflexivity|discriminate]. }
  destruct nb; [exact (nb_keeps _ _ _ _ _ _ _ E2)|exact (np_keeps _ _ _ _ _ _ _ E2)].
Qed.

(** the setting of C115 and C120 with the Fourier solvers: nothing is assumed
    about the solver but the accuracy of the transforms *)
Record fft_regime (nb : bool) (eps : R) (fft ifft : fft_fun) (ny nx : nat) (dx : f64) (N : nat) (c1 nu pb kap : f64) (zon : bool)
    (B P S : R) (dt : f64) : Prop := {
  fr_n : (1 < ny * nx)%nat; fr_y : fft_size nb ny; fr_x : fft_size nb nx;
  fr_eps : eps <= / 20000; fr_fft : fft_accurate ny nx eps fft; fr_ifft : ifft_accurate ny nx eps ifft;
  fr_dx : finite64 dx; fr_sdx : scale64 (fval dx);
  fr_c1 : finite64 c1; fr_nu : finite64 nu; fr_pb : finite64 pb; fr_kap : finite64 kap; fr_N : INR N <= 1000000;
  fr_B : scale64 B; fr_B2 : scale64 (2.02 * B); fr_P : scale64 P; fr_S : scale64 S;
  fr_g : forall k, (k < N)%nat -> scale64 ((8.01 / fval dx ^ 2) ^ k * B);
  fr_LB : 1.001 * (inv_sum ny nx (fval dx) * B) <= P; fr_size : size_n (par64 N c1 nu pb kap zon) (fval dx) P B <= S;
  fr_dt : finite64 dt; fr_sdt : scale64 (fval dt);
  fr_tL : fval dt * lip (par64 N c1 nu pb kap zon) (fval dx) (inv_sum ny nx (fval dx)) B <= 1 }.
Lemma fft_schemes_solver (nb : bool) fft ifft dx0 N c1 nu pb kap zon :
  poisson_solver (schemes (hw64 (fft_schemes nb fft ifft) dx0 N c1 nu pb kap zon)) = (if nb then nb_poisson64 fft ifft else np_poisson64 fft ifft).
Proof. destruct nb; reflexivity. Qed.
Lemma c121_regime nb eps fft ifft ny nx dx dx0 N c1 nu pb kap zon B P S dt : fft_regime nb eps fft ifft ny nx dx N c1 nu pb kap zon B P S dt ->
  regime ny nx dx (fft_schemes nb fft ifft) dx0 N c1 nu pb kap zon (inv_sum ny nx (fval dx)) B P S (phi_fft_err nb eps ny nx (fval dx) B) dt /\
  keeps_shape ny nx dx (fun om dx => snd (hw_get_phi (hw64 (fft_schemes nb fft ifft) dx0 N c1 nu pb kap zon) om dx)).
Proof.
  intros [H1 Sy Sx He HF HI Fd Hd Hc1 Hnu Hpb Hkap HN HB HB2 HP HS Hg HLB Hsz Hdt Hsdt HtL].
  assert (Hy : (0 < ny)%nat) by (destruct ny; lia). assert (Hx : (0 < nx)%nat) by (destruct nx; lia).
  pose proof (mag_pos _ _ (scale_mag _ HB)) as PB. pose proof (mag_pos _ _ (scale_mag _ Hd)) as Pd.
  assert (L0 : 0 <= inv_sum ny nx (fval dx)) by (apply inv_sum_pos; try assumption; lra).
  assert (0 <= inv_sum ny nx (fval dx) * B) by (apply Rmult_le_pos; lra).
  destruct (fft_phi nb ny nx eps fft ifft dx (hw64 (fft_schemes nb fft ifft) dx0 N c1 nu pb kap zon) B P H1 Sy Sx He HF HI Fd Hd HB HB2
    (fft_schemes_solver nb fft ifft dx0 N c1 nu pb kap zon) HLB) as [D Sv].
  split; [|apply (fft_keeps nb ny nx fft ifft), fft_schemes_solver].
  constructor; try assumption; try lra.
  - unfold fft_schemes. destruct nb; [exists (nb_poisson64 fft ifft); now right|exists (np_poisson64 fft ifft); now left].
  - intros _. apply nat_size; [assumption|]. now apply (fft_size_mil nb).
  - now apply inv_sum_bound.
Qed.
