(** The viscous sinks of the diagnostics on stacks of frames. *)
From Coq Require Import List Arith ZArith Lia Bool Reals Lra Psatz.
From Verif Require Import Num NdArray NdFacts ModelGradients Spec GradFacts SumFacts LapFacts GradProps
  Cplx DftFacts SpecFourier ModelPoisson PoissonFacts PoissonProps ModelProperties ModelHW SpecHW HWFacts BalanceProps SpecPlasma RhsFacts
  ModelSpectral SpecDiag DiagFacts DiagProps InitFacts.
Import ListNotations.
Local Open Scope R_scope.

Lemma D_stack {A} {N : Num A} rest ny nx (F : list nat -> nat -> nat -> A) nu n dx : (0 < ny)%nat -> (0 < nx)%nat ->
  get_D (Ok (stack rest ny nx F)) nu n dx = Ok (stack rest ny nx (fun r i j => nmul nu (lap_iter (Z.to_nat n) ny nx dx (F r) i j))).
Proof. intros Hy Hx. unfold get_D, mul_. rewrite np_periodic_laplace_N_stack by assumption. apply lift2_stack_scl. Qed.

Section S.
Variables (rest : list nat) (ny nx : nat).
Hypothesis Hy : (0 < ny)%nat.
Hypothesis Hx : (0 < nx)%nat.
Implicit Types n p o Dn Dp : frames.

Lemma DE_stack n p Dn Dp :
  get_DE (Ok (stack rest ny nx n)) (Ok (stack rest ny nx p)) (Ok (stack rest ny nx Dn)) (Ok (stack rest ny nx Dp)) =
  Ok (build rest (fun r => gmean ny nx (fun i j => n r i j * Dn r i j - p r i j * Dp r i j))).
Proof. clear Hy Hx. unfold get_DE, mul_, sub_. rewrite !lift2_stack, mean2_stack. reflexivity. Qed.
Lemma DU_stack n o Dn Dp :
  get_DU (Ok (stack rest ny nx n)) (Ok (stack rest ny nx o)) (Ok (stack rest ny nx Dn)) (Ok (stack rest ny nx Dp)) =
  Ok (build rest (fun r => - gmean ny nx (fun i j => (n r i j - o r i j) * (Dn r i j - Dp r i j)))).
Proof. clear Hy Hx. unfold get_DU, mul_, sub_, neg_. rewrite !lift2_stack, mean2_stack, map1_build. reflexivity. Qed.
Lemma dE_stack (a b c : list nat -> R) : get_dE_dt (Ok (build rest a)) (Ok (build rest b)) (Ok (build rest c)) = Ok (build rest (fun r => a r - b r - c r)).
Proof. clear Hy Hx. unfold get_dE_dt, sub_. now rewrite !lift2_build. Qed.
Lemma dU_stack (a b : list nat -> R) : get_dU_dt (Ok (build rest a)) (Ok (build rest b)) = Ok (build rest (fun r => a r - b r)).
Proof. clear Hy Hx. unfold get_dU_dt, sub_. now rewrite !lift2_build. Qed.

Lemma gmean_inner f g : gmean ny nx (fun i j => f i j * g i j) = inner ny nx f g / (INR ny * INR nx).
Proof. reflexivity. Qed.
Lemma cells_pos : 0 < / (INR ny * INR nx).
Proof. apply Rinv_0_lt_compat, Rmult_lt_0_compat; apply lt_0_INR; assumption. Qed.

Lemma visc_mean N dx (f : nat -> nat -> R) s : 
  gmean ny nx (fun i j => f i j * (s * lap_iter N ny nx dx f i j)) = s * inner ny nx f (lap_iter N ny nx dx f) * / (INR ny * INR nx).
Proof.
  clear Hy Hx. rewrite gmean_inner. rewrite (inner_scal_r ny nx s). unfold Rdiv. ring.
Qed.
Lemma DU_visc n o s N dx :
  get_DU (Ok (stack rest ny nx n)) (Ok (stack rest ny nx o)) (get_D (Ok (stack rest ny nx n)) s (Z.of_nat N) dx)
    (get_D (Ok (stack rest ny nx o)) s (Z.of_nat N) dx) =
  Ok (build rest (fun r => let d := fun i j => n r i j - o r i j in
    - (s * inner ny nx d (lap_iter N ny nx dx d) * / (INR ny * INR nx)))).
Proof.
  rewrite !D_stack by assumption. rewrite DU_stack, Nat2Z.id. f_equal. apply build_ext. intros r _. cbv zeta. f_equal.
  rewrite <- visc_mean. apply gmean_ext. intros i j Hi Hj. cbn [nmul NumR].
  pose proof (lap_iter_lin N ny nx dx 1 (-1) (n r) (o r) i j) as L.
  replace (lap_iter N ny nx dx (fun i j => n r i j - o r i j) i j) with (lap_iter N ny nx dx (n r) i j - lap_iter N ny nx dx (o r) i j); [ring|].
  transitivity (lap_iter N ny nx dx (fadd (fscale 1 (n r)) (fscale (-1) (o r))) i j); [rewrite L; ring|].
  apply (lap_iter_ext ny nx dx Hy Hx N); try assumption. intros a b _ _. unfold fadd, fscale. ring.
Qed.

Lemma c104_DU n o nu N dx : dx <> 0 -> 0 <= nu ->
  let s := (-1) ^ (N + 1) * nu in
  exists g, get_DU (Ok (stack rest ny nx n)) (Ok (stack rest ny nx o)) (get_D (Ok (stack rest ny nx n)) s (Z.of_nat N) dx)
      (get_D (Ok (stack rest ny nx o)) s (Z.of_nat N) dx) = Ok (build rest g) /\
    forall r, inb rest r -> 0 <= g r /\
      ((1 <= N)%nat -> 0 < nu -> (g r = 0 <-> is_const ny nx (fun i j => n r i j - o r i j))).
Proof.
  intros Hd Hn s. eexists. split; [apply DU_visc|]. intros r _. cbv zeta. unfold s.
  destruct (hyper_form N ny nx dx (fun i j => n r i j - o r i j) Hy Hx Hd) as [H1 H2].
  set (q := inner ny nx _ _) in *. pose proof cells_pos as Hc. set (c := / (INR ny * INR nx)) in *.
  assert (E : - ((-1) ^ (N + 1) * nu * q * c) = - ((-1) ^ (N + 1) * q) * (nu * c)) by ring. rewrite E.
  split; [apply Rmult_le_pos; [lra|apply Rmult_le_pos; lra]|]. intros HN Hnu. rewrite <- (H2 HN).
  assert (0 < nu * c) by (apply Rmult_lt_0_compat; lra). split; intros H0; [|rewrite H0; ring].
  apply Rmult_integral in H0 as [H0|H0]; lra.
Qed.
Lemma c104_DU_unsigned n o nu N dx : dx <> 0 -> 0 <= nu -> Nat.Even N ->
  exists g, get_DU (Ok (stack rest ny nx n)) (Ok (stack rest ny nx o)) (get_D (Ok (stack rest ny nx n)) nu (Z.of_nat N) dx)
      (get_D (Ok (stack rest ny nx o)) nu (Z.of_nat N) dx) = Ok (build rest g) /\
    forall r, inb rest r -> g r <= 0 /\
      ((1 <= N)%nat -> 0 < nu -> (g r = 0 <-> is_const ny nx (fun i j => n r i j - o r i j))).
Proof.
  intros Hd Hn [e ->]. eexists. split; [apply DU_visc|]. intros r _. cbv zeta.
  destruct (hyper_form (2 * e) ny nx dx (fun i j => n r i j - o r i j) Hy Hx Hd) as [H1 H2].
  rewrite pow_add, pow_1_even, pow_1 in H1, H2.
  set (q := inner ny nx _ _) in *. pose proof cells_pos as Hc. set (c := / (INR ny * INR nx)) in *.
  assert (0 <= nu * c) by (apply Rmult_le_pos; lra). replace (nu * q * c) with (q * (nu * c)) by ring.
  assert (0 <= q * (nu * c)) by (apply Rmult_le_pos; lra). split; [lra|].
  intros HN Hnu. rewrite <- (H2 HN). assert (0 < nu * c) by (apply Rmult_lt_0_compat; lra).
  split; intros H4; [assert (E : q * (nu * c) = 0) by lra; apply Rmult_integral in E as [E|E]; lra|].
  assert (q = 0) as -> by lra. ring.
Qed.
Lemma DE_visc n p s N dx :
  get_DE (Ok (stack rest ny nx n)) (Ok (stack rest ny nx p)) (get_D (Ok (stack rest ny nx n)) s (Z.of_nat N) dx)
    (get_D (np_periodic_laplace (Ok (stack rest ny nx p)) dx) s (Z.of_nat N) dx) =
  Ok (build rest (fun r => (s * inner ny nx (n r) (lap_iter N ny nx dx (n r)) - s * inner ny nx (p r) (lap_iter (N + 1) ny nx dx (p r))) * / (INR ny * INR nx))).
Proof.
  rewrite np_periodic_laplace_stack by assumption. rewrite !D_stack by assumption. rewrite DE_stack, Nat2Z.id. f_equal. apply build_ext. intros r _.
  rewrite Rmult_minus_distr_r, <- visc_mean. rewrite <- (inner_scal_r ny nx s (p r)).
  unfold gmean, inner, Rdiv. rewrite <- Rmult_minus_distr_r. f_equal.
  rewrite <- gsum_sub. apply gsum_ext. intros i j _ _. cbn [nmul NumR]. rewrite lap_iter_add. reflexivity.
Qed.
Lemma c104_DE n p nu N dx : dx <> 0 -> 0 <= nu ->
  let s := (-1) ^ (N + 1) * nu in
  exists g, get_DE (Ok (stack rest ny nx n)) (Ok (stack rest ny nx p)) (get_D (Ok (stack rest ny nx n)) s (Z.of_nat N) dx)
      (get_D (np_periodic_laplace (Ok (stack rest ny nx p)) dx) s (Z.of_nat N) dx) = Ok (build rest g) /\
    forall r, inb rest r -> g r <= 0 /\
      ((1 <= N)%nat -> 0 < nu -> (g r = 0 <-> is_const ny nx (n r) /\ is_const ny nx (p r))).
Proof.
  intros Hd Hn s. eexists. split; [apply DE_visc|]. intros r _. cbv zeta. unfold s.
  destruct (hyper_form N ny nx dx (n r) Hy Hx Hd) as [H1 H2].
  destruct (hyper_form (N + 1) ny nx dx (p r) Hy Hx Hd) as [H3 H4].
  set (q := inner ny nx (n r) _) in *. set (u := inner ny nx (p r) _) in *. pose proof cells_pos as Hc. set (c := / (INR ny * INR nx)) in *.
  assert (T : (-1) ^ (N + 1 + 1) = - (-1) ^ (N + 1)) by (rewrite (pow_add _ (N + 1)); ring). rewrite T in H3, H4.
  set (e := (-1) ^ (N + 1)) in *.
  assert (E : (e * nu * q - e * nu * u) * c = (e * q + - e * u) * (nu * c)) by ring. rewrite E.
  split.
  - assert (0 <= nu * c) by (apply Rmult_le_pos; lra). assert (0 <= - (e * q + - e * u) * (nu * c)) by (apply Rmult_le_pos; lra). lra.
  - intros HN Hnu. rewrite <- (H2 HN), <- (H4 ltac:(lia)).
    assert (0 < nu * c) by (apply Rmult_lt_0_compat; lra). split; [intros H0|intros [-> ->]; ring].
    apply Rmult_integral in H0 as [H0|H0]; lra.
Qed.
End S.
