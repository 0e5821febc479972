(** The benchmark's comparison of kernels. *)
From Coq Require Import Arith ZArith Bool Reals String List Lia Lra.
From Verif Require Import Num NdArray NdFacts Spec GradFacts SumFacts ModelGradients ModelArakawa ModelPoisson ArakawaFacts ArakawaProps PoissonProps
  InitFacts DiagProps SpecHW HWFacts RunHWWit PoissonFacts DftFacts ModelBench SpecBench.
Import ListNotations.
Local Open Scope R_scope.
Local Open Scope string_scope.

Lemma combine_same {X Y Z} (f : X -> Y) (g : X -> Z) l : combine (map f l) (map g l) = map (fun x => (f x, g x)) l.
Proof. induction l as [|x l IH]; [reflexivity|]. cbn. now rewrite IH. Qed.
Lemma isclose_spec a b : isclose a b = true <-> Rabs (a - b) <= / 10 ^ 8 + / 10 ^ 5 * Rabs b.
Proof. unfold isclose. destruct (Rle_dec _ _); split; intros; auto; try discriminate; contradiction. Qed.
Lemma allclose_grid n f g : exists b, allclose (grid n n f) (grid n n g) = Ok b /\ (b = true <-> agree_within n f g).
Proof.
  unfold allclose. cbn [grid stack build shape]. destruct (list_eq_dec Nat.eq_dec _ _) as [_|N]; [|now contradiction N].
  eexists. split; [reflexivity|]. unfold grid, stack, build. cbn [data]. rewrite combine_same, forallb_forall. split.
  - intros H i j Hi Hj. apply isclose_spec. apply (H (f i j, g i j)). apply in_map_iff. exists [j; i]. split; [reflexivity|].
    apply in_indices. repeat constructor; assumption.
  - intros H [a b] Hin. apply in_map_iff in Hin. destruct Hin as (ix & E & Hix). apply in_indices in Hix.
    destruct (inb_stack [] n n ix Hix) as (i & j & r & -> & Hj & Hi & Hr). cbn [nth skipn] in E. injection E as <- <-.
    apply isclose_spec. cbn [fst snd]. apply H; assumption.
Qed.
Lemma agree_refl n f : agree_within n f f.
Proof. intros i j _ _. rewrite Rminus_diag_eq, Rabs_R0 by reflexivity. pose proof (Rabs_pos (f i j)). lra. Qed.
Lemma allclose_refl n f : allclose (grid n n f) (grid n n f) = Ok true.
Proof. destruct (allclose_grid n f f) as [b [E H]]. rewrite E. f_equal. apply H. apply agree_refl. Qed.

(** the gradient of numpy *)
Lemma intrinsic_grid ny nx dx f : (0 < ny)%nat -> (0 < nx)%nat ->
  np_instrinsic_gradient (Ok (grid ny nx f)) dx = Ok (grid ny nx (cdy ny 1 f)).
Proof.
  intros Hy Hx. unfold np_instrinsic_gradient, numpy_gradient_2. rewrite pad_all_grid by assumption. cbn [bind].
  cbn [grid stack build shape]. replace (1 + ny + 1 <? 2)%nat with false by (symmetry; apply Nat.ltb_ge; lia).
  rewrite slf2_grid by (cbn; lia). rewrite !s_mid_len. f_equal. apply grid_ext. intros i j Hi Hj. rewrite !s_mid_idx.
  replace (i + 1 =? 0)%nat with false by (symmetry; apply Nat.eqb_neq; lia).
  replace (i + 1 =? 1 + ny + 1 - 1)%nat with false by (symmetry; apply Nat.eqb_neq; lia).
  change (build [(1 + nx + 1)%nat; (1 + ny + 1)%nat] (fun ix => f (wrap ny 1 (nth 1 ix 0%nat)) (wrap nx 1 (nth 0 ix 0%nat))))
    with (grid (1 + ny + 1) (1 + nx + 1) (fun i j => f (wrap ny 1 i) (wrap nx 1 j))).
  rewrite !at2_grid by lia. replace (i + 1 - 1)%nat with i by lia. replace (i + 1 + 1)%nat with (i + 2)%nat by lia.
  rewrite (wrap1_1 nx j), wrap1_2, wrap1_0 by assumption. unfold cdy. cbn [ndiv nsub nmul nofZ NumR]. f_equal. lra.
Qed.


Lemma gradient_check junk dx n f b : (0 < n)%nat ->
  exists r, group_check junk dx "periodic_gradient" (grid n n f, b) = Ok r /\ (r = true <-> agree_within n (cdy n dx f) (cdy n 1 f)).
Proof.
  intros Hn. unfold group_check. cbn [get_function_defs String.eqb Ascii.eqb Bool.eqb check check_all fst].
  unfold get_function_defs. cbn [String.eqb Ascii.eqb Bool.eqb check check_all fst].
  rewrite nb_np_grad by tauto. rewrite np_grad_pos by tauto. cbn [Z.eqb some_ bind]. rewrite intrinsic_grid by assumption. cbn [bind].
  destruct (allclose_grid n (cdy n dx f) (cdy n 1 f)) as [b0 [E H]]. rewrite E. cbn [bind]. destruct b0.
  - rewrite allclose_refl. cbn [bind]. exists true. tauto.
  - exists false. tauto.
Qed.
Lemma laplace_check junk dx n f b : (0 < n)%nat -> group_check junk dx "periodic_laplace" (grid n n f, b) = Ok true.
Proof.
  intros Hn. unfold group_check, get_function_defs. cbn [String.eqb Ascii.eqb Bool.eqb check check_all fst].
  rewrite np_periodic_laplace_grid, nb_periodic_laplace_grid by assumption. cbn [bind]. now rewrite allclose_refl.
Qed.
Lemma bracket_check junk dx n f g : (0 < n)%nat -> dx <> 0 -> group_check junk dx "poisson_bracket" (grid n n f, grid n n g) = Ok true.
Proof.
  intros Hn Hd. unfold group_check, get_function_defs. cbn [String.eqb Ascii.eqb Bool.eqb check check_all fst snd].
  destruct (c07_exact junk (grid n n f) (grid n n g) dx) as [E1 E2]; try apply wf_build; try reflexivity; [exact Hd|].
  destruct (c07_bits R NumR (grid n n f) (grid n n g) dx) as [E3 E4]; try apply wf_build; try reflexivity.
  rewrite E1, E2, E3, E4, np_periodic_arakawa_vec_grid by assumption. cbn [bind]. now rewrite !allclose_refl.
Qed.
Lemma poisson_check junk dx n f b : (0 < n)%nat -> (Z.of_nat n <= 65536)%Z ->
  exists r, group_check junk dx "poisson_solvers" (grid n n f, b) = Ok r /\
   (Rabs (gmean n n f) * dx ^ 2 <= 10 ^ 6 -> r = true).
Proof.
  intros Hn Hb. unfold group_check, get_function_defs. cbn [String.eqb Ascii.eqb Bool.eqb check check_all fst snd].
  destruct (c13_diff n n dx f) as (u & E1 & E2); try assumption. rewrite E1, E2. cbn [bind].
  destruct (allclose_grid n u (fun i j => u i j + gmean n n f * dx ^ 2 / 10 ^ 14)) as [b0 [E H]]. rewrite E. cbn [bind].
  exists b0. split; [destruct b0; reflexivity|]. intros L. apply H. intros i j _ _.
  replace (u i j - (u i j + gmean n n f * dx ^ 2 / 10 ^ 14)) with (- (gmean n n f * (dx ^ 2 / 10 ^ 14))) by (unfold Rdiv; ring).
  rewrite Rabs_Ropp, Rabs_mult. rewrite (Rabs_pos_eq (dx ^ 2 / 10 ^ 14)).
  2:{ pose proof (pow2_ge_0 dx). unfold Rdiv. apply Rmult_le_pos; lra. }
  pose proof (Rabs_pos (u i j + gmean n n f * dx ^ 2 / 10 ^ 14)). lra.
Qed.
(** a constant array: the solvers differ by the constant *)
Lemma poisson_const junk dx n a b : (0 < n)%nat -> (Z.of_nat n <= 65536)%Z -> 10 ^ 6 * (1 + / 10 ^ 4) < Rabs a * dx ^ 2 ->
  group_check junk dx "poisson_solvers" (grid n n (fun _ _ => a), b) = Ok false.
Proof.
  intros Hn Hb L. unfold group_check, get_function_defs. cbn [String.eqb Ascii.eqb Bool.eqb check check_all fst snd].
  assert (Hd : dx <> 0) by (intros ->; rewrite pow_i, Rmult_0_r in L by lia; lra).
  assert (Z : np_fourier_poisson_double (Ok (grid n n (fun _ _ => a))) dx 1 = Ok (grid n n (fun _ _ => 0))).
  { rewrite np_solver_grid by assumption. f_equal. apply grid_ext. intros i j Hi Hj. change (dc0 1) with 0.
    rewrite Rmult_comm, <- invlap_rmult by assumption. now apply invlap_const. }
  destruct (c13_diff n n dx (fun _ _ => a)) as (u & E1 & E2); try assumption. rewrite E1 in Z |- *. rewrite E2. cbn [bind].
  rewrite gmean_const in * by assumption.
  destruct (allclose_grid n u (fun i j => u i j + a * dx ^ 2 / 10 ^ 14)) as [b0 [E H]]. rewrite E. cbn [bind]. destruct b0; [exfalso|reflexivity].
  assert (U : u 0%nat 0%nat = 0).
  { assert (G : at2 (grid n n (fun _ _ => 0)) 0 0 = at2 (grid n n u) 0 0) by congruence. rewrite !at2_grid in G by assumption. now rewrite <- G. }
  destruct H as [H _]. specialize (H eq_refl 0%nat 0%nat Hn Hn). cbv beta in H. rewrite U in H.
  replace (0 - (0 + a * dx ^ 2 / 10 ^ 14)) with (- (a * (dx ^ 2 / 10 ^ 14))) in H by (unfold Rdiv; ring).
  replace (0 + a * dx ^ 2 / 10 ^ 14) with (a * (dx ^ 2 / 10 ^ 14)) in H by (unfold Rdiv; ring).
  rewrite Rabs_Ropp, Rabs_mult, (Rabs_pos_eq (dx ^ 2 / 10 ^ 14)) in H.
  2:{ pose proof (pow2_ge_0 dx). unfold Rdiv. apply Rmult_le_pos; lra. }
  lra.
Qed.

(** ** Inputs of the benchmark *)
Lemma small_cdy n dx f i j : small_field f -> 0 < dx -> Rabs (cdy n dx f i j) * dx <= 1 / 2000.
Proof.
  intros S Hd. unfold cdy. cbn [ndiv nsub nmul nofZ NumR]. rewrite <- (Rabs_pos_eq dx) at 2 by lra. rewrite <- Rabs_mult.
  replace ((f (sh n i 1) j - f (sh n i (-1)) j) / (2 * dx) * dx) with ((f (sh n i 1) j - f (sh n i (-1)) j) / 2) by (field; lra).
  pose proof (S (sh n i 1) j). pose proof (S (sh n i (-1)) j). apply Rabs_le. lra.
Qed.
Lemma cdy_one n dx f i j : 0 < dx -> cdy n 1 f i j = cdy n dx f i j * dx.
Proof. intros Hd. unfold cdy. cbn [ndiv nsub nmul nofZ NumR]. field. lra. Qed.
Lemma gradient_passes n dx f : 0 < dx -> small_field f -> Rabs (1 - dx) <= 3 / 10 ^ 5 * dx -> agree_within n (cdy n dx f) (cdy n 1 f).
Proof.
  intros Hd S L i j _ _. rewrite (cdy_one n dx) by assumption. pose proof (small_cdy n dx f i j S Hd) as B.
  set (g := cdy n dx f i j) in *. replace (g - g * dx) with (g * (1 - dx)) by ring. rewrite !Rabs_mult, (Rabs_pos_eq dx) by lra.
  pose proof (Rabs_pos g). pose proof (Rabs_pos (1 - dx)).
  assert (Rabs g * Rabs (1 - dx) <= Rabs g * (3 / 10 ^ 5 * dx)) by (apply Rmult_le_compat_l; assumption). lra.
Qed.
Lemma gradient_fails n dx : (3 <= n)%nat -> 0 < dx -> 3 / 10 ^ 5 * dx < Rabs (1 - dx) ->
  exists f, small_field f /\ ~ agree_within n (cdy n dx f) (cdy n 1 f).
Proof.
  intros Hn Hd L. set (e := Rabs (1 - dx)) in *.
  set (v := (1 / 1000 + 2 * dx / (10 ^ 8 * (e - / 10 ^ 5 * dx))) / 2).
  assert (D : 0 < e - / 10 ^ 5 * dx) by lra.
  assert (W : 0 < 2 * dx / (10 ^ 8 * (e - / 10 ^ 5 * dx)) < 1 / 1000).
  { split; [apply Rdiv_lt_0_compat; lra|]. apply (Rmult_lt_reg_r (10 ^ 8 * (e - / 10 ^ 5 * dx))); [lra|].
    unfold Rdiv. rewrite Rmult_assoc, Rinv_l by lra. lra. }
  assert (V : 0 < v < 1 / 1000) by (unfold v; lra).
  assert (V2 : 2 * dx / 10 ^ 8 < v * (e - / 10 ^ 5 * dx)).
  { assert (Q : 2 * dx / (10 ^ 8 * (e - / 10 ^ 5 * dx)) < v) by (unfold v; lra).
    apply (Rmult_lt_compat_r (e - / 10 ^ 5 * dx)) in Q; [|lra].
    replace (2 * dx / (10 ^ 8 * (e - / 10 ^ 5 * dx)) * (e - / 10 ^ 5 * dx)) with (2 * dx / 10 ^ 8) in Q by (field; lra). exact Q. }
  exists (fun i _ => if (i =? 2)%nat then v else 0). split.
  - intros i j. destruct (i =? 2)%nat; lra.
  - intros A. specialize (A 1%nat 0%nat ltac:(lia) ltac:(lia)). rewrite (cdy_one n dx) in A by assumption.
    assert (G : cdy n dx (fun i _ => if (i =? 2)%nat then v else 0) 1 0 = v / (2 * dx)).
    { unfold cdy. cbn [ndiv nsub nmul nofZ NumR].
      assert (E1 : sh n 1 1 = 2%nat) by (unfold sh; replace (Z.of_nat 1 + 1)%Z with (Z.of_nat 2) by lia; apply pidx_small; lia).
      assert (E2 : sh n 1 (-1) = 0%nat) by (unfold sh; replace (Z.of_nat 1 + -1)%Z with (Z.of_nat 0) by lia; apply pidx_small; lia).
      rewrite E1, E2. cbn [Nat.eqb]. f_equal. ring. }
    rewrite G in A. replace (v / (2 * dx) - v / (2 * dx) * dx) with (v / (2 * dx) * (1 - dx)) in A by (field; lra).
    rewrite !Rabs_mult in A. fold e in A. rewrite (Rabs_pos_eq dx) in A by lra.
    rewrite (Rabs_pos_eq (v / (2 * dx))) in A by (apply Rlt_le, Rdiv_lt_0_compat; lra).
    apply (Rmult_le_compat_r (2 * dx)) in A; [|lra].
    replace (v / (2 * dx) * e * (2 * dx)) with (v * e) in A by (field; lra).
    replace ((/ 10 ^ 8 + / 10 ^ 5 * (v / (2 * dx) * dx)) * (2 * dx)) with (2 * dx / 10 ^ 8 + / 10 ^ 5 * v * dx) in A by (field; lra). lra.
Qed.
Lemma small_mean n f : (0 < n)%nat -> small_field f -> Rabs (gmean n n f) <= 1 / 1000.
Proof.
  intros Hn S. assert (A : 0 <= gmean n n f) by (apply gmean_nonneg; auto; intros; apply S).
  assert (B : 0 <= gmean n n (fun i j => f i j * (-1) + 1 / 1000)) by (apply gmean_nonneg; auto; intros i j _ _; pose proof (S i j); lra).
  rewrite gmean_lin in B by assumption. rewrite Rabs_pos_eq; lra.
Qed.
Lemma size_ok n : In n sizes -> (3 <= n)%nat /\ (Z.of_nat n <= 65536)%Z.
Proof.
  intros H. unfold sizes in H. apply in_map_iff in H. destruct H as (k & <- & Hk). apply in_seq in Hk. split.
  - assert (2 ^ 2 <= 2 ^ k)%nat by (apply Nat.pow_le_mono_r; lia). cbn in H. lia.
  - rewrite Nat2Z.inj_pow. change 65536%Z with (2 ^ 16)%Z. apply Z.pow_le_mono_r; lia.
Qed.

(** ** The whole script *)
Lemma all_ok_true {X} (f : X -> res bool) l : (forall x, In x l -> f x = Ok true) -> all_ok f l = Ok true.
Proof. induction l as [|x l IH]; intros H; [reflexivity|]. cbn [all_ok]. rewrite (H x (or_introl eq_refl)). cbn [bind]. apply IH. intros y Hy. apply H. now right. Qed.
Lemma group_small junk dx name n x : In name default_groups -> 0 < dx -> In n sizes -> set_up n x -> Rabs (1 - dx) <= 3 / 10 ^ 5 * dx ->
  group_check junk dx name x = Ok true.
Proof.
  intros Hname Hd Hn (f & g & -> & Sf & Sg) L. destruct (size_ok n Hn) as [H3 HZ]. assert (Hn0 : (0 < n)%nat) by lia.
  assert (Hd2 : dx <= 2) by (pose proof (Rle_abs (- (1 - dx))); rewrite Rabs_Ropp in *; lra).
  destruct Hname as [<-|[<-|[<-|[<-|[]]]]].
  - destruct (gradient_check junk dx n f (grid n n g) Hn0) as (r & E & H). rewrite E. f_equal. apply H. now apply gradient_passes.
  - now apply laplace_check.
  - apply bracket_check; [assumption|lra].
  - destruct (poisson_check junk dx n f (grid n n g) Hn0 HZ) as (r & E & H). rewrite E. f_equal. apply H.
    pose proof (small_mean n f Hn0 Sf). pose proof (Rabs_pos (gmean n n f)).
    assert (dx ^ 2 <= 4) by nra. pose proof (pow2_ge_0 dx).
    assert (Rabs (gmean n n f) * dx ^ 2 <= 1 / 1000 * 4) by (apply Rmult_le_compat; assumption). lra.
Qed.
Lemma main_iff junk dx scale measured : 0 < dx -> (1 <= measured "periodic_gradient")%nat ->
  (forall input, (forall name n, set_up n (input name n)) -> bench_main junk default_groups dx scale input measured = Ok true) <->
  Rabs (1 - dx) <= 3 / 10 ^ 5 * dx.
Proof.
  intros Hd Hm. split.
  - intros H. destruct (Rle_dec (Rabs (1 - dx)) (3 / 10 ^ 5 * dx)) as [L|L]; [exact L|exfalso]. apply Rnot_le_lt in L.
    destruct (gradient_fails 16 dx ltac:(lia) Hd L) as (f & Sf & A).
    specialize (H (fun _ n => (grid n n f, grid n n f)) ltac:(intros name n; exists f, f; auto)).
    unfold bench_main, default_groups in H. cbn [all_ok] in H. unfold get_function_defs at 1 in H. cbn [String.eqb Ascii.eqb Bool.eqb] in H.
    destruct (measured "periodic_gradient") as [|m]; [lia|]. unfold sizes in H. cbn [seq map firstn all_ok] in H.
    change (2 ^ 4)%nat with 16%nat in H.
    destruct (gradient_check junk dx 16 f (grid 16 16 f) ltac:(lia)) as (r & E & Q).
    unfold group_check, get_function_defs in E. cbn [String.eqb Ascii.eqb Bool.eqb] in E. rewrite E in H. destruct r; [now apply A, Q|]. discriminate H.
  - intros L input Hi. unfold bench_main. apply all_ok_true. intros name Hname.
    assert (G : forall n, In n sizes -> group_check junk dx name (input name n) = Ok true).
    { intros n Hn. eapply group_small; eauto. }
    unfold group_check in G. destruct (get_function_defs junk dx name) as [ks|].
    + apply all_ok_true. intros n Hn. apply G. rewrite <- (firstn_skipn (measured name) sizes). apply in_app_iff. now left.
    + specialize (G 16%nat). discriminate G. left. reflexivity.
Qed.
Lemma poisson_refuted : ~ (forall junk dx n f b, 0 < dx -> (0 < n)%nat -> (Z.of_nat n <= 65536)%Z -> small_field f ->
  group_check junk dx "poisson_solvers" (grid n n f, b) = Ok true).
Proof.
  intros H. specialize (H (fun _ _ => 0) (10 ^ 5) 16%nat (fun _ _ => / 2000) (grid 16 16 (fun _ _ => 0)) ltac:(lra) ltac:(lia) ltac:(lia) ltac:(intros i j; lra)).
  rewrite poisson_const in H; [discriminate|lia|lia|]. rewrite Rabs_pos_eq by lra. replace ((10 ^ 5) ^ 2) with 10000000000 by ring. lra.
Qed.
Lemma main_default junk scale measured input : (forall name n, set_up n (input name n)) -> bench_main junk default_groups 1 scale input measured = Ok true.
Proof.
  intros Hi. unfold bench_main. apply all_ok_true. intros name Hname.
  assert (G : forall n, In n sizes -> group_check junk 1 name (input name n) = Ok true).
  { intros n Hn. apply (group_small junk 1 name n); auto; [lra|]. rewrite Rminus_diag_eq, Rabs_R0 by reflexivity. lra. }
  unfold group_check in G. destruct (get_function_defs junk 1 name) as [ks|].
  + apply all_ok_true. intros n Hn. apply G. rewrite <- (firstn_skipn (measured name) sizes). apply in_app_iff. now left.
  + specialize (G 16%nat). discriminate G. left. reflexivity.
Qed.
Lemma main_refuted : ~ (forall junk dx scale measured input, 0 < dx -> (forall name n, set_up n (input name n)) ->
  bench_main junk default_groups dx scale input measured = Ok true).
Proof.
  intros H. pose proof (main_iff (fun _ _ => 0) (1 / 10) 1000%Z (fun _ => 9%nat) ltac:(lra) ltac:(cbn; lia)) as [A _].
  assert (L : Rabs (1 - 1 / 10) <= 3 / 10 ^ 5 * (1 / 10)) by (apply A; intros; apply H; auto; lra).
  rewrite Rabs_pos_eq in L by lra. lra.
Qed.
Lemma main_unknown junk dx scale input measured l1 name l2 : ~ In name default_groups ->
  bench_main junk l1 dx scale input measured = Ok true ->
  bench_main junk (l1 ++ name :: l2) dx scale input measured = Exn TypeError.
Proof.
  intros Hn. unfold bench_main. induction l1 as [|a l1 IH]; cbn [app all_ok].
  - intros _. unfold get_function_defs.
    repeat match goal with |- context [String.eqb name ?k] => destruct (String.eqb_spec name k) as [E|_]; [exfalso; apply Hn; subst; cbn; tauto|] end.
    reflexivity.
  - destruct (match get_function_defs junk dx a with Some _ => _ | None => _ end) as [[|]|]; cbn [bind]; try discriminate. exact IH.
Qed.
