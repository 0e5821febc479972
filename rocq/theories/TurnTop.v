(** Diagnostics of turned and reflected frames. *)
From Coq Require Import List Arith ZArith Lia Bool Reals Lra Psatz String.
From Verif Require Import Num NdArray NdFacts Spec GradFacts SumFacts LapFacts Cplx DftFacts ModelHW ModelBackend ModelProperties SpecDiag DiagFacts DiagProps
  SpecHW SpecPlasma SymFacts SpecTurn TurnFacts.
Import ListNotations.
Local Open Scope R_scope.

Lemma gmean_swap ny nx f : gmean nx ny (fun i j => f j i) = gmean ny nx f.
Proof. unfold gmean. rewrite gsum_swap. f_equal. apply Rmult_comm. Qed.
Lemma gmean_my ny nx (f : field) : gmean ny nx (fun i j => f (pidx ny (- Z.of_nat i)) j) = gmean ny nx f.
Proof. unfold gmean, gsum. now rewrite (rsum_neg ny (fun i => rsum nx (fun j => f i j))). Qed.
Lemma gmean_mx ny nx (f : field) : gmean ny nx (fun i j => f i (pidx nx (- Z.of_nat j))) = gmean ny nx f.
Proof. unfold gmean, gsum. f_equal. apply rsum_ext. intros i _. apply (rsum_neg nx (fun j => f i j)). Qed.
Lemma build_ext rest (f g : list nat -> R) : (forall r, f r = g r) -> Ok (build rest f) = Ok (build rest g).
Proof. intros E. replace g with f; [reflexivity|]. now apply FunctionalExtensionality.functional_extensionality. Qed.

Lemma c139_diag_transposed rest ny nx (n p o : frames) c1 dx : (0 < ny)%nat -> (0 < nx)%nat ->
  let fr (f : frames) := Ok (stack rest ny nx f) in
  let tr (f : frames) := Ok (stack rest nx ny (fun r => fopp (transposed (f r)))) in
  get_gamma_c (tr n) (tr p) c1 dx = get_gamma_c (fr n) (fr p) c1 dx /\ get_energy (tr n) (tr p) dx = get_energy (fr n) (fr p) dx /\
  get_enstrophy (tr n) (tr o) dx = get_enstrophy (fr n) (fr o) dx.
Proof.
  intros Hy Hx fr tr.
  destruct (c29_values rest ny nx n p o c1 dx Hy Hx) as (A1 & A2 & A3 & _).
  destruct (c29_values rest nx ny (fun r => fopp (transposed (n r))) (fun r => fopp (transposed (p r))) (fun r => fopp (transposed (o r))) c1 dx Hx Hy) as (B1 & B2 & B3 & _).
  unfold fr, tr. rewrite A1, A2, A3, B1, B2, B3.
  repeat split; apply build_ext; intros r; [apply (f_equal (Rmult c1))|apply (f_equal (fun x => x / 2))..];
    rewrite <- (gmean_swap ny nx); apply gm_ext; intros i j _ _; unfold fopp, transposed, Rdiv; ring.
Qed.
Lemma c139_diag_mirror_y rest ny nx (n p o : frames) c1 dx : (0 < ny)%nat -> (0 < nx)%nat ->
  let fr (f : frames) := Ok (stack rest ny nx f) in
  let mr (f : frames) := Ok (stack rest ny nx (fun r => fopp (mirror_y ny (f r)))) in
  get_gamma_c (mr n) (mr p) c1 dx = get_gamma_c (fr n) (fr p) c1 dx /\ get_energy (mr n) (mr p) dx = get_energy (fr n) (fr p) dx /\
  get_enstrophy (mr n) (mr o) dx = get_enstrophy (fr n) (fr o) dx /\ get_gamma_n (mr n) (mr p) dx None = neg_ (get_gamma_n (fr n) (fr p) dx None).
Proof.
  intros Hy Hx fr mr.
  destruct (c29_values rest ny nx n p o c1 dx Hy Hx) as (A1 & A2 & A3 & A4).
  destruct (c29_values rest ny nx (fun r => fopp (mirror_y ny (n r))) (fun r => fopp (mirror_y ny (p r))) (fun r => fopp (mirror_y ny (o r))) c1 dx Hy Hx) as (B1 & B2 & B3 & B4).
  unfold fr, mr. rewrite A1, A2, A3, A4, B1, B2, B3, B4.
  split; [|split; [|split]].
  1-3: apply build_ext; intros r; [apply (f_equal (Rmult c1)) || apply (f_equal (fun x => x / 2))];
    (etransitivity; [|apply gmean_my]); apply gm_ext; intros i j _ _; unfold fopp, mirror_y; rewrite ?(sh_mirror nx ny Hx Hy); cbn [Z.opp]; unfold Rdiv; ring.
  unfold neg_. rewrite map1_build. apply build_ext. intros r. cbn. f_equal.
  rewrite <- (gmean_my ny nx (fun i j => n r i j * ((p r (sh ny i 1) j - p r (sh ny i (-1)) j) / (2 * dx)))).
  transitivity (-1 * gmean ny nx (fun i j => n r (pidx ny (- Z.of_nat i)) j * ((p r (sh ny (pidx ny (- Z.of_nat i)) 1) j - p r (sh ny (pidx ny (- Z.of_nat i)) (-1)) j) / (2 * dx)))); [|ring].
  rewrite <- gm_scal. apply gm_ext. intros i j _ _. unfold fopp, mirror_y. rewrite !(sh_mirror nx ny Hx Hy). cbn [Z.opp]. unfold Rdiv. ring.
Qed.
