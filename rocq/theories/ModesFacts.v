(** The diagnostics as sums over modes. *)
From Coq Require Import List Arith ZArith Lia Bool Reals Lra Psatz String.
From Verif Require Import Num NdArray NdFacts Spec GradFacts SumFacts LapFacts Cplx SpecFourier DftFacts PoissonFacts ModelProperties SpecDiag DiagFacts DiagProps
  SpecHW SpecLinear LinearFacts SpecModes TriadFacts.
Import ListNotations.
Local Open Scope R_scope.
Section M.
Variables (ny nx : nat).
Hypothesis Hy : (0 < ny)%nat.
Hypothesis Hx : (0 < nx)%nat.
Local Notation co k l := (coefficient ny nx k l).
Lemma inner_modes f g : gmean ny nx (fun i j => f i j * g i j) = gsum ny nx (fun k l => re (Cmul (co k l f) (Cconj (co k l g)))) / (INR ny * INR nx) ^ 2.
Proof.
  pose proof (parseval_real ny nx Hy Hx f g) as P. apply (f_equal re) in P. rewrite gcsum_re in P. cbn [re RtoC] in P.
  change (gsum ny nx (fun k l => re (Cmul (co k l f) (Cconj (co k l g)))) = INR ny * INR nx * gsum ny nx (fun i j => f i j * g i j)) in P.
  rewrite P. unfold gmean. apply lt_0_INR in Hy, Hx. field. lra.
Qed.
Lemma square_modes f : gmean ny nx (fun i j => f i j ^ 2) = gsum ny nx (fun k l => power ny nx k l f).
Proof.
  transitivity (gmean ny nx (fun i j => f i j * f i j)); [unfold gmean; f_equal; apply gsum_ext; intros; ring|].
  rewrite inner_modes. unfold Rdiv. rewrite Rmult_comm, <- gsum_scal. apply gsum_ext. intros k l _ _. unfold power, Cnorm2, Rdiv. cbn. ring.
Qed.
Lemma orth f g u v : apart ny nx f g -> mem ny nx f u -> mem ny nx g v -> gmean ny nx (fun i j => u i j * v i j) = 0.
Proof.
  intros A F G. rewrite inner_modes. rewrite (gsum_ext ny nx _ (fun _ _ => 0)); [rewrite gsum_const; unfold Rdiv; ring|].
  intros k l Hk Hl. destruct (A k l Hk Hl) as [E|E]; [apply F in E|apply G in E]; rewrite E; cbn; ring.
Qed.
Lemma mem_id f : mem ny nx f f. Proof. now intros k l E. Qed.
Lemma mem_cy dx f : mem ny nx f (fun i j => (f (sh ny i 1) j - f (sh ny i (-1)) j) / (2 * dx)).
Proof.
  intros k l E. pose proof (zc_shy ny nx Hy Hx k l 1 f E) as A. pose proof (zc_shy ny nx Hy Hx k l (-1) f E) as B.
  eapply (zc_ext ny nx k l); [|exact (zc_lin ny nx k l (/ (2 * dx)) (- / (2 * dx)) _ _ A B)]. intros i j _ _. unfold combined, Rdiv. ring.
Qed.
Lemma mem_cx dx f : mem ny nx f (fun i j => (f i (sh nx j 1) - f i (sh nx j (-1))) / (2 * dx)).
Proof.
  intros k l E. pose proof (zc_shx ny nx Hy Hx k l 1 f E) as A. pose proof (zc_shx ny nx Hy Hx k l (-1) f E) as B.
  eapply (zc_ext ny nx k l); [|exact (zc_lin ny nx k l (/ (2 * dx)) (- / (2 * dx)) _ _ A B)]. intros i j _ _. unfold combined, Rdiv. ring.
Qed.
Lemma gmean_add f g : gmean ny nx (fun i j => f i j + g i j) = gmean ny nx f + gmean ny nx g.
Proof. unfold gmean. rewrite gsum_add. unfold Rdiv. ring. Qed.
Lemma gmean_scl a f : gmean ny nx (fun i j => a * f i j) = a * gmean ny nx f.
Proof. unfold gmean. rewrite gsum_scal. unfold Rdiv. ring. Qed.
Lemma sq_add u v : gmean ny nx (fun i j => u i j * v i j) = 0 -> gmean ny nx (fun i j => (u i j + v i j) ^ 2) = gmean ny nx (fun i j => u i j ^ 2) + gmean ny nx (fun i j => v i j ^ 2).
Proof.
  intros E. transitivity (gmean ny nx (fun i j => (u i j ^ 2 + v i j ^ 2) + 2 * (u i j * v i j))); [unfold gmean; f_equal; apply gsum_ext; intros; ring|].
  rewrite !gmean_add, gmean_scl, E. ring.
Qed.
Lemma co_cy dx f k l : (k < ny)%nat -> (l < nx)%nat -> dx <> 0 -> co k l (fun i j => (f (sh ny i 1) j - f (sh ny i (-1)) j) / (2 * dx)) = Cmul (mkC 0 (sin (2 * PI * INR k / INR ny) / dx)) (co k l f).
Proof.
  intros Hk Hl Hd. transitivity (co k l (combined (/ (2 * dx)) (- / (2 * dx)) (fun i j => f (sh ny i 1) (sh nx j 0)) (fun i j => f (sh ny i (-1)) (sh nx j 0)))).
  { unfold coefficient. apply dft2_ext. intros i j Hi Hj. unfold combined, Rdiv. rewrite !sh_0 by assumption. f_equal. ring. }
  rewrite co_lin. unfold coefficient. rewrite !(dft2_shift ny nx (fun i j => RtoC (f i j))) by assumption.
  set (z := dft2 ny nx _ _ _). unfold pw, wn, cis. rewrite !Z.mul_0_r. rewrite Z.mul_1_r. replace (Z.of_nat k * -1)%Z with (- Z.of_nat k)%Z by ring.
  rewrite opp_IZR, <- INR_IZR_INZ. replace (2 * PI * - INR k / INR ny) with (- (2 * PI * INR k / INR ny)) by (unfold Rdiv; ring).
  replace (2 * PI * 0 / INR nx) with 0 by (unfold Rdiv; ring). rewrite cos_neg, sin_neg, cos_0, sin_0. apply C_eq; cbn; field; exact Hd.
Qed.
Lemma co_cx dx f k l : (k < ny)%nat -> (l < nx)%nat -> dx <> 0 -> co k l (fun i j => (f i (sh nx j 1) - f i (sh nx j (-1))) / (2 * dx)) = Cmul (mkC 0 (sin (2 * PI * INR l / INR nx) / dx)) (co k l f).
Proof.
  intros Hk Hl Hd. transitivity (co k l (combined (/ (2 * dx)) (- / (2 * dx)) (fun i j => f (sh ny i 0) (sh nx j 1)) (fun i j => f (sh ny i 0) (sh nx j (-1))))).
  { unfold coefficient. apply dft2_ext. intros i j Hi Hj. unfold combined, Rdiv. rewrite !sh_0 by assumption. f_equal. ring. }
  rewrite co_lin. unfold coefficient. rewrite !(dft2_shift ny nx (fun i j => RtoC (f i j))) by assumption.
  set (z := dft2 ny nx _ _ _). unfold pw, wn, cis. rewrite !Z.mul_0_r. rewrite Z.mul_1_r. replace (Z.of_nat l * -1)%Z with (- Z.of_nat l)%Z by ring.
  rewrite opp_IZR, <- INR_IZR_INZ. replace (2 * PI * - INR l / INR nx) with (- (2 * PI * INR l / INR nx)) by (unfold Rdiv; ring).
  replace (2 * PI * 0 / INR ny) with 0 by (unfold Rdiv; ring). rewrite cos_neg, sin_neg, cos_0, sin_0. apply C_eq; cbn; field; exact Hd.
Qed.
Lemma power_cy dx f k l : (k < ny)%nat -> (l < nx)%nat -> dx <> 0 -> power ny nx k l (fun i j => (f (sh ny i 1) j - f (sh ny i (-1)) j) / (2 * dx)) = wave2 ny dx k * power ny nx k l f.
Proof. intros Hk Hl Hd. unfold power. rewrite co_cy by assumption. unfold wave2, Cnorm2, Rdiv. cbn. ring. Qed.
Lemma power_cx dx f k l : (k < ny)%nat -> (l < nx)%nat -> dx <> 0 -> power ny nx k l (fun i j => (f i (sh nx j 1) - f i (sh nx j (-1))) / (2 * dx)) = wave2 nx dx l * power ny nx k l f.
Proof. intros Hk Hl Hd. unfold power. rewrite co_cx by assumption. unfold wave2, Cnorm2, Rdiv. cbn. ring. Qed.
End M.
