(** Finite differences of the PhiML backend. *)
From Coq Require Import List Arith ZArith Lia Reals Lra.
From Verif Require Import Num NdArray NdFacts ModelGradients Spec GradFacts SumFacts LapFacts GradProps.
Import ListNotations.
Local Open Scope R_scope.

Lemma pidx_lt n i k : (0 < n)%nat -> (pidx n (Z.of_nat i + k) < n)%nat.
Proof. exact (sh_lt n i k). Qed.
Lemma pm_laplace ny nx (dx : R) f : (0 < ny)%nat -> (0 < nx)%nat ->
  pm_periodic_laplace (Ok (grid ny nx f)) dx = Ok (grid ny nx (lap5 ny nx dx f)).
Proof.
  intros Hy Hx. unfold pm_periodic_laplace. cbn [bind]. change (shape (grid ny nx f)) with [nx; ny]. cbv iota. apply (f_equal Ok). apply grid_ext. intros i j Hi Hj.
  rewrite !at2_grid by (apply pidx_lt; assumption). rewrite lap5_R. fold (sh ny i (-1)) (sh ny i 0) (sh ny i 1) (sh nx j (-1)) (sh nx j 0) (sh nx j 1).
  rewrite !sh_0 by assumption. cbn [nadd nmul ndiv nofZ npow NumR]. replace (dx ^ 2) with (dx * dx) by ring. unfold Rdiv. ring.
Qed.
Lemma pm_laplace_N ny nx (dx : R) n f : (0 < ny)%nat -> (0 < nx)%nat ->
  pm_periodic_laplace_N (Ok (grid ny nx f)) dx n = Ok (grid ny nx (lap_iter (Z.to_nat n) ny nx dx f)).
Proof.
  intros Hy Hx. unfold pm_periodic_laplace_N. induction (Z.to_nat n) as [|k IH]; [reflexivity|].
  rewrite loop_S_r, IH, pm_laplace by assumption. reflexivity.
Qed.
Lemma pm_gradient ny nx (dx : R) f along_y : (0 < ny)%nat -> (0 < nx)%nat ->
  pm_periodic_gradient (Ok (grid ny nx f)) dx along_y = Ok (grid ny nx (if along_y then cdy ny dx f else cdx nx dx f)).
Proof.
  intros Hy Hx. unfold pm_periodic_gradient. cbn [bind]. change (shape (grid ny nx f)) with [nx; ny]. cbv iota. apply (f_equal Ok). apply grid_ext. intros i j Hi Hj.
  rewrite !at2_grid by (apply pidx_lt; assumption). fold (sh ny i (-1)) (sh ny i 0) (sh ny i 1) (sh nx j (-1)) (sh nx j 0) (sh nx j 1).
  rewrite !sh_0 by assumption. cbn [nadd nsub nmul ndiv nofZ npow NumR].
  destruct along_y; [rewrite cdy_R|rewrite cdx_R]; unfold Rdiv; rewrite (Rmult_comm dx 2); reflexivity.
Qed.
Lemma pm_gradient_np ny nx (dx : R) f (axis : Z) : (0 < ny)%nat -> (0 < nx)%nat -> (axis = 0 \/ axis = 1)%Z ->
  np_periodic_gradient (Ok (grid ny nx f)) dx axis = let* g := pm_periodic_gradient (Ok (grid ny nx f)) dx (axis =? 0)%Z in Ok (Some g).
Proof. intros Hy Hx Ha. rewrite np_grad_pos by assumption. rewrite pm_gradient by assumption. reflexivity. Qed.
