(** C90: the finite differences of the PhiML backend. *)
From Coq Require Import List Arith ZArith Lia Reals QArith.
From Verif Require Import Num NdArray ModelGradients Spec PhimlFacts.
From Verif Require GradFacts.
Import ListNotations.
Local Open Scope nat_scope.

(** the n-fold five-point Laplacian *)
Theorem C90_laplace_N : forall ny nx (dx : R) (n : Z) f, 0 < ny -> 0 < nx ->
  pm_periodic_laplace_N (Ok (grid ny nx f)) dx n = Ok (grid ny nx (lap_iter (Z.to_nat n) ny nx dx f)).
Proof. exact (fun ny nx dx n f => pm_laplace_N ny nx dx n f). Qed.
(** the array numpy returns *)
Theorem C90_laplace_numpy : forall ny nx (dx : R) (n : Z) f, 0 < ny -> 0 < nx ->
  pm_periodic_laplace_N (Ok (grid ny nx f)) dx n = np_periodic_laplace_N (Ok (grid ny nx f)) dx n.
Proof. intros ny nx dx n f Hy Hx. rewrite GradFacts.np_periodic_laplace_N_grid by assumption. now apply C90_laplace_N. Qed.
(** the central difference along the named axis; "y" is axis 0, "x" axis 1 of numpy *)
Theorem C90_gradient : forall ny nx (dx : R) f along_y, 0 < ny -> 0 < nx ->
  pm_periodic_gradient (Ok (grid ny nx f)) dx along_y = Ok (grid ny nx (if along_y then cdy ny dx f else cdx nx dx f)).
Proof. exact pm_gradient. Qed.
Theorem C90_gradient_numpy : forall ny nx (dx : R) f (axis : Z), 0 < ny -> 0 < nx -> (axis = 0 \/ axis = 1)%Z ->
  np_periodic_gradient (Ok (grid ny nx f)) dx axis = let* g := pm_periodic_gradient (Ok (grid ny nx f)) dx (axis =? 0)%Z in Ok (Some g).
Proof. exact pm_gradient_np. Qed.
Print Assumptions C90_laplace_N.
Print Assumptions C90_laplace_numpy.
Print Assumptions C90_gradient.
Print Assumptions C90_gradient_numpy.
(** in exact rationals on a 2 x 3 grid *)
Example C90_example :
  let a := @grid Q 2 3 (fun i j => inject_Z (Z.of_nat (i * i + 2 * j * j))) in
  @pm_periodic_laplace_N Q NumQ (Ok a) 1%Q 2 = @np_periodic_laplace_N Q NumQ (Ok a) 1%Q 2 /\
  @pm_periodic_gradient Q NumQ (Ok a) 1%Q false = Ok (@mkArr Q [3; 2] [-3; 4; -1; -3; 4; -1]%Q).
Proof. split; vm_compute; reflexivity. Qed.
