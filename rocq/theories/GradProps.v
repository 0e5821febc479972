(** Property-shaped lemmas for C03, C04, C06. *)
From Coq Require Import List Arith ZArith Lia Reals QArith.
From Verif Require Import Num NdArray NdFacts ModelGradients Spec GradFacts SumFacts LapFacts.
Import ListNotations.
Local Open Scope nat_scope.

(** the 2-D frame at leading index r *)
Definition frame {A} {N : Num A} (a : arr A) (r : list nat) : arr A :=
  grid (dim a 1) (dim a 0) (fun i j => get a (j :: i :: r)).

Lemma c03_laplace : forall ny nx (dx : R), 0 < ny -> 0 < nx ->
  exists L : (nat -> nat -> R) -> (nat -> nat -> R),
    (forall f, np_periodic_laplace (Ok (grid ny nx f)) dx = Ok (grid ny nx (L f))) /\
    (forall a b f g i j, L (fadd (fscale a f) (fscale b g)) i j = (a * L f i j + b * L g i j)%R) /\
    (forall c i j, L (fconst c) i j = 0%R) /\
    (forall f, gsum ny nx (L f) = 0%R).
Proof.
  intros ny nx dx Hy Hx. exists (lap5 ny nx dx). repeat split.
  - intros f. now apply np_periodic_laplace_grid.
  - intros; apply lap5_lin.
  - intros; apply lap5_const.
  - intros; now apply gsum_lap5.
Qed.

Lemma np_grad_any ny nx (dx : R) axis f : 0 < ny -> 0 < nx ->
  (axis = 0 \/ axis = 1 \/ axis = -1 \/ axis = -2)%Z ->
  np_periodic_gradient (Ok (grid ny nx f)) dx axis =
  Ok (Some (grid ny nx (if ((axis =? 0) || (axis =? -2))%Z then cdy ny dx f else cdx nx dx f))).
Proof.
  intros Hy Hx H.
  destruct H as [->|[->|[->| ->]]]; cbn [Z.eqb orb Pos.eqb].
  - apply (np_grad_pos ny nx dx f 0 Hy Hx); auto.
  - apply (np_grad_pos ny nx dx f 1 Hy Hx); auto.
  - exact (np_grad_m1 [] ny nx dx (fun _ => f) Hy Hx).
  - exact (np_grad_m2 [] ny nx dx (fun _ => f) Hy Hx).
Qed.

Lemma c03_gradient : forall ny nx (dx : R) (axis : Z), 0 < ny -> 0 < nx ->
  (axis = 0 \/ axis = 1 \/ axis = -1 \/ axis = -2)%Z ->
  exists L : (nat -> nat -> R) -> (nat -> nat -> R),
    (forall f, np_periodic_gradient (Ok (grid ny nx f)) dx axis = Ok (Some (grid ny nx (L f)))) /\
    (forall a b f g i j, L (fadd (fscale a f) (fscale b g)) i j = (a * L f i j + b * L g i j)%R) /\
    (forall c i j, L (fconst c) i j = 0%R) /\
    (forall f, gsum ny nx (L f) = 0%R).
Proof.
  intros ny nx dx axis Hy Hx H.
  exists (fun f => if ((axis =? 0) || (axis =? -2))%Z then cdy ny dx f else cdx nx dx f).
  split; [intros f; now apply np_grad_any|].
  destruct ((axis =? 0) || (axis =? -2))%Z; repeat split; intros;
    auto using cdy_lin, cdx_lin, cdy_const, cdx_const, gsum_cdy, gsum_cdx.
Qed.

Lemma inner_ext ny nx f f' g g' :
  (forall i j, i < ny -> j < nx -> f i j = f' i j) ->
  (forall i j, i < ny -> j < nx -> g i j = g' i j) ->
  inner ny nx f g = inner ny nx f' g'.
Proof. intros H1 H2. apply gsum_ext. intros i j Hi Hj. now rewrite H1, H2. Qed.

Lemma c04_skew : forall ny nx (dx : R) (axis : Z) f g df dg,
  0 < ny -> 0 < nx -> (axis = 0 \/ axis = 1 \/ axis = -1 \/ axis = -2)%Z ->
  np_periodic_gradient (Ok (grid ny nx f)) dx axis = Ok (Some (grid ny nx df)) ->
  np_periodic_gradient (Ok (grid ny nx g)) dx axis = Ok (Some (grid ny nx dg)) ->
  inner ny nx f dg = (- inner ny nx df g)%R.
Proof.
  intros ny nx dx axis f g df dg Hy Hx Hax Hf Hg.
  rewrite np_grad_any in Hf, Hg by assumption. injection Hf as Hf. injection Hg as Hg.
  apply (f_equal (mkArr [nx; ny])) in Hf. apply (f_equal (mkArr [nx; ny])) in Hg.
  pose proof (grid_inj ny nx _ _ Hf) as Ef. pose proof (grid_inj ny nx _ _ Hg) as Eg.
  rewrite (inner_ext ny nx f f dg (if ((axis =? 0) || (axis =? -2))%Z then cdy ny dx g else cdx nx dx g))
    by (auto; intros; symmetry; now apply Eg).
  rewrite (inner_ext ny nx df (if ((axis =? 0) || (axis =? -2))%Z then cdy ny dx f else cdx nx dx f) g g)
    by (auto; intros; symmetry; now apply Ef).
  destruct ((axis =? 0) || (axis =? -2))%Z; [now apply inner_cdy|now apply inner_cdx].
Qed.

Lemma grid_ok_inj {A} {N : Num A} ny nx (f g : nat -> nat -> A) :
  @Ok (arr A) (grid ny nx f) = Ok (grid ny nx g) -> forall i j, i < ny -> j < nx -> f i j = g i j.
Proof. intros H. apply grid_inj. congruence. Qed.

Lemma c04_laplace : forall ny nx (dx : R) f g lf lg,
  0 < ny -> 0 < nx -> dx <> 0%R ->
  np_periodic_laplace (Ok (grid ny nx f)) dx = Ok (grid ny nx lf) ->
  np_periodic_laplace (Ok (grid ny nx g)) dx = Ok (grid ny nx lg) ->
  inner ny nx f lg = inner ny nx lf g /\
  inner ny nx f lf =
    (- (gsum ny nx (fun i j => fdx nx f i j * fdx nx f i j + fdy ny f i j * fdy ny f i j) / (dx * dx)))%R /\
  (inner ny nx f lf <= 0)%R /\
  (inner ny nx f lf = 0%R <-> is_const ny nx f).
Proof.
  intros ny nx dx f g lf lg Hy Hx Hdx Hf Hg.
  rewrite np_periodic_laplace_grid in Hf, Hg by assumption.
  pose proof (grid_ok_inj _ _ _ _ Hf) as Ef. pose proof (grid_ok_inj _ _ _ _ Hg) as Eg.
  rewrite (inner_ext ny nx f f lg (lap5 ny nx dx g)) by (auto; intros; symmetry; now apply Eg).
  rewrite (inner_ext ny nx lf (lap5 ny nx dx f) g g) by (auto; intros; symmetry; now apply Ef).
  rewrite (inner_ext ny nx f f lf (lap5 ny nx dx f)) by (auto; intros; symmetry; now apply Ef).
  split; [now apply lap5_selfadjoint|]. split; [now apply inner_lap5|].
  now apply lap5_neg.
Qed.

Lemma c04_example :
  exists lf, np_periodic_laplace (Ok (grid 2 3 (fun i j => INR (i + j)))) 1%R = Ok (grid 2 3 lf) /\
  ~ is_const 2 3 (fun i j => INR (i + j)).
Proof.
  eexists. split; [apply np_periodic_laplace_grid; lia|].
  intros H. specialize (H 0 0 1 0 ltac:(lia) ltac:(lia) ltac:(lia) ltac:(lia)).
  apply INR_eq in H. discriminate.
Qed.

Section Frames.
Context {A : Type} {N : Num A}.

Lemma frame_stack rest ny nx (F : list nat -> nat -> nat -> A) r : inb rest r ->
  frame (stack rest ny nx F) r = grid ny nx (F r).
Proof.
  intros Hr. unfold frame, dim. cbn [stack build shape nth]. apply grid_ext.
  intros i j Hi Hj. now apply get_stack.
Qed.

(** any operation that acts framewise on stacks acts framewise on arrays *)
Lemma framewise (op : nd A -> nd A) nx ny rest (G : (nat -> nat -> A) -> nat -> nat -> A) (a : arr A) :
  wf a -> shape a = nx :: ny :: rest ->
  (forall rest' F, op (Ok (stack rest' ny nx F)) = Ok (stack rest' ny nx (fun r => G (F r)))) ->
  exists b, op (Ok a) = Ok b /\ wf b /\ shape b = shape a /\
    forall r, inb rest r -> op (Ok (frame a r)) = Ok (frame b r).
Proof.
  intros Hw Hs H. set (F := fun r i j => get a (j :: i :: r)).
  pose proof (wf_stack a nx ny rest Hw Hs) as Ea. fold F in Ea.
  exists (stack rest ny nx (fun r => G (F r))). rewrite Ea. repeat split.
  - apply H.
  - apply wf_build.
  - intros r Hr. rewrite !frame_stack by exact Hr.
    exact (H [] (fun _ => F r)).
Qed.

Lemma c06_laplace : forall (a : arr A) (dx : A) nx ny rest,
    wf a -> shape a = nx :: ny :: rest -> 0 < ny -> 0 < nx ->
    exists b, np_periodic_laplace (Ok a) dx = Ok b /\ wf b /\ shape b = shape a /\
      forall r, inb rest r ->
        np_periodic_laplace (Ok (frame a r)) dx = Ok (frame b r).
Proof.
  intros a dx nx ny rest Hw Hs Hy Hx.
  apply (framewise (fun x => np_periodic_laplace x dx) nx ny rest (lap5 ny nx dx) a Hw Hs).
  intros. now apply np_periodic_laplace_stack.
Qed.

Lemma c06_laplace_N : forall (a : arr A) (dx : A) (n : Z) nx ny rest,
    wf a -> shape a = nx :: ny :: rest -> 0 < ny -> 0 < nx ->
    exists b, np_periodic_laplace_N (Ok a) dx n = Ok b /\ wf b /\ shape b = shape a /\
      forall r, inb rest r ->
        np_periodic_laplace_N (Ok (frame a r)) dx n = Ok (frame b r).
Proof.
  intros a dx n nx ny rest Hw Hs Hy Hx.
  apply (framewise (fun x => np_periodic_laplace_N x dx n) nx ny rest (lap_iter (Z.to_nat n) ny nx dx) a Hw Hs).
  intros. now apply np_periodic_laplace_N_stack.
Qed.

Lemma c06_gradient : forall (a : arr A) (dx : A) (axis : Z) nx ny rest,
    wf a -> shape a = nx :: ny :: rest -> 0 < ny -> 0 < nx -> (axis = -1 \/ axis = -2)%Z ->
    exists b, np_periodic_gradient (Ok a) dx axis = Ok (Some b) /\ wf b /\ shape b = shape a /\
      forall r, inb rest r ->
        np_periodic_gradient (Ok (frame a r)) dx axis = Ok (Some (frame b r)).
Proof.
  intros a dx axis nx ny rest Hw Hs Hy Hx Hax.
  set (F := fun r i j => get a (j :: i :: r)).
  pose proof (wf_stack a nx ny rest Hw Hs) as Ea. fold F in Ea.
  destruct Hax as [-> | ->].
  - exists (stack rest ny nx (fun r => cdx nx dx (F r))). rewrite Ea. repeat split.
    + now apply np_grad_m1.
    + apply wf_build.
    + intros r Hr. rewrite !frame_stack by exact Hr. exact (np_grad_m1 [] ny nx dx (fun _ => F r) Hy Hx).
  - exists (stack rest ny nx (fun r => cdy ny dx (F r))). rewrite Ea. repeat split.
    + now apply np_grad_m2.
    + apply wf_build.
    + intros r Hr. rewrite !frame_stack by exact Hr. exact (np_grad_m2 [] ny nx dx (fun _ => F r) Hy Hx).
Qed.
End Frames.

Lemma c06_positive_axis :
  exists (a b : arr Q), wf a /\ shape a = [2; 2; 2] /\
    @np_periodic_gradient Q NumQ (Ok a) 1%Q 0 = Ok (Some b) /\ shape b <> shape a.
Proof.
  exists (@build Q [2; 2; 2] (fun ix => inject_Z (Z.of_nat (nth 0 ix 0 + 5 * nth 1 ix 0 * nth 2 ix 0)))).
  eexists. split; [vm_compute; reflexivity|]. split; [reflexivity|]. split; [vm_compute; reflexivity|].
  vm_compute. discriminate.
Qed.

Lemma c06_example :
  let a := @build Q [2; 2; 2] (fun ix => inject_Z (Z.of_nat (nth 0 ix 0 + 5 * nth 1 ix 0 * nth 2 ix 0))) in
  wf a /\ shape a = [2; 2; 2] /\ frame (N:=NumQ) a [0] <> frame (N:=NumQ) a [1].
Proof. cbv zeta. split; [vm_compute; reflexivity|]. split; [reflexivity|]. vm_compute. discriminate. Qed.
