(** C134: exact cancellation in binary64 on fields that do not depend on y.
    Vocabulary: SpecRound.v, SpecCancel.v; proofs: CancelFacts.v, CancelTop.v. *)
From Coq Require Import String List Arith ZArith Reals Lra Lia SpecFloat Bool.
From Verif Require Import Num NdArray NdFacts ModelGradients ModelArakawa ModelHW Spec SpecHW SpecRound ModelSchemes
  ArakawaFacts RoundFacts RoundStencil RoundCons SpecCancel CancelFacts CancelTop.
Import List ListNotations.
Local Open Scope R_scope.
Local Existing Instance NumF64.

(** the vectorised bracket of two fields with identical rows is zero in every
    cell, without rounding error *)
Theorem C134_bracket : forall ny nx (dx : f64), (0 < ny)%nat -> (0 < nx)%nat -> finite64 dx -> scale64 (fval dx) ->
  forall F G f g, scale64 F -> scale64 G -> bounded64 ny nx F f -> bounded64 ny nx G g -> rows_same ny nx f -> rows_same ny nx g ->
  exists b, np_periodic_arakawa_vec (Ok (grid ny nx f)) (Ok (grid ny nx g)) dx = Ok (grid ny nx b) /\
    nb_periodic_arakawa_vec (Ok (grid ny nx f)) (Ok (grid ny nx g)) dx = Ok (grid ny nx b) /\
    nb_periodic_arakawa_stencil (Ok (grid ny nx f)) (Ok (grid ny nx g)) dx = Ok (grid ny nx b) /\
    forall i j, (i < ny)%nat -> (j < nx)%nat -> is_zero (b i j).
Proof. exact c134_bracket. Qed.
Print Assumptions C134_bracket.

(** ... and so is the bracket with a constant second argument *)
Theorem C134_constant : forall ny nx (dx : f64), (0 < ny)%nat -> (0 < nx)%nat -> finite64 dx -> scale64 (fval dx) ->
  forall F G f g, scale64 F -> scale64 G -> bounded64 ny nx F f -> bounded64 ny nx G g -> rows_same ny nx g -> columns_same ny nx g ->
  exists b, np_periodic_arakawa_vec (Ok (grid ny nx f)) (Ok (grid ny nx g)) dx = Ok (grid ny nx b) /\
    nb_periodic_arakawa_vec (Ok (grid ny nx f)) (Ok (grid ny nx g)) dx = Ok (grid ny nx b) /\
    nb_periodic_arakawa_stencil (Ok (grid ny nx f)) (Ok (grid ny nx g)) dx = Ok (grid ny nx b) /\
    forall i j, (i < ny)%nat -> (j < nx)%nat -> is_zero (b i j).
Proof. exact c134_constant. Qed.
Print Assumptions C134_constant.

(** the gradient across the rows *)
Theorem C134_gradient : forall ny nx (dx : f64), (0 < ny)%nat -> (0 < nx)%nat -> finite64 dx -> scale64 (fval dx) ->
  forall F f, scale64 F -> bounded64 ny nx F f -> rows_same ny nx f ->
  exists g, np_periodic_gradient (Ok (grid ny nx f)) dx 0 = Ok (Some (grid ny nx g)) /\
    nb_periodic_gradient (Ok (grid ny nx f)) dx 0 = Ok (Some (grid ny nx g)) /\
    forall i j, (i < ny)%nat -> (j < nx)%nat -> is_zero (g i j).
Proof. exact c134_gradient. Qed.
Print Assumptions C134_gradient.

(** the time derivative of a state with identical rows has identical rows, and
    is to the last bit the same for any two values of the coefficients of the
    bracket and of the background gradient; the adiabaticity and the viscosity
    may be any binary64 values, even infinite ones *)
Theorem C134_rhs : forall ny nx (dx : f64), (0 < ny)%nat -> (0 < nx)%nat -> finite64 dx -> scale64 (fval dx) ->
  forall solver b dx0 N c1 nu pb kap pb' kap' zon, b = np_schemes solver \/ b = nb_schemes solver ->
  finite64 pb -> finite64 kap -> finite64 pb' -> finite64 kap' ->
  forall phi n o P B O dt age, scale64 P -> scale64 B -> scale64 O ->
  bounded64 ny nx P phi -> bounded64 ny nx B n -> bounded64 ny nx O o ->
  rows_same ny nx phi -> rows_same ny nx n -> rows_same ny nx o ->
  let y := [("density", grid ny nx n); ("omega", grid ny nx o); ("age", scal age)]%string in
  exists lg d lg' d', gradient_2d (hw_init b dx0 (Z.of_nat N) c1 nu pb kap zon false) y (Some (grid ny nx phi)) dt dx = (lg, Ok d) /\
    gradient_2d (hw_init b dx0 (Z.of_nat N) c1 nu pb' kap' zon false) y (Some (grid ny nx phi)) dt dx = (lg', Ok d') /\
    exists dn do_ dn' do', ns_get d "density" = Ok (grid ny nx dn) /\ ns_get d "omega" = Ok (grid ny nx do_) /\
    ns_get d' "density" = Ok (grid ny nx dn') /\ ns_get d' "omega" = Ok (grid ny nx do') /\
    rows_same ny nx dn /\ rows_same ny nx do_ /\
    forall i j, (i < ny)%nat -> (j < nx)%nat -> same64 (dn i j) (dn' i j) /\ same64 (do_ i j) (do' i j).
Proof. exact c134_rhs. Qed.
Print Assumptions C134_rhs.

(** ** it does not extend *)
Definition tenths (k : nat) : f64 := ndiv (f64_ofZ (Z.of_nat (S k * S k + 3 * k) mod 7 + 1)) (f64_ofZ 10).
Definition thirds (k : nat) : f64 := ndiv (f64_ofZ (Z.of_nat (S k * S k * k + 2 * k) mod 11 + 1)) (f64_ofZ 3).
Definition tenths2 (i j : nat) : f64 := tenths (i + 2 * j).

Definition okb (x : f64) : bool :=
  valid_binary 53 1024 x && match x with S754_zero _ | S754_finite _ _ _ => true | _ => false end && small x && (Z.abs (zval x) <=? 4 * 2 ^ 60)%Z.
Lemma okb_spec x : okb x = true -> finite64 x /\ Rabs (fval x) <= 4.
Proof.
  unfold okb. intros H. apply andb_prop in H. destruct H as [H H4]. apply andb_prop in H. destruct H as [H H3].
  apply andb_prop in H. destruct H as [H1 H2]. split.
  - split; [exact H1|]. destruct x; (exact I || discriminate).
  - rewrite fval_zval by exact H3. rewrite Rabs_mult, (Rabs_right (/ 2 ^ 60)) by (apply Rle_ge, Rlt_le, Rinv_0_lt_compat, pow_lt; lra).
    rewrite <- abs_IZR. apply Z.leb_le, IZR_le in H4. apply Rmult_le_reg_r with (2 ^ 60); [apply pow_lt; lra|].
    rewrite Rmult_assoc, Rinv_l, Rmult_1_r by (apply pow_nonzero; lra). rewrite mult_IZR in H4. rewrite (pow_IZR 2 60). exact H4.
Qed.
Lemma bounded4 f : forallb (fun i => forallb (fun j => okb (f i j)) (seq 0 4)) (seq 0 4) = true -> bounded64 4 4 4 f.
Proof.
  intros H i j Hi Hj. apply okb_spec. rewrite forallb_forall in H. specialize (H i ltac:(apply in_seq; lia)). cbv beta in H.
  rewrite forallb_forall in H. apply (H j). apply in_seq. lia.
Qed.
Lemma scale4 : scale64 4.
Proof.
  unfold scale64. assert (2 ^ 2 <= 2 ^ 200) by (apply Rle_pow; [lra|lia]). split; [|lra].
  rewrite <- (Rinv_inv 4). apply Rinv_le_contravar; [lra|]. lra.
Qed.

(** the sum of three Jacobians, as the loop version and the compiled version
    compute it, is not exactly zero *)
Theorem C134_three_jacobians_refuted : ~ forall ny nx (dx : f64), (0 < ny)%nat -> (0 < nx)%nat -> finite64 dx -> scale64 (fval dx) ->
  forall F G f g, scale64 F -> scale64 G -> bounded64 ny nx F f -> bounded64 ny nx G g -> rows_same ny nx f -> rows_same ny nx g ->
  forall b, (nb_periodic_arakawa (Ok (grid ny nx f)) (Ok (grid ny nx g)) dx = Ok (grid ny nx b) \/
    forall junk, np_periodic_arakawa junk (Ok (grid ny nx f)) (Ok (grid ny nx g)) dx = Ok (grid ny nx b)) ->
  forall i j, (i < ny)%nat -> (j < nx)%nat -> is_zero (b i j).
Proof.
  intros H. destruct one_scale as (F1 & V1 & S1).
  destruct (H 4%nat 4%nat one64 ltac:(lia) ltac:(lia) F1 S1 4 4 (fun i j => tenths j) (fun i j => thirds j) scale4 scale4
    ltac:(apply bounded4; vm_compute; reflexivity) ltac:(apply bounded4; vm_compute; reflexivity)
    ltac:(intros i j k _ _ _; now left) ltac:(intros i j k _ _ _; now left)
    (ara3 4 4 one64 (fun i j => tenths j) (fun i j => thirds j)) ltac:(left; apply nb_periodic_arakawa_grid; lia) 0%nat 0%nat ltac:(lia) ltac:(lia)) as [s E].
  revert E. vm_compute. discriminate.
Qed.
Print Assumptions C134_three_jacobians_refuted.

(** fields with identical columns: the vectorised bracket is not exactly zero *)
Theorem C134_columns_refuted : ~ forall ny nx (dx : f64), (0 < ny)%nat -> (0 < nx)%nat -> finite64 dx -> scale64 (fval dx) ->
  forall F G f g, scale64 F -> scale64 G -> bounded64 ny nx F f -> bounded64 ny nx G g -> columns_same ny nx f -> columns_same ny nx g ->
  forall b, np_periodic_arakawa_vec (Ok (grid ny nx f)) (Ok (grid ny nx g)) dx = Ok (grid ny nx b) ->
  forall i j, (i < ny)%nat -> (j < nx)%nat -> is_zero (b i j).
Proof.
  intros H. destruct one_scale as (F1 & V1 & S1).
  destruct (H 4%nat 4%nat one64 ltac:(lia) ltac:(lia) F1 S1 4 4 (fun i j => tenths i) (fun i j => thirds i) scale4 scale4
    ltac:(apply bounded4; vm_compute; reflexivity) ltac:(apply bounded4; vm_compute; reflexivity)
    ltac:(intros i j k _ _ _; now left) ltac:(intros i j k _ _ _; now left)
    (ara 4 4 one64 (fun i j => tenths i) (fun i j => thirds i)) ltac:(apply np_periodic_arakawa_vec_grid; lia) 2%nat 0%nat ltac:(lia) ltac:(lia)) as [s E].
  revert E. vm_compute. discriminate.
Qed.
Print Assumptions C134_columns_refuted.

(** nor is the bracket with a constant first argument *)
Theorem C134_first_constant_refuted : ~ forall ny nx (dx : f64), (0 < ny)%nat -> (0 < nx)%nat -> finite64 dx -> scale64 (fval dx) ->
  forall F G f g, scale64 F -> scale64 G -> bounded64 ny nx F f -> bounded64 ny nx G g -> rows_same ny nx f -> columns_same ny nx f ->
  forall b, np_periodic_arakawa_vec (Ok (grid ny nx f)) (Ok (grid ny nx g)) dx = Ok (grid ny nx b) ->
  forall i j, (i < ny)%nat -> (j < nx)%nat -> is_zero (b i j).
Proof.
  intros H. destruct one_scale as (F1 & V1 & S1).
  destruct (H 4%nat 4%nat one64 ltac:(lia) ltac:(lia) F1 S1 4 4 (fun i j => tenths 1) tenths2 scale4 scale4
    ltac:(apply bounded4; vm_compute; reflexivity) ltac:(apply bounded4; vm_compute; reflexivity)
    ltac:(intros i j k _ _ _; now left) ltac:(intros i j k _ _ _; now left)
    (ara 4 4 one64 (fun i j => tenths 1) tenths2) ltac:(apply np_periodic_arakawa_vec_grid; lia) 0%nat 0%nat ltac:(lia) ltac:(lia)) as [s E].
  revert E. vm_compute. discriminate.
Qed.
Print Assumptions C134_first_constant_refuted.

(** nor the bracket of a field with itself *)
Theorem C134_self_refuted : ~ forall ny nx (dx : f64), (0 < ny)%nat -> (0 < nx)%nat -> finite64 dx -> scale64 (fval dx) ->
  forall F f, scale64 F -> bounded64 ny nx F f ->
  forall b, np_periodic_arakawa_vec (Ok (grid ny nx f)) (Ok (grid ny nx f)) dx = Ok (grid ny nx b) ->
  forall i j, (i < ny)%nat -> (j < nx)%nat -> is_zero (b i j).
Proof.
  intros H. destruct one_scale as (F1 & V1 & S1).
  destruct (H 4%nat 4%nat one64 ltac:(lia) ltac:(lia) F1 S1 4 tenths2 scale4
    ltac:(apply bounded4; vm_compute; reflexivity)
    (ara 4 4 one64 tenths2 tenths2) ltac:(apply np_periodic_arakawa_vec_grid; lia) 0%nat 0%nat ltac:(lia) ltac:(lia)) as [s E].
  revert E. vm_compute. discriminate.
Qed.
Print Assumptions C134_self_refuted.

(** the hypotheses are met by fields that are not constant *)
Example C134_case : scale64 4 /\ bounded64 4 4 4 (fun i j => tenths j) /\ bounded64 4 4 4 (fun i j => thirds j) /\
  rows_same 4 4 (fun i j => tenths j) /\ rows_same 4 4 (fun i j => thirds j) /\ tenths 0 <> tenths 1 /\ thirds 0 <> thirds 1 /\
  finite64 one64 /\ scale64 (fval one64).
Proof.
  destruct one_scale as (F1 & _ & S1). split; [apply scale4|]. split; [apply bounded4; vm_compute; reflexivity|].
  split; [apply bounded4; vm_compute; reflexivity|]. split; [intros i j k _ _ _; now left|]. split; [intros i j k _ _ _; now left|].
  split; [vm_compute; discriminate|]. split; [vm_compute; discriminate|]. split; [exact F1|exact S1].
Qed.
