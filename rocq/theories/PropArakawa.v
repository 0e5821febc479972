(** Properties C07-C11: the Poisson bracket. *)
From Coq Require Import List Arith ZArith Reals QArith.
From Verif Require Import Num NdArray ModelArakawa Spec ArakawaFacts ArakawaProps.
Import ListNotations.
Local Open Scope nat_scope.

(** C07: same bits from the vectorised and the single-stencil versions. *)
Theorem C07_same_bits :
  forall (A : Type) (N : Num A) (z p : arr A) (dx : A),
  wf z -> wf p -> length (shape z) = 2 -> shape p = shape z ->
  nb_periodic_arakawa_stencil (Ok z) (Ok p) dx = np_periodic_arakawa_vec (Ok z) (Ok p) dx /\
  nb_periodic_arakawa_vec (Ok z) (Ok p) dx = np_periodic_arakawa_vec (Ok z) (Ok p) dx.
Proof. exact c07_bits. Qed.
Print Assumptions C07_same_bits.

(** C07: the loop and three-stencil versions agree with each other bit for bit ... *)
Theorem C07_three_term_same_bits :
  forall (A : Type) (N : Num A) (junk : nat -> nat -> A) ny nx (dx : A) f g,
  0 < ny -> 0 < nx ->
  np_periodic_arakawa junk (Ok (grid ny nx f)) (Ok (grid ny nx g)) dx =
  nb_periodic_arakawa (Ok (grid ny nx f)) (Ok (grid ny nx g)) dx.
Proof. exact c07_three_term. Qed.
Print Assumptions C07_three_term_same_bits.

(** ... and with the vectorised one in exact arithmetic, whatever the
    uninitialised border of the loop version holds. *)
Theorem C07_same_value :
  forall (junk : nat -> nat -> R) (z p : arr R) (dx : R),
  wf z -> wf p -> length (shape z) = 2 -> shape p = shape z -> dx <> 0%R ->
  np_periodic_arakawa junk (Ok z) (Ok p) dx = np_periodic_arakawa_vec (Ok z) (Ok p) dx /\
  nb_periodic_arakawa (Ok z) (Ok p) dx = np_periodic_arakawa_vec (Ok z) (Ok p) dx.
Proof. exact c07_exact. Qed.
Print Assumptions C07_same_value.

Example C07_example :
  let z := @grid Q 2 3 (fun i j => inject_Z (Z.of_nat (i * i + 2 * j * j))) in
  let p := @grid Q 2 3 (fun i j => inject_Z (Z.of_nat (3 * i + i * j))) in
  @nb_periodic_arakawa_stencil Q NumQ (Ok z) (Ok p) 1%Q = @np_periodic_arakawa_vec Q NumQ (Ok z) (Ok p) 1%Q /\
  @np_periodic_arakawa Q NumQ (fun _ _ => 77%Q) (Ok z) (Ok p) 1%Q = @np_periodic_arakawa_vec Q NumQ (Ok z) (Ok p) 1%Q /\
  @np_periodic_arakawa_vec Q NumQ (Ok z) (Ok p) 1%Q <> Exn ValueError.
Proof. vm_compute. repeat split; discriminate. Qed.

(** C08: bilinear, antisymmetric, kills constants. *)
Theorem C08_bracket_algebra : forall ny nx (dx : R), 0 < ny -> 0 < nx ->
  exists J : (nat -> nat -> R) -> (nat -> nat -> R) -> (nat -> nat -> R),
    (forall f g, np_periodic_arakawa_vec (Ok (grid ny nx f)) (Ok (grid ny nx g)) dx = Ok (grid ny nx (J f g))) /\
    (forall f g i j, J f g i j = - J g f i j)%R /\
    (forall a b f g h i j, J (fadd (fscale a f) (fscale b g)) h i j = a * J f h i j + b * J g h i j)%R /\
    (forall a b f g h i j, J h (fadd (fscale a f) (fscale b g)) i j = a * J h f i j + b * J h g i j)%R /\
    (forall f i j, J f f i j = 0)%R /\
    (forall f c i j, J f (fconst c) i j = 0)%R.
Proof. exact c08. Qed.
Print Assumptions C08_bracket_algebra.

(** C09: mean, energy and enstrophy are conserved by the bracket. *)
Theorem C09_bracket_conserves : forall ny nx (dx : R) f g J, 0 < ny -> 0 < nx ->
  np_periodic_arakawa_vec (Ok (grid ny nx f)) (Ok (grid ny nx g)) dx = Ok (grid ny nx J) ->
  gsum ny nx J = 0%R /\ inner ny nx f J = 0%R /\ inner ny nx g J = 0%R.
Proof. exact c09. Qed.
Print Assumptions C09_bracket_conserves.

(** the bracket itself is not identically zero: conservation says something *)
Example C09_example :
  let z := @grid Q 4 4 (fun i j => inject_Z (Z.of_nat (i * i + 2 * j * j))) in
  let p := @grid Q 4 4 (fun i j => inject_Z (Z.of_nat (3 * i + i * j))) in
  match @np_periodic_arakawa_vec Q NumQ (Ok z) (Ok p) 1%Q with
  | Ok a => nth 5 (data a) 0%Q = (43#3)%Q | Exn _ => False end.
Proof. vm_compute. reflexivity. Qed.

(** C10: on quadratics sampled at spacing dx the padded bracket returns
    dA/dx dB/dy - dA/dy dB/dx at the cell, plus a constant dx^2/3 times
    A_xy (B_yy - B_xx)/2 - B_xy (A_yy - A_xx)/2 (zero as soon as one of the two
    is affine): orientation, sign and scale. *)
Theorem C10_orientation_and_scale :
  forall ny nx dx a0 a1 a2 a3 a4 a5 b0 b1 b2 b3 b4 b5, dx <> 0%R ->
  let za i j := quad a0 a1 a2 a3 a4 a5 (INR i * dx) (INR j * dx) in
  let zb i j := quad b0 b1 b2 b3 b4 b5 (INR i * dx) (INR j * dx) in
  np_arakawa_vec (Ok (grid (1 + ny + 1) (1 + nx + 1) za)) (Ok (grid (1 + ny + 1) (1 + nx + 1) zb)) dx =
  Ok (grid ny nx (fun i j =>
    let y := (INR (i + 1) * dx)%R in let x := (INR (j + 1) * dx)%R in
    quad_dx a0 a1 a2 a3 a4 a5 y x * quad_dy b0 b1 b2 b3 b4 b5 y x
    - quad_dy a0 a1 a2 a3 a4 a5 y x * quad_dx b0 b1 b2 b3 b4 b5 y x
    + dx ^ 2 / 3 * (a4 * (b3 - b5) - (a3 - a5) * b4)))%R.
Proof. exact c10. Qed.
Print Assumptions C10_orientation_and_scale.

(** C11: the phiml bracket has the opposite sign. *)
Theorem C11_phiml_bracket_is_negated : forall ny nx (dx : R) f g, 0 < ny -> 0 < nx ->
  exists J, np_periodic_arakawa_vec (Ok (grid ny nx f)) (Ok (grid ny nx g)) dx = Ok (grid ny nx J) /\
            pm_periodic_arakawa_vec (Ok (grid ny nx f)) (Ok (grid ny nx g)) dx = Ok (grid ny nx (fopp J)).
Proof. exact c11. Qed.
Print Assumptions C11_phiml_bracket_is_negated.

(** C11: so the two backends do not agree. *)
Theorem C11_backends_agree_refuted :
  exists z p : arr Q, wf z /\ wf p /\ shape z = [3; 3] /\ shape p = [3; 3] /\
  @pm_periodic_arakawa_vec Q NumQ (Ok z) (Ok p) 1%Q <> @np_periodic_arakawa_vec Q NumQ (Ok z) (Ok p) 1%Q.
Proof.
  exists (@grid Q 3 3 (fun i j => inject_Z (Z.of_nat (i * i + 2 * j * j)))),
         (@grid Q 3 3 (fun i j => inject_Z (Z.of_nat (3 * i + i * j)))).
  repeat split. vm_compute. discriminate.
Qed.
Print Assumptions C11_backends_agree_refuted.
