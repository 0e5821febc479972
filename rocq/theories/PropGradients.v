(** Properties C01-C04 and the gradient part of C06.  Statements only; proofs
    are in GradFacts.v / LapFacts.v. *)
From Coq Require Import List Arith ZArith Lia Reals QArith.
From Verif Require Import Num NdArray NdFacts ModelGradients Spec GradFacts SumFacts LapFacts GradProps.
Import ListNotations.
Local Open Scope nat_scope.

(** C01: both hyper-Laplacians return the same array, for every arithmetic,
    every 2-D array (empty axes included) and every order N >= 0. *)
Theorem C01_laplace_N_same_bits :
  forall (A : Type) (N : Num A) (a : arr A) (dx : A) (n : Z),
    wf a -> length (shape a) = 2 -> (0 <= n)%Z ->
    nb_periodic_laplace_N (Ok a) dx n = np_periodic_laplace_N (Ok a) dx n.
Proof. exact @laplace_N_agree. Qed.
Print Assumptions C01_laplace_N_same_bits.

(** C01: and the value is the n-fold periodic five-point stencil. *)
Theorem C01_laplace_N_value :
  forall (A : Type) (N : Num A) ny nx (dx : A) (n : Z) (f : nat -> nat -> A),
    0 < ny -> 0 < nx -> (0 <= n)%Z ->
    nb_periodic_laplace_N (Ok (grid ny nx f)) dx n =
    Ok (grid ny nx (lap_iter (Z.to_nat n) ny nx dx f)).
Proof. exact @nb_periodic_laplace_N_grid. Qed.
Print Assumptions C01_laplace_N_value.

(** C01: one application, in both versions, is one periodic five-point stencil. *)
Theorem C01_laplace_value :
  forall (A : Type) (N : Num A) ny nx (dx : A) (f : nat -> nat -> A), 0 < ny -> 0 < nx ->
    nb_periodic_laplace (Ok (grid ny nx f)) dx = Ok (grid ny nx (lap5 ny nx dx f)) /\
    np_periodic_laplace (Ok (grid ny nx f)) dx = Ok (grid ny nx (lap5 ny nx dx f)).
Proof. intros A N ny nx dx f Hy Hx. split; [now apply nb_periodic_laplace_grid|now apply np_periodic_laplace_grid]. Qed.
Print Assumptions C01_laplace_value.

(** C01: a negative order separates the two: the accelerated one raises. *)
Theorem C01_negative_order_differs :
  forall (A : Type) (N : Num A) (a : arr A) (dx : A) (n : Z), (n < 0)%Z ->
    nb_periodic_laplace_N (Ok a) dx n = Exn ValueError /\
    np_periodic_laplace_N (Ok a) dx n = Ok a.
Proof. exact @laplace_N_negative. Qed.
Print Assumptions C01_negative_order_differs.

(** a 2x3 grid with N = 5, wider than the grid, computed by both *)
Example C01_example :
  let a := @grid Q 2 3 (fun i j => inject_Z (Z.of_nat (i * i + 2 * j * j))) in
  @nb_periodic_laplace_N Q NumQ (Ok a) 1%Q 5 =
  Ok (@mkArr Q [3; 2] [1322; 836; -622; 298; -188; -1646]%Q)
  /\ @np_periodic_laplace_N Q NumQ (Ok a) 1%Q 5 = @nb_periodic_laplace_N Q NumQ (Ok a) 1%Q 5.
Proof. split; vm_compute; reflexivity. Qed.

(** C02: gradients agree bit for bit; negative axes are the positive ones. *)
Theorem C02_gradients_same_bits :
  forall (A : Type) (N : Num A) (a : arr A) (dx : A) (axis : Z),
    (axis = 0 \/ axis = 1)%Z ->
    nb_periodic_gradient (Ok a) dx axis = np_periodic_gradient (Ok a) dx axis.
Proof. exact @nb_np_grad. Qed.
Print Assumptions C02_gradients_same_bits.

Theorem C02_negative_axes :
  forall (A : Type) (N : Num A) (a : arr A) (dx : A), length (shape a) = 2 ->
    np_periodic_gradient (Ok a) dx (-2) = np_periodic_gradient (Ok a) dx 0 /\
    np_periodic_gradient (Ok a) dx (-1) = np_periodic_gradient (Ok a) dx 1.
Proof. exact @np_grad_negative_axes. Qed.
Print Assumptions C02_negative_axes.

Theorem C02_value :
  forall (A : Type) (N : Num A) ny nx (dx : A) (f : nat -> nat -> A) (axis : Z),
    0 < ny -> 0 < nx -> (axis = 0 \/ axis = 1)%Z ->
    np_periodic_gradient (Ok (grid ny nx f)) dx axis =
    Ok (Some (grid ny nx (if (axis =? 0)%Z then cdy ny dx f else cdx nx dx f))).
Proof. exact @np_grad_pos. Qed.
Print Assumptions C02_value.

Theorem C02_other_axis_none :
  forall (A : Type) (N : Num A) (a : arr A) (dx : A) (axis : Z),
    wf a -> shape a <> [] -> Forall (fun d => 0 < d) (shape a) -> length (shape a) = 2 ->
    (2 <= axis \/ axis <= -3)%Z ->
    np_periodic_gradient (Ok a) dx axis = Ok None.
Proof. exact @np_grad_other_axis. Qed.
Print Assumptions C02_other_axis_none.

(** C02: the accelerated version knows no negative axis at all. *)
Theorem C02_numba_negative_axis_none :
  forall (A : Type) (N : Num A) (a : arr A) (dx : A) (axis : Z),
    wf a -> Forall (fun d => 0 < d) (shape a) -> length (shape a) = 2 ->
    (axis <> 0 /\ axis <> 1)%Z ->
    nb_periodic_gradient (Ok a) dx axis = Ok None.
Proof. exact @nb_grad_other_axis. Qed.
Print Assumptions C02_numba_negative_axis_none.

Example C02_example :
  let a := @grid Q 3 2 (fun i j => inject_Z (Z.of_nat (i * i + 3 * j))) in
  @np_periodic_gradient Q NumQ (Ok a) (1#2)%Q (-2) =
  Ok (Some (@mkArr Q [2; 3] [(-3); (-3); 4; 4; (-1); (-1)]%Q)).
Proof. vm_compute. reflexivity. Qed.

(** C03: linear, constant-annihilating, sum zero. *)
Theorem C03_laplace : forall ny nx (dx : R), 0 < ny -> 0 < nx ->
  exists L : (nat -> nat -> R) -> (nat -> nat -> R),
    (forall f, np_periodic_laplace (Ok (grid ny nx f)) dx = Ok (grid ny nx (L f))) /\
    (forall a b f g i j, L (fadd (fscale a f) (fscale b g)) i j = (a * L f i j + b * L g i j)%R) /\
    (forall c i j, L (fconst c) i j = 0%R) /\
    (forall f, gsum ny nx (L f) = 0%R).
Proof. exact c03_laplace. Qed.
Print Assumptions C03_laplace.

Theorem C03_gradient : forall ny nx (dx : R) (axis : Z), 0 < ny -> 0 < nx ->
  (axis = 0 \/ axis = 1 \/ axis = -1 \/ axis = -2)%Z ->
  exists L : (nat -> nat -> R) -> (nat -> nat -> R),
    (forall f, np_periodic_gradient (Ok (grid ny nx f)) dx axis = Ok (Some (grid ny nx (L f)))) /\
    (forall a b f g i j, L (fadd (fscale a f) (fscale b g)) i j = (a * L f i j + b * L g i j)%R) /\
    (forall c i j, L (fconst c) i j = 0%R) /\
    (forall f, gsum ny nx (L f) = 0%R).
Proof. exact c03_gradient. Qed.
Print Assumptions C03_gradient.

(** C04: summation by parts and ellipticity. *)
Theorem C04_gradient_skew : forall ny nx (dx : R) (axis : Z) f g df dg,
  0 < ny -> 0 < nx -> (axis = 0 \/ axis = 1 \/ axis = -1 \/ axis = -2)%Z ->
  np_periodic_gradient (Ok (grid ny nx f)) dx axis = Ok (Some (grid ny nx df)) ->
  np_periodic_gradient (Ok (grid ny nx g)) dx axis = Ok (Some (grid ny nx dg)) ->
  inner ny nx f dg = (- inner ny nx df g)%R.
Proof. exact c04_skew. Qed.
Print Assumptions C04_gradient_skew.

Theorem C04_laplace_selfadjoint_negative : forall ny nx (dx : R) f g lf lg,
  0 < ny -> 0 < nx -> dx <> 0%R ->
  np_periodic_laplace (Ok (grid ny nx f)) dx = Ok (grid ny nx lf) ->
  np_periodic_laplace (Ok (grid ny nx g)) dx = Ok (grid ny nx lg) ->
  inner ny nx f lg = inner ny nx lf g /\
  inner ny nx f lf =
    (- (gsum ny nx (fun i j => fdx nx f i j * fdx nx f i j + fdy ny f i j * fdy ny f i j) / (dx * dx)))%R /\
  (inner ny nx f lf <= 0)%R /\
  (inner ny nx f lf = 0%R <-> is_const ny nx f).
Proof. exact c04_laplace. Qed.
Print Assumptions C04_laplace_selfadjoint_negative.

(** C03/C04: the arrays the hypotheses speak of exist for every field, e.g. a
    non-constant one on a 2 x 3 grid *)
Example C04_example :
  exists lf, np_periodic_laplace (Ok (grid 2 3 (fun i j => INR (i + j)))) 1%R = Ok (grid 2 3 lf) /\
  ~ is_const 2 3 (fun i j => INR (i + j)).
Proof. exact c04_example. Qed.

(** C06: an array with leading axes is processed frame by frame. *)
Theorem C06_laplace_framewise :
  forall (A : Type) (N : Num A) (a : arr A) (dx : A) nx ny rest,
    wf a -> shape a = nx :: ny :: rest -> 0 < ny -> 0 < nx ->
    exists b, np_periodic_laplace (Ok a) dx = Ok b /\ wf b /\ shape b = shape a /\
      forall r, inb rest r ->
        np_periodic_laplace (Ok (frame a r)) dx = Ok (frame b r).
Proof. exact @c06_laplace. Qed.
Print Assumptions C06_laplace_framewise.

Theorem C06_laplace_N_framewise :
  forall (A : Type) (N : Num A) (a : arr A) (dx : A) (n : Z) nx ny rest,
    wf a -> shape a = nx :: ny :: rest -> 0 < ny -> 0 < nx ->
    exists b, np_periodic_laplace_N (Ok a) dx n = Ok b /\ wf b /\ shape b = shape a /\
      forall r, inb rest r ->
        np_periodic_laplace_N (Ok (frame a r)) dx n = Ok (frame b r).
Proof. exact @c06_laplace_N. Qed.
Print Assumptions C06_laplace_N_framewise.

Theorem C06_gradient_framewise :
  forall (A : Type) (N : Num A) (a : arr A) (dx : A) (axis : Z) nx ny rest,
    wf a -> shape a = nx :: ny :: rest -> 0 < ny -> 0 < nx -> (axis = -1 \/ axis = -2)%Z ->
    exists b, np_periodic_gradient (Ok a) dx axis = Ok (Some b) /\ wf b /\ shape b = shape a /\
      forall r, inb rest r ->
        np_periodic_gradient (Ok (frame a r)) dx axis = Ok (Some (frame b r)).
Proof. exact @c06_gradient. Qed.
Print Assumptions C06_gradient_framewise.

(** C06: with a positive axis a 3-D stack is NOT processed framewise (axis 0
    is then time, and the last axis comes back padded). *)
Theorem C06_positive_axis_refuted :
  exists (a b : arr Q), wf a /\ shape a = [2; 2; 2] /\
    @np_periodic_gradient Q NumQ (Ok a) 1%Q 0 = Ok (Some b) /\ shape b <> shape a.
Proof. exact c06_positive_axis. Qed.
Print Assumptions C06_positive_axis_refuted.

(** two different frames of different content in one batch *)
Example C06_example :
  let a := @build Q [2; 2; 2] (fun ix => inject_Z (Z.of_nat (nth 0 ix 0 + 5 * nth 1 ix 0 * nth 2 ix 0))) in
  wf a /\ shape a = [2; 2; 2] /\ frame (N:=NumQ) a [0] <> frame (N:=NumQ) a [1].
Proof. exact c06_example. Qed.
