(** C116, C117: rows and times of the plots in binary64.
    Model: ModelPlot64.v, ModelPlot.v (np_arange, get_uniform_x at TimeF64);
    vocabulary: SpecPlot64.v, SpecRound.v; proofs: FloorFacts.v, PlotRound.v, AxisRound.v. *)
From Coq Require Import ZArith Reals Lra Lia List String SpecFloat Bool.
From Verif Require Import Num NdArray ModelIO ModelRun ModelPlot ModelPlot64 SpecRound SpecPlot64 RoundFacts FloorFacts PlotRound AxisRound.
Import ListNotations.
Local Open Scope R_scope.

(** C116: // of binary64 numbers is the exact floor of the exact quotient of its
    operands, up to quotients of 2^49 *)
Theorem C116_floordiv : forall a b q, finite64 a -> finite64 b -> 0 < fval b -> Rabs (fval a) <= 2 ^ 49 * fval b -> Rabs (fval a) <= 2 ^ 1023 ->
  IZR q <= fval a / fval b < IZR q + 1 ->
  finite64 (f64_floordiv a b) /\ fval (f64_floordiv a b) = IZR q /\ f64_trunc (f64_floordiv a b) = Ok q.
Proof.
  intros a b q Ha Hb Pb B1 B2 H. destruct (floordiv_exact a b q Ha Hb Pb B1 B2 H) as [F E]. split; [exact F|]. split; [exact E|]. now apply trunc_int.
Qed.
Print Assumptions C116_floordiv.

(** C116: the row of an image *)
Theorem C116_image : forall (V : Type) (f : h5 V f64) dt tin n t, equal_rows64 f dt tin n -> finite64 t ->
  Rabs (fval t - fval tin) <= 2 ^ 48 * fval dt -> Rabs (fval t - fval tin) <= 2 ^ 1000 ->
  let d := SFsub 53 1024 t tin in
  (forall r, (r < n)%nat -> INR r <= fval d / fval dt < INR r + 1 -> image_row64 f t = Ok r) /\
  (INR n <= fval d / fval dt -> image_row64 f t = Exn IndexError) /\
  (forall r, (0 < r <= n)%nat -> - INR r <= fval d / fval dt < - INR r + 1 -> image_row64 f t = Ok (n - r)%nat).
Proof. exact c116_image. Qed.
Print Assumptions C116_image.

(** C116: asked for the binary64 product k * dt it shows row k if that product was
    rounded up or is exact, and row k - 1 if it was rounded down *)
Theorem C116_multiple : forall (V : Type) (f : h5 V f64) dt tin n k, equal_rows64 f dt tin n -> fval tin = 0 -> scale64 (fval dt) ->
  (k < n)%nat -> (Z.of_nat k <= 2 ^ 40)%Z ->
  let t := SFmul 53 1024 (f64_ofZ (Z.of_nat k)) dt in
  (INR k * fval dt <= fval t -> image_row64 f t = Ok k) /\
  (fval t < INR k * fval dt -> (0 < k)%nat /\ image_row64 f t = Ok (k - 1)%nat).
Proof. exact c116_multiple. Qed.
Print Assumptions C116_multiple.

(** 0.05 and 0.025 in binary64 *)
Definition dt20 : f64 := SFdiv 53 1024 (f64_ofZ 1) (f64_ofZ 20).
Definition dt40 : f64 := SFdiv 53 1024 (f64_ofZ 1) (f64_ofZ 40).
Definition file64 (dt : f64) (n : nat) : h5 unit f64 :=
  mkH5 [("density"%string, Rows (repeat (RFrame tt) n))] [("frame_dt"%string, AT dt); ("initial_time"%string, AT (f64_ofZ 0))].
Lemma file64_ok dt n : finite64 dt -> 0 < fval dt -> equal_rows64 (file64 dt n) dt (f64_ofZ 0) n.
Proof.
  intros F P. constructor; try reflexivity.
  - eexists. split; [reflexivity|]. apply repeat_length.
  - split; [exact F|]. split; [exact P|]. split; [vm_compute; reflexivity|exact I].
Qed.
Lemma dt20_ok : finite64 dt20 /\ scale64 (fval dt20) /\ 0 < fval dt20.
Proof.
  assert (E : dt20 = S754_finite false 7205759403792794 (-57)) by (vm_compute; reflexivity). rewrite E.
  split; [split; [vm_compute; reflexivity|exact I]|].
  assert (V : fval (S754_finite false 7205759403792794 (-57)) = 7205759403792794 / 2 ^ 57).
  { unfold fval, two. cbn [powerRZ]. replace (Pos.to_nat 57) with 57%nat by reflexivity. reflexivity. }
  rewrite V. split; [|lra]. unfold scale64. split.
  - apply Rle_trans with (/ 2 ^ 10); [apply Rinv_le_contravar; [lra|apply Rle_pow; [lra|lia]]|lra].
  - apply Rle_trans with (2 ^ 1); [lra|apply Rle_pow; [lra|lia]].
Qed.
(** C116, refuted: a user relies on the image for time k * frame_dt being frame k.
    With frame_dt = 0.05, time 1 = 20 * 0.05 shows frame 19 *)
Theorem C116_exact_refuted : ~ (forall (f : h5 unit f64) dt n k, equal_rows64 f dt (f64_ofZ 0) n -> scale64 (fval dt) -> (k < n)%nat ->
  image_row64 f (SFmul 53 1024 (f64_ofZ (Z.of_nat k)) dt) = Ok k).
Proof.
  intros H. destruct dt20_ok as (F & S & P). specialize (H (file64 dt20 21) dt20 21%nat 20%nat (file64_ok dt20 21 F P) S ltac:(lia)).
  revert H. vm_compute. discriminate.
Qed.
Print Assumptions C116_exact_refuted.
(** ... and with the defaults, frame_dt = 0.025 and t = 200 = 8000 * 0.025, row 7999 *)
Theorem C116_default_refuted : forall (V : Type) (f : h5 V f64) n, equal_rows64 f dt40 (f64_ofZ 0) n -> (7999 < Z.of_nat n)%Z ->
  image_row64 f (f64_ofZ 200) = Ok (Z.to_nat 7999) /\ SFmul 53 1024 (f64_ofZ 8000) dt40 = f64_ofZ 200.
Proof.
  intros V f n F H. split; [|vm_compute; reflexivity]. rewrite (image_eval f dt40 (f64_ofZ 0) n F).
  replace (f64_trunc (f64_floordiv (SFsub 53 1024 (f64_ofZ 200) (f64_ofZ 0)) dt40)) with (@Ok Z 7999%Z) by (vm_compute; reflexivity).
  cbn [bind]. rewrite <- (Z2Nat.id 7999%Z) at 1 by lia. apply row_in. lia.
Qed.
Print Assumptions C116_default_refuted.
Example C116_case : equal_rows64 (file64 dt20 21) dt20 (f64_ofZ 0) 21 /\ SFmul 53 1024 (f64_ofZ (Z.of_nat 20)) dt20 = f64_ofZ 1 /\
  image_row64 (file64 dt20 21) (f64_ofZ 1) = Ok 19%nat /\ image_row64 (file64 dt20 21) (SFmul 53 1024 (f64_ofZ 19) dt20) = Ok 19%nat /\
  image_row64 (file64 dt20 21) (f64_ofZ 2) = Exn IndexError /\ image_row64 (file64 dt20 21) (f64_ofZ (-1)) = Ok 1%nat.
Proof.
  destruct dt20_ok as (F & _ & P). split; [now apply file64_ok|]. repeat split; vm_compute; reflexivity.
Qed.

(** C116: the first row of a time trace is the exact floor as well *)
Theorem C116_start : forall (V : Type) (f : h5 V f64) dt tin n t q, equal_rows64 f dt tin n -> finite64 t ->
  Rabs (fval t) <= 2 ^ 48 * fval dt -> Rabs (fval t) <= 2 ^ 1000 -> IZR q <= fval t / fval dt < IZR q + 1 -> start_index64 f t = Ok q.
Proof. exact c116_start. Qed.
Print Assumptions C116_start.
Example C116_start_case : start_index64 (file64 dt20 21) (f64_ofZ 1) = Ok 19%Z.
Proof. vm_compute. reflexivity. Qed.

(** C116: movies round to the nearest row: every time within a quarter of the
    spacing of k * dt gives row k, and a movie without limits covers all rows *)
Theorem C116_nearest : forall t dt k, finite64 t -> finite64 dt -> 0 < fval dt -> (Z.abs k <= 2 ^ 48)%Z ->
  Rabs (fval t - IZR k * fval dt) <= fval dt / 4 -> time_to_length64 t dt = Ok k.
Proof. exact ttl. Qed.
Print Assumptions C116_nearest.
Theorem C116_movie : forall (V : Type) (f : h5 V f64) dt tin n, equal_rows64 f dt tin n -> fval tin = 0 -> scale64 (fval dt) ->
  (0 < n)%nat -> (Z.of_nat n <= 2 ^ 40)%Z -> movie_rows64 f (f64_ofZ 0) None = Ok (0%Z, (Z.of_nat n - 1)%Z).
Proof. exact c116_movie. Qed.
Print Assumptions C116_movie.
Example C116_movie_case : time_to_length64 (f64_ofZ 1) dt20 = Ok 20%Z /\ movie_rows64 (file64 dt20 21) (f64_ofZ 0) None = Ok (0%Z, 20%Z).
Proof. split; vm_compute; reflexivity. Qed.

(** C117: in binary64 get_uniform_x has exactly one time per value, and each lies
    within (i + 4) rounding errors of the largest time of t0 + i * dt *)
Theorem C117_axis : forall (X : Type) (values : list X) t0 dt, finite64 t0 -> finite64 dt -> scale64 (fval dt) ->
  let L := List.length values in let T := Rabs (fval t0) + INR (L + 1) * fval dt in T <= 2 ^ 47 * fval dt ->
  exists x, get_uniform_x (TN := TimeF64) values dt t0 = Ok x /\ List.length x = L /\
  forall i, (i < L)%nat -> near (nth i x t0) (fval t0 + INR i * fval dt) ((INR i + 4) * (uro * T)).
Proof. intros X values t0 dt Ft Fd Sd L T HT. exact (axis_ok t0 dt L Ft Fd Sd HT values eq_refl). Qed.
Print Assumptions C117_axis.
(** C117, refuted: np.arange(t0, t0 + n * dt, dt) by itself has n values.  For 0.1
    and n = 3 it has four *)
Theorem C117_arange_refuted : ~ (forall dt t0 n x, finite64 dt -> scale64 (fval dt) -> finite64 t0 ->
  np_arange (TN := TimeF64) t0 (SFadd 53 1024 t0 (SFmul 53 1024 (f64_ofZ (Z.of_nat n)) dt)) dt = Ok x -> List.length x = n).
Proof.
  intros H. assert (E : SFdiv 53 1024 (f64_ofZ 1) (f64_ofZ 10) = S754_finite false 7205759403792794 (-56)) by (vm_compute; reflexivity).
  assert (V : fval (S754_finite false 7205759403792794 (-56)) = 7205759403792794 / 2 ^ 56).
  { unfold fval, two. cbn [powerRZ]. replace (Pos.to_nat 56) with 56%nat by reflexivity. reflexivity. }
  assert (G : exists x, np_arange (TN := TimeF64) (f64_ofZ 0) (SFadd 53 1024 (f64_ofZ 0) (SFmul 53 1024 (f64_ofZ (Z.of_nat 3)) (S754_finite false 7205759403792794 (-56)))) (S754_finite false 7205759403792794 (-56)) = Ok x /\ List.length x = 4%nat).
  { eexists. split; [vm_compute; reflexivity|reflexivity]. }
  destruct G as (x & Ex & Lx). specialize (H (S754_finite false 7205759403792794 (-56)) (f64_ofZ 0) 3%nat x).
  rewrite H in Lx; [discriminate|split; [vm_compute; reflexivity|exact I]| |split; [vm_compute; reflexivity|exact I]|exact Ex].
  rewrite V. unfold scale64. split.
  - apply Rle_trans with (/ 2 ^ 10); [apply Rinv_le_contravar; [lra|apply Rle_pow; [lra|lia]]|lra].
  - apply Rle_trans with (2 ^ 1); [lra|apply Rle_pow; [lra|lia]].
Qed.
Print Assumptions C117_arange_refuted.
(** three values from 0 with spacing 0.05: the third is not twice the second *)
Example C117_case : finite64 dt20 /\ scale64 (fval dt20) /\ Rabs (fval (f64_ofZ 1)) + INR (3 + 1) * fval dt20 <= 2 ^ 47 * fval dt20 /\
  get_uniform_x (TN := TimeF64) [tt; tt; tt] dt20 (f64_ofZ 1) =
    Ok [f64_ofZ 1; S754_finite false 4728779608739021 (-52); S754_finite false 4953959590107546 (-52)].
Proof.
  destruct dt20_ok as (F & S & P). split; [exact F|]. split; [exact S|]. split; [|vm_compute; reflexivity].
  assert (E : dt20 = S754_finite false 7205759403792794 (-57)) by (vm_compute; reflexivity).
  assert (V : fval dt20 = 7205759403792794 / 2 ^ 57).
  { rewrite E. unfold fval, two. cbn [powerRZ]. replace (Pos.to_nat 57) with 57%nat by reflexivity. reflexivity. }
  destruct (ofZ_exact 1 ltac:(lia)) as [_ O]. unfold f64_ofZ. rewrite O, V, Rabs_R1. cbn [INR plus]. lra.
Qed.
