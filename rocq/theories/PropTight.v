(** Statements added after mutation testing: definitions could be edited
    without breaking the theorems of their properties. *)
From Coq Require Import List Arith ZArith Reals Lra Lia Bool String SpecFloat.
Import List.
From Verif Require Import Num NdArray Cplx ModelGradients ModelHW ModelBackend ModelIO ModelRun ModelRunHW ModelDownsample ModelPlot ModelBench ModelMovie SpecArgs
  SpecRound TightFacts.
Import ListNotations.
Local Open Scope R_scope.
Local Open Scope string_scope.

(** C72: of the wave with two cells of the coarse grid per period the cosine
    is kept with its full amplitude, as alternating values, and the sine lost *)
Theorem C72_nyquist : forall m n (a b : R) i j, (0 < m)%nat -> (2 * m < n)%nat ->
  resample2 (2 * m) (2 * m) n n (fun _ j => a * cos (2 * PI * INR m * (INR j / INR n)) + b * sin (2 * PI * INR m * (INR j / INR n))) i j
  = a * (-1) ^ j.
Proof. exact resample2_nyq. Qed.
Print Assumptions C72_nyquist.
Example C72_nyquist_example : forall i,
  resample2 4 4 8 8 (fun _ j => 3 * cos (2 * PI * INR 2 * (INR j / INR 8)) + 5 * sin (2 * PI * INR 2 * (INR j / INR 8))) i 1 = -3.
Proof. intros. change 4%nat with (2 * 2)%nat. rewrite (C72_nyquist 2 8) by lia. lra. Qed.

(** C117, refuted without the bound on the times: the axis is within half an
    interval of t0 + i * dt.  From 2^53 on the times of an axis with interval 1
    are all equal *)
Theorem C117_stuck_refuted : ~ (forall (X : Type) (values : list X) t0 dt x, finite64 t0 -> finite64 dt -> 0 < fval dt ->
  get_uniform_x (TN := TimeF64) values dt t0 = Ok x ->
  forall i, (i < List.length values)%nat -> Rabs (fval (nth i x t0) - (fval t0 + INR i * fval dt)) <= fval dt / 2).
Proof.
  intros H. set (t0 := f64_ofZ (2 ^ 53)%Z). set (dt := f64_ofZ 1%Z).
  assert (E : get_uniform_x (TN := TimeF64) [tt; tt; tt; tt] dt t0 = Ok [t0; t0; t0; t0]) by (vm_compute; reflexivity).
  assert (V : fval dt = 1).
  { unfold dt. replace (f64_ofZ 1) with (S754_finite false 4503599627370496 (-52)) by (vm_compute; reflexivity).
    unfold fval, two. cbn [powerRZ]. replace (Pos.to_nat 52) with 52%nat by reflexivity. cbn [Z.of_nat]. lra. }
  specialize (H unit [tt; tt; tt; tt] t0 dt _ ltac:(split; [vm_compute; reflexivity|exact I]) ltac:(split; [vm_compute; reflexivity|exact I]) ltac:(lra) E
    3%nat ltac:(cbn; lia)). cbn [nth] in H. rewrite V in H. cbn [INR] in H.
  replace (fval t0 - (fval t0 + (1 + 1 + 1) * 1)) with (- 3) in H by ring. unfold Rabs in H. destruct (Rcase_abs (-3)); lra.
Qed.
Print Assumptions C117_stuck_refuted.

(** C18: an object built from the five required arguments has the coefficients
    of the equations equal to one, no zonal transform and the conservation
    terms on; nothing else but the given numbers *)
Theorem C18_defaults : forall (b : backend R) (dx c1 nu k0 : R) (N : nat), k0 <> 0 ->
  hw_of_phys b [("dx", AT dx); ("N", AZ (Z.of_nat N)); ("c1", AT c1); ("nu", AT nu); ("k0", AT k0)] =
  Ok {| schemes := b; hN := Z.of_nat N; hc1 := c1; hnu := (-1) ^ (N + 1) * nu; hpb := 1; hkappa := 1; hdx := dx;
        hzonal := false; htest := true |}.
Proof.
  intros b dx c1 nu k0 N Hk. unfold hw_of_phys. cbn -[Req_EM_T hw_init]. destruct (Req_EM_T k0 0); [contradiction|].
  unfold hw_init. do 2 f_equal. cbn [nmul NumR]. f_equal. unfold sign_pow.
  replace (Z.of_nat N + 1)%Z with (Z.of_nat (N + 1)) by lia. generalize (N + 1)%nat as M. clear. intros M.
  induction M as [|M IH]; [reflexivity|]. rewrite Nat2Z.inj_succ, Z.even_succ, <- Z.negb_even. cbn [pow].
  rewrite <- IH. destruct (Z.even (Z.of_nat M)); cbn; lra.
Qed.
Print Assumptions C18_defaults.
Example C18_defaults_case : (1 / 10 : R) <> 0. Proof. lra. Qed.

(** C124: the name of the movie file tells resolution, pictures per second,
    speed, first and last time, in this order *)
Theorem C124_name : forall (fmt0 str : R -> string) out dpi fps speed t0 t1,
  movie_name fmt0 str out dpi fps speed t0 t1 =
  String.concat "" [out; "_dpi="; dpi; "_fps="; fmt0 fps; "_speed="; fmt0 speed; "_t0="; str t0; "_t1="; str t1; ".mp4"].
Proof. intros. unfold movie_name. cbn [String.concat]. reflexivity. Qed.
Print Assumptions C124_name.
Example C124_name_case : movie_name (fun _ => "25") (fun x => if Req_EM_T x 0 then "0" else "99") "movie" "75" 25 25 0 99 =
  "movie_dpi=75_fps=25_speed=25_t0=0_t1=99.mp4".
Proof. unfold movie_name. destruct (Req_EM_T 0 0); [|lra]. destruct (Req_EM_T 99 0); [lra|]. reflexivity. Qed.

(** C113: the sizes measured are the powers of two from 16 to 4096, in
    increasing order *)
Theorem C113_sizes : (forall n, In n sizes <-> exists k, (4 <= k <= 12)%nat /\ n = (2 ^ k)%nat) /\
  (forall i j, (i < j < List.length sizes)%nat -> (nth i sizes 0 < nth j sizes 0)%nat) /\ List.length sizes = 9%nat.
Proof.
  split; [|split; [|reflexivity]].
  - intros n. unfold sizes. rewrite in_map_iff. split.
    + intros (k & <- & Hk). apply in_seq in Hk. exists k. split; [lia|reflexivity].
    + intros (k & Hk & ->). exists k. split; [reflexivity|]. apply in_seq. lia.
  - intros i j [Hi Hj]. unfold sizes in *. rewrite map_length, seq_length in Hj.
    rewrite !(nth_indep _ 0%nat (2 ^ 0)%nat) by (rewrite map_length, seq_length; lia).
    rewrite !map_nth with (f := fun k => (2 ^ k)%nat) (d := 0%nat). rewrite !seq_nth by lia. apply Nat.pow_lt_mono_r; lia.
Qed.
Print Assumptions C113_sizes.
