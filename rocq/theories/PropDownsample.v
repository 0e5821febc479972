(** Down-sampling of arrays and of recorded frames. *)
From Coq Require Import List Arith ZArith Reals Lra Lia Bool String.
Import List.
From Verif Require Import Num NdArray Spec Cplx SpecFourier SpecHW SpecPlasma SpecDiag ModelHW ModelBackend ModelIO ModelRun ModelRunHW
  ModelDownsample ModelArgs SpecIO SpecRun SpecRunHW SpecArgs SpecDownsample DsProps DsField DsEnergy DsTop RunHWWit.
Import ListNotations.
Local Open Scope R_scope.
Local Open Scope string_scope.
#[local] Existing Instance TimeR.

(** ** C47: pair means and strided slices *)
(** every axis but the first is halved, and the mean over those axes is kept:
    arrays of every rank whose axes have even sizes *)
Theorem C47_mean_kept : forall (ms : list nat) (n0 : nat) (f : list nat -> R), exists g,
  mean_downsample2x (Ok (build (map (Nat.mul 2) ms ++ [n0])%list f)) = Ok (build (ms ++ [n0])%list g) /\
  forall t, (t < n0)%nat -> imean ms (fun ix => g (ix ++ [t])%list) = imean (map (Nat.mul 2) ms) (fun ix => f (ix ++ [t])%list).
Proof. exact mean_preserved. Qed.
(** entry by entry for (t, y, x) arrays, in every arithmetic *)
Theorem C47_entries : forall {A} {NA : Num A} nt a b (F : list nat -> nat -> nat -> A),
  mean_downsample2x (Ok (stack [nt] (2 * a) (2 * b) F)) = Ok (stack [nt] a b (fun r i j =>
    let p j := ndiv (nadd (F r (2 * i)%nat j) (F r (2 * i + 1)%nat j)) (nofZ 2) in
    ndiv (nadd (p (2 * j)%nat) (p (2 * j + 1)%nat)) (nofZ 2))).
Proof. exact @mean_stack. Qed.
Theorem C47_odd_rejected : forall {A} {NA : Num A} nt a m nx (F : list nat -> nat -> nat -> A), (2 <= m)%nat ->
  mean_downsample2x (Ok (stack [nt] (2 * m + 1) nx F)) = Exn ValueError /\
  mean_downsample2x (Ok (stack [nt] (2 * a) (2 * m + 1) F)) = Exn ValueError.
Proof. intros A NA nt a m nx F H. exact (conj (mean_odd_y nt m nx F H) (mean_odd_x nt a m F H)). Qed.
(** three entries are not rejected (2 and 1 entries broadcast), and the mean changes *)
Theorem C47_three_entries_refuted : exists F G : list nat -> nat -> nat -> R,
  mean_downsample2x (Ok (stack [1%nat] 3 2 F)) = Ok (stack [1%nat] 2 1 G) /\ gmean 2 1 (G [0%nat]) <> gmean 3 2 (F [0%nat]).
Proof. exact mean_three_refuted. Qed.
(** a 2-D frame is halved in x only; one row stops the loop *)
Theorem C47_two_axes : forall {A} {NA : Num A} a b (f : nat -> nat -> A),
  mean_downsample2x (Ok (grid a (2 * b) f)) = Ok (grid a b (fun i j => ndiv (nadd (f i (2 * j)%nat) (f i (2 * j + 1)%nat)) (nofZ 2))).
Proof. exact @mean_two_axes. Qed.
Theorem C47_one_row : forall {A} {NA : Num A} nt nx (F : list nat -> nat -> nat -> A),
  mean_downsample2x (Ok (stack [nt] 1 nx F)) = Ok (stack [nt] 1 nx F).
Proof. exact @mean_one_y. Qed.
(** skip_downsampleNx: exactly the multiples of the factor *)
Theorem C47_skip : forall {A} {NA : Num A} nt ny nx (F : list nat -> nat -> nat -> A) m, (1 <= m)%nat ->
  skip_downsampleNx (Ok (stack [nt] ny nx F)) (Z.of_nat m)
  = Ok (stack [nt] (ceil_div ny m) (ceil_div nx m) (fun r i j => F r (m * i)%nat (m * j)%nat)) /\
  (forall n i, (i < ceil_div n m)%nat <-> (m * i < n)%nat).
Proof. intros A NA nt ny nx F m H. split; [exact (skip_stack nt ny nx F m H)|]. intros n i. split; [apply ceil_div_lt|apply ceil_div_ge]; exact H. Qed.
Theorem C47_skip_other_factors : forall {A} {NA : Num A} nt ny nx (F : list nat -> nat -> nat -> A),
  skip_downsampleNx (Ok (stack [nt] ny nx F)) 0 = Exn ValueError /\
  skip_downsampleNx (Ok (stack [nt] ny nx F)) (-1) = Ok (stack [nt] ny nx (fun r i j => F r (ny - 1 - i)%nat (nx - 1 - j)%nat)).
Proof. intros A NA nt ny nx F. exact (conj (skip_zero nt ny nx F) (skip_negative_one nt ny nx F)). Qed.
Example C47_example : mean_downsample2x (Ok (build [4; 2; 1]%nat (fun ix => INR (nth 0 ix 0%nat)))) = Ok (build [2; 1; 1]%nat (fun ix => 2 * INR (nth 0 ix 0%nat) + 1/2)) /\
  skip_downsampleNx (Ok (stack [1%nat] 5 3 (fun _ i j => INR (10 * i + j)))) 2 = Ok (stack [1%nat] 3 2 (fun _ i j => INR (20 * i + 2 * j))).
Proof.
  split.
  - change (build [4; 2; 1]%nat (fun ix => INR (nth 0 ix 0%nat))) with (stack [1%nat] (2 * 1) (2 * 2) (fun _ _ j => INR j)).
    rewrite C47_entries. unfold stack. f_equal. apply NdFacts.build_ext. intros ix _. cbn [ndiv nadd nofZ NumR].
    rewrite !plus_INR, !mult_INR. cbn [INR]. lra.
  - pose proof (proj1 (C47_skip 1%nat 5%nat 3%nat (fun _ i j => INR (10 * i + j)) 2%nat ltac:(lia))) as H. cbn [Z.of_nat Pos.of_succ_nat Pos.succ] in H.
    rewrite H. change (ceil_div 5 2) with 3%nat. change (ceil_div 3 2) with 2%nat. apply (f_equal Ok), NdFacts.stack_ext. intros. apply f_equal. lia.
Qed.
Print Assumptions C47_mean_kept.
Print Assumptions C47_entries.
Print Assumptions C47_odd_rejected.
Print Assumptions C47_three_entries_refuted.
Print Assumptions C47_two_axes.
Print Assumptions C47_one_row.
Print Assumptions C47_skip.
Print Assumptions C47_skip_other_factors.

(** ** C48: median_downsampleNx returns its input, whatever the factor *)
Theorem C48_identity_refuted : forall {A} (median : nat -> arr A -> nd A) (a : arr A) (factor : nat),
  shape a <> [] -> median_downsampleNx median (Ok a) factor = Ok a.
Proof. exact @median_identity. Qed.
Example C48_example : forall median, median_downsampleNx median (Ok (stack [1%nat] 4 4 (fun _ i j => INR (i + j)))) 2 = Ok (stack [1%nat] 4 4 (fun _ i j => INR (i + j))).
Proof. intro median. apply C48_identity_refuted. discriminate. Qed.
Print Assumptions C48_identity_refuted.

(** ** C49: the reserved frame has the size the down-sampling produces *)
Theorem C49_size : forall a phys props m, (0 < a_grid a)%nat -> (0 < m)%nat -> save_size a = Z.of_nat m ->
  forall f, exists v, down (args_cfg phys props a) (grid (a_grid a) (a_grid a) f) = Ok v /\
    shape v = [Z.to_nat (c_xs (args_cfg phys props a)); Z.to_nat (c_ys (args_cfg phys props a))].
Proof.
  intros a phys props m G M E f. exists (grid m m (frame_fnc a m f)). split; [exact (args_down phys props a m G M E f)|].
  cbn [c_xs c_ys args_cfg]. rewrite E, Nat2Z.id. reflexivity.
Qed.
(** that size is the quotient rounded to the nearest integer, ties to even *)
Theorem C49_rounding : forall a m, a_factor a <> 1 ->
  (save_size a = m <-> nearest_even m (INR (a_grid a) / a_factor a)).
Proof.
  intros a m F. unfold save_size. destruct (Req_EM_T (a_factor a) 1); [contradiction|]. split.
  - intros <-. apply round_nearest.
  - intros H. exact (nearest_unique _ _ _ (round_nearest _) H).
Qed.
(** a factor that leaves no cell is a ValueError *)
Theorem C49_nothing_left : forall rest ny nx (F : list nat -> nat -> nat -> R) s,
  (round_div nx s < 1)%Z \/ (round_div ny s < 1)%Z \/ nx = 0%nat \/ ny = 0%nat ->
  fourier_downsample (Ok (stack rest ny nx F)) s = Exn ValueError.
Proof. exact fourier_vanishes. Qed.
(** ties: 5 cells with factor 2 give 2, 7 cells give 4 *)
Example C49_ties : round_div 5 2 = 2%Z /\ round_div 7 2 = 4%Z.
Proof.
  split; apply (nearest_unique _ _ (INR _ / 2) (round_nearest _)); right; cbn; (split; [|reflexivity]).
  - rewrite Rabs_right; lra.
  - rewrite Rabs_left; lra.
Qed.
Print Assumptions C49_size.
Print Assumptions C49_rounding.
Print Assumptions C49_nothing_left.

(** ** C72: Fourier down-sampling *)
(** what it returns; [resample2] is pinned down by the theorems below *)
Theorem C72_shape_and_rows : forall rest ny nx ys xs (F : list nat -> nat -> nat -> R) s,
  (0 < ny)%nat -> (0 < nx)%nat -> (0 < ys)%nat -> (0 < xs)%nat ->
  round_div ny s = Z.of_nat ys -> round_div nx s = Z.of_nat xs ->
  fourier_downsample (Ok (stack rest ny nx F)) s = Ok (stack rest ys xs (fun r => resample2 ys xs ny nx (F r))).
Proof. exact fourier_value. Qed.
(** frames that sample a trigonometric polynomial below both Nyquist
    frequencies are sampled exactly on the new grid *)
Theorem C72_exact : forall ys xs ny nx M Ky Kx a b c d i j,
  (2 * Ky < ys)%nat -> (2 * Ky < ny)%nat -> (2 * Kx < xs)%nat -> (2 * Kx < nx)%nat ->
  resample2 ys xs ny nx (fun i j => trig2 M Ky Kx a b c d (INR i / INR ny) (INR j / INR nx)) i j
  = trig2 M Ky Kx a b c d (INR i / INR ys) (INR j / INR xs).
Proof. exact resample2_trig. Qed.
(** waves above the new Nyquist frequency are removed *)
Theorem C72_filtered : forall num n m (a b : R) i j, (0 < num)%nat -> (num < 2 * m)%nat -> (2 * m < n)%nat ->
  resample2 num num n n (fun _ j => a * cos (2 * PI * INR m * (INR j / INR n)) + b * sin (2 * PI * INR m * (INR j / INR n))) i j = 0.
Proof. exact resample2_above. Qed.
(** on any grids, whatever the amplitudes along the other axis *)
Theorem C72_filtered_x : forall ys xs ny nx m (a b : nat -> R) i j, (0 < ys)%nat -> (0 < ny)%nat -> (0 < xs)%nat ->
  (xs < 2 * m)%nat -> (2 * m < nx)%nat ->
  resample2 ys xs ny nx (fun i j => a i * cos (2 * PI * INR m * (INR j / INR nx)) + b i * sin (2 * PI * INR m * (INR j / INR nx))) i j = 0.
Proof. exact resample2_above_x. Qed.
Theorem C72_filtered_y : forall ys xs ny nx m (a b : nat -> R) i j, (0 < xs)%nat -> (0 < nx)%nat -> (0 < ys)%nat ->
  (ys < 2 * m)%nat -> (2 * m < ny)%nat ->
  resample2 ys xs ny nx (fun i j => a j * cos (2 * PI * INR m * (INR i / INR ny)) + b j * sin (2 * PI * INR m * (INR i / INR ny))) i j = 0.
Proof. exact resample2_above_y. Qed.
Theorem C72_mean : forall ys xs ny nx f, (0 < ny)%nat -> (0 < nx)%nat -> (0 < ys)%nat -> (0 < xs)%nat ->
  gmean ys xs (resample2 ys xs ny nx f) = gmean ny nx f.
Proof. exact resample2_mean. Qed.
Theorem C72_linear : forall ys xs ny nx a b f g i j, (0 < ny)%nat -> (0 < nx)%nat -> (0 < ys)%nat -> (0 < xs)%nat ->
  resample2 ys xs ny nx (fadd (fscale a f) (fscale b g)) i j = a * resample2 ys xs ny nx f i j + b * resample2 ys xs ny nx g i j.
Proof. exact resample2_lin. Qed.
(** refining every cell m-fold keeps the old values; m = 1: nothing changes *)
Theorem C72_refine : forall m ny nx f i j, (0 < m)%nat -> (i < ny)%nat -> (j < nx)%nat ->
  resample2 (m * ny) (m * nx) ny nx f (m * i) (m * j) = f i j.
Proof. exact resample2_refine. Qed.
(** a wave on 8 x 8 cells recorded on 4 x 4 cells *)
Example C72_example : forall i j,
  resample2 4 4 8 8 (fun i j => trig2 1 1 1 (fun _ _ => 1) (fun _ _ => 2) (fun _ _ => 3) (fun _ _ => 4) (INR i / INR 8) (INR j / INR 8)) i j
  = trig2 1 1 1 (fun _ _ => 1) (fun _ _ => 2) (fun _ _ => 3) (fun _ _ => 4) (INR i / INR 4) (INR j / INR 4).
Proof. intros. apply C72_exact; lia. Qed.
Print Assumptions C72_shape_and_rows.
Print Assumptions C72_exact.
Print Assumptions C72_filtered.
Print Assumptions C72_filtered_x.
Print Assumptions C72_filtered_y.
Print Assumptions C72_mean.
Print Assumptions C72_linear.
Print Assumptions C72_refine.

(** ** C73: runs started from the user's arguments, down-sampling included *)
Theorem C73_run : forall b a m rnd y0 phi0 fs, args_ok b a (a_props a) m -> (fs = None \/ a_force a = true) ->
  let g := a_grid a in
  let dx := domain_dx (a_k0 a) g in
  let sim := run (hw_sim b rnd g g m m) (run_cfg a) (plasma0 (grid g g (fst y0)) (grid g g (snd y0)) (grid g g phi0)) in
  let frames := map (hw_frame (args_par a false) g g dx (a_step a) y0 phi0) (recorded_its (run_cfg a) (Z.to_nat (R_trunc (a_end a / a_step a)))) in
  exists h, result_of sim fs = Ok tt /\ disk_of sim fs = Some h /\ file_frames rnd (frame_fnc a m) m m frames h /\
    forall k, In k (a_props a) -> file_prop rnd (frame_fnc a m) m m (domain_dx (a_k0 a) m) (a_c1 a) frames h k.
Proof. exact args_run. Qed.
Theorem C73_run2 : forall b a m rnd y0 phi0 fs n fuel, args_ok b a (effective_props a) m -> (fs = None \/ a_force a = true) ->
  (forall k, In k (effective_props a) -> prop_fits k (a_grid a) (a_grid a)) ->
  (forall j, (j < n)%nat -> t_round4 (INR j * a_step a) < a_end a) -> a_end a <= t_round4 (INR n * a_step a) -> (n < fuel)%nat ->
  a_rec a < INR n * a_step a ->
  let g := a_grid a in
  let dx := domain_dx (a_k0 a) g in
  let sim := run2 (hw_sim b rnd g g m m) (run2_cfg a) fuel (plasma0 (grid g g (fst y0)) (grid g g (snd y0)) (grid g g phi0)) in
  let frames := map (hw_frame (args_par a (a_zonal a)) g g dx (a_step a) y0 phi0) (recorded_its (run2_cfg a) n) in
  exists h, result_of sim fs = Ok tt /\ disk_of sim fs = Some h /\ file_frames rnd (frame_fnc a m) m m frames h /\
    forall k, In k (effective_props a) -> file_prop rnd (frame_fnc a m) m m (domain_dx (a_k0 a) m) (a_c1 a) frames h k /\
                                          file_fullres rnd g g dx (a_c1 a) frames h k.
Proof. exact args_run2. Qed.
(** grid 5, factor 2: frames of 2 x 2 cells *)
Definition args5 : run_args := mkArgs 1 false 2 5 1 1 0 1 0 0 true "gamma_n" 0 false 1 1 2 false ["energy"; "kinetic_energy"] true.
Example C73_nonvacuous : args_ok np_backend args5 (a_props args5) 2 /\ args_ok np_backend args5 (effective_props args5) 2 /\
  effective_props args5 = ["energy"; "kinetic_energy"; "gamma_n"] /\
  (forall k, In k (effective_props args5) -> prop_fits k 5 5) /\
  (forall j, (j < 2)%nat -> t_round4 (INR j * a_step args5) < a_end args5) /\ a_end args5 <= t_round4 (INR 2 * a_step args5) /\
  a_rec args5 < INR 2 * a_step args5.
Proof.
  assert (S : save_size args5 = 2%Z).
  { unfold save_size. cbn [a_factor a_grid args5]. destruct (Req_EM_T 2 1); [lra|]. apply C49_ties. }
  assert (F : forall n, n = 2%nat \/ n = 5%nat -> forall k, In k (effective_props args5) -> prop_fits k n n).
  { intros n _ k H. cbn in H. unfold prop_fits. destruct H as [<-|[<-|[<-|[]]]]; cbn; tauto. }
  split; [|split; [|split; [reflexivity|split; [apply F; auto|split; [exact wit_times2|split]]]]].
  - constructor; try (cbn; lia || lra || now left).
    + cbn. repeat constructor; cbn; intuition discriminate.
    + intros k H. apply (F 2%nat); [auto|]. cbn in H |- *. tauto.
  - constructor; try (cbn; lia || lra || now left).
    + cbn. repeat constructor; cbn; intuition discriminate.
    + apply F. auto.
  - apply (wit_end 2). cbn. ring.
  - cbn. lra.
Qed.
Print Assumptions C73_run.
Print Assumptions C73_run2.

(** ** C74: diagnostics of recorded frames against those at full resolution *)
Theorem C74_band_limited : forall K n m dx dx' c1 dn p o, (2 * K < n)%nat -> (2 * K < m)%nat -> band K n dn -> band K n p -> band K n o ->
  forall k, In k ["thermal_energy"; "gamma_c"; "enstrophy"] ->
  prop_value k m m dx' c1 (resample2 m m n n dn) (resample2 m m n n p) (resample2 m m n n o) = prop_value k n n dx c1 dn p o.
Proof. exact band_props. Qed.
Theorem C74_general_refuted : exists f : nat -> nat -> R,
  prop_value "thermal_energy" 8 8 1 1 f f f = 1 / 4 /\
  prop_value "thermal_energy" 4 4 2 1 (resample2 4 4 8 8 f) (resample2 4 4 8 8 f) (resample2 4 4 8 8 f) = 0.
Proof. exact thermal_refuted. Qed.
Example C74_nonvacuous : band 1 8 (fun i j => trig2 1 1 1 (fun _ _ => 1) (fun _ _ => 2) (fun _ _ => 3) (fun _ _ => 4) (INR i / INR 8) (INR j / INR 8)).
Proof. exists 1%nat, (fun _ _ => 1), (fun _ _ => 2), (fun _ _ => 3), (fun _ _ => 4). intros. reflexivity. Qed.
Print Assumptions C74_band_limited.
Print Assumptions C74_general_refuted.
