(** C108: run2 to its end: movie and comparison plot. *)
From Coq Require Import Arith ZArith QArith Bool Reals String List Lia Lra.
Import List.
From Verif Require Import Num NdArray Spec SpecFourier SpecHW SpecPlasma SpecDiag
  ModelHW ModelBackend ModelIO ModelRun ModelRunHW SpecIO SpecRun SpecRunHW ModelPlot SpecPlot SpecAttr
  KeepFacts RunHWWit ModelRunEnd SpecRunEnd SpecRun2End Run2End Run2Plot.
Import ListNotations.
Local Close Scope Q_scope.
Local Open Scope nat_scope.
Local Open Scope string_scope.
Local Open Scope R_scope.
#[local] Existing Instance TimeR.

(** ** A driver that ends with the file [g]: with movie and plot asked for, both
    are made of [g]; a movie that fails leaves a file that differs from [g] in
    the properties only *)
Theorem C108_order_run2 : forall (V : Type) (s : sim V R) c e latex fuel pl0 fs g, starts c fs -> ~ In "density" (c_props c) -> ~ In "time" (c_props c) ->
  result_of (run2 s c fuel pl0) fs = Ok tt -> disk_of (run2 s c fuel pl0) fs = Some g ->
  let A := run2_all s c e latex fuel pl0 in
  match movie_of e (Some g) with
  | Ok m => disk_of A fs = Some g /\ result_of A fs = (let* p := plot2_of e latex (Some g) in Ok (m, p))
  | Exn x => result_of A fs = Exn x /\ exists g0, disk_of A fs = Some g0 /\ same (fun k => ~ In k (c_props c)) (Some g0) (Some g)
  end.
Proof. exact @order2. Qed.
Theorem C108_order_run : forall (V : Type) (s : sim V R) c e latex pl0 fs g, starts c fs -> ~ In "density" (c_props c) -> ~ In "time" (c_props c) ->
  result_of (run s c pl0) fs = Ok tt -> disk_of (run s c pl0) fs = Some g ->
  let A := run_all s c e latex pl0 in
  match movie_of e (Some g) with
  | Ok m => disk_of A fs = Some g /\ result_of A fs = (let* p := plot_of e latex (Some g) in Ok (m, p))
  | Exn x => result_of A fs = Exn x /\ exists g0, disk_of A fs = Some g0 /\ same (fun k => ~ In k (c_props c)) (Some g0) (Some g)
  end.
Proof. exact @order1. Qed.

(** ** The Hasegawa-Wakatani run *)
Section HW.
Variables (b : backend R) (p : par) (ny nx ys xs : nat) (k0 : R) (dsf : field -> field) (c : cfg (arr R) R) (rnd : R -> R) (y0 : state) (phi0 : field)
  (fs : disk (arr R) R) (m n fuel : nat) (e : ending) (latex : string -> string).
Let B := run2 (hw_sim b rnd ny nx ys xs) c fuel (plasma0 (grid ny nx (fst y0)) (grid ny nx (snd y0)) (grid ny nx phi0)).
Let A := run2_all (hw_sim b rnd ny nx ys xs) c e latex fuel (plasma0 (grid ny nx (fst y0)) (grid ny nx (snd y0)) (grid ny nx phi0)).
Let k := Z.to_nat (c_snaps c).
Let N := rows_of m k n.
Let dt := c_step c * IZR (c_snaps c).
Let fr r := hw_frame p ny nx (c_dx c) (c_step c) y0 phi0 (iteration m k r).
Let val q r := stored_value rnd dsf ys xs (domain_dx k0 xs) (pc1 p) q (fr r).
Let full q r := full_value rnd ny nx (c_dx c) (pc1 p) q (fr r).

(** fixed steps, recorded from the start: movie and curves at the times of the frames *)
Theorem C108_from_start : forall s, records2_from b p ny nx ys xs k0 dsf c fs m n fuel ->
  m = 0%nat -> c_adaptive c = false -> (0 < e_fps e)%Z -> incl (e_plots e) (c_props c) -> INR s * dt <= e_t0_std e < (INR s + 1) * dt ->
  exists g mv pt, disk_of A fs = Some g /\ disk_of B fs = Some g /\ result_of A fs = Ok (mv, pt) /\
    movie_shows rnd dsf ys xs N fr e g mv (fun r => f_t (fr r)) /\
    comparison_shows N e latex val full pt (fun r => f_t (fr r)) (stat_row N s 0).
Proof. intros s RF. exact (end2_from_start b p ny nx ys xs k0 dsf c rnd y0 phi0 fs m n fuel RF e latex s). Qed.
(** marked adaptive: the same with the times read from the file *)
Theorem C108_adaptive : records2_from b p ny nx ys xs k0 dsf c fs m n fuel ->
  m = 0%nat -> c_adaptive c = true -> (0 < e_fps e)%Z -> 0 < e_speed e -> monotone rnd -> rnd 0 = 0 -> incl (e_plots e) (c_props c) ->
  exists g mv pt w, disk_of A fs = Some g /\ disk_of B fs = Some g /\ result_of A fs = Ok (mv, pt) /\
    movie_shows rnd dsf ys xs N fr e g mv (fun r => rnd (f_t (fr r))) /\
    nearest (map (fun r => rnd (f_t (fr r))) (seq 0 N)) (e_t0_std e) w /\
    comparison_shows N e latex val full pt (fun r => rnd (f_t (fr r))) w.
Proof. intros RF. exact (end2_adaptive b p ny nx ys xs k0 dsf c rnd y0 phi0 fs m n fuel RF e latex). Qed.
(** recorded from later on, less than 1500 time units: after the whole
    simulation the plot raises TypeError; the file is complete *)
Theorem C108_late_refuted : records2_from b p ny nx ys xs k0 dsf c fs m n fuel ->
  (0 < m < N)%nat -> c_adaptive c = false -> (0 < e_fps e)%Z -> e_plots e <> [] -> incl (e_plots e) (c_props c) ->
  c_rec c <= e_t0_std e -> INR N * dt < 1500 ->
  result_of B fs = Ok tt /\ result_of A fs = Exn TypeError /\ disk_of A fs = disk_of B fs.
Proof. intros RF. exact (end2_late b p ny nx ys xs k0 dsf c rnd y0 phi0 fs m n fuel RF e latex). Qed.
Theorem C108_late_adaptive_refuted : records2_from b p ny nx ys xs k0 dsf c fs m n fuel ->
  (0 < m)%nat -> (0 < N)%nat -> c_adaptive c = true -> (0 < e_fps e)%Z -> 0 < e_speed e -> monotone rnd -> rnd 0 = 0 ->
  e_plots e <> [] -> incl (e_plots e) (c_props c) -> rnd (f_t (fr (N - 1))) < 1500 ->
  result_of B fs = Ok tt /\ result_of A fs = Exn TypeError /\ disk_of A fs = disk_of B fs.
Proof. intros RF. exact (end2_late_adaptive b p ny nx ys xs k0 dsf c rnd y0 phi0 fs m n fuel RF e latex). Qed.
(** no more rows recorded than skipped: nothing is drawn, nothing is said *)
Theorem C108_short_refuted : records2_from b p ny nx ys xs k0 dsf c fs m n fuel ->
  (N <= m)%nat -> c_adaptive c = false -> e_movie e = false -> e_plots e <> [] -> incl (e_plots e) (c_props c) ->
  result_of B fs = Ok tt /\ result_of A fs = Ok (None, Some None) /\ disk_of A fs = disk_of B fs.
Proof. intros RF. exact (end2_short b p ny nx ys xs k0 dsf c rnd y0 phi0 fs m n fuel RF e latex). Qed.
End HW.
Print Assumptions C108_order_run2.
Print Assumptions C108_order_run.
Print Assumptions C108_from_start.
Print Assumptions C108_adaptive.
Print Assumptions C108_late_refuted.
Print Assumptions C108_late_adaptive_refuted.
Print Assumptions C108_short_refuted.

(** three steps on a 2 x 2 grid, recorded from snapshot m on; fixed or marked adaptive *)
Definition wit_end2 (m : nat) (ad : bool) : cfg (arr R) R :=
  mkCfg 1 3 (physics_params2 (domain_dx 1 2) 1 1 0 1 0 0 true) (domain_dx 1 2) 1 2 2 2 2 true (INR m) true 1 1 None true false ad wit_props.
Lemma wit_end2_records m ad : (m < 3)%nat -> records2_from np_backend (pc true) 2 2 2 2 1 idf (wit_end2 m ad) None m 3 4.
Proof.
  intros Hm. split.
  - destruct (wit_setup true (c_phys (wit2 true)) 2). split; assumption.
  - exact wit_fits.
  - reflexivity.
  - now left.
  - cbn. lra.
  - cbn [c_rec wit_end2 c_step c_snaps]. ring.
  - intros j Hj. cbn [c_step c_end wit_end2]. rewrite Rmult_1_r, round4_INR. replace 3 with (INR 3) by (cbn; ring). now apply lt_INR.
  - cbn [c_step c_end wit_end2]. apply (wit_end 3). cbn. ring.
  - lia.
  - cbn [c_rec c_step wit_end2]. rewrite Rmult_1_r. now apply lt_INR.
Qed.
Example C108_example : let e := mkEnding true 10 5 ["gamma_n"; "energy"] 500 in
  (forall ad, records2_from np_backend (pc true) 2 2 2 2 1 idf (wit_end2 0 ad) None 0 3 4) /\
  (forall ad, records2_from np_backend (pc true) 2 2 2 2 1 idf (wit_end2 1 ad) None 1 3 4) /\
  (0 < 1 < rows_of 1 1 3)%nat /\ c_rec (wit_end2 1 false) <= e_t0_std e /\ INR (rows_of 1 1 3) * 1 < 1500 /\
  records2_from np_backend (pc true) 2 2 2 2 1 idf (wit_end2 2 false) None 2 3 4 /\ (rows_of 2 1 3 <= 2)%nat /\
  incl (e_plots e) (c_props (wit_end2 0 true)) /\ monotone (fun x => x) /\ INR 500 * 1 <= e_t0_std e < (INR 500 + 1) * 1.
Proof.
  cbv zeta. split; [intros ad; apply wit_end2_records; lia|]. split; [intros ad; apply wit_end2_records; lia|].
  split; [cbv; lia|]. split; [cbn; lra|]. split; [cbn; lra|]. split; [apply wit_end2_records; lia|]. split; [cbv; lia|].
  split; [intros q Q; cbn in Q; cbn; intuition|]. split; [intros x y H; exact H|].
  cbn [e_t0_std]. rewrite INR_IZR_INZ. replace (Z.of_nat 500) with 500%Z by reflexivity. lra.
Qed.
