(** Proofs about what the drivers do after the simulation. *)
From Coq Require Import Arith ZArith Bool Reals String List Lia Lra.
Import List.
From Verif Require Import Num NdArray Spec SpecFourier SpecHW SpecPlasma SpecDiag
  ModelHW ModelBackend ModelIO ModelRun ModelRunHW SpecIO SpecRun SpecRunHW ModelPlot SpecPlot SpecAttr
  IOFacts KeepFacts NameFacts RunForce RunPlot ModelRunEnd SpecRunEnd.
Import ListNotations.
Local Open Scope string_scope.
#[local] Existing Instance TimeR.

Section E.
Context {V : Type}.
Variables (s : sim V R) (c : cfg V R) (e : ending) (latex : string -> string).
Notation res_of := result_of.

Lemma reading_eq {X} (k : h5 V R -> res X) fs :
  reading k fs = (([], fs), match fs with Some f => k f | None => Exn FileNotFoundError end).
Proof. destruct fs; reflexivity. Qed.

Lemma movie_eq (fs : disk V R) : end_movie e fs = (([], fs), movie_of e fs).
Proof.
  unfold end_movie, movie_of. destruct (e_movie e); [|reflexivity]. unfold ibind. rewrite reading_eq.
  destruct fs as [f|]; [|reflexivity]. destruct (create_movie f 0 None (e_fps e) (e_speed e)); reflexivity.
Qed.
Lemma plot_eq (fs : disk V R) : end_plot e latex fs = (([], fs), plot_of e latex fs).
Proof.
  unfold end_plot, plot_of. destruct (e_plots e) as [|q l]; [reflexivity|]. unfold ibind. rewrite reading_eq.
  destruct fs as [f|]; [|reflexivity]. destruct (plot_timetraces f latex (q :: l) 0 300 100000); reflexivity.
Qed.
Lemma plot2_eq (fs : disk V R) : end_plot2 e latex fs = (([], fs), plot2_of e latex fs).
Proof.
  unfold end_plot2, plot2_of. destruct (e_plots e) as [|q l]; [reflexivity|]. unfold ibind. rewrite reading_eq.
  destruct fs as [f|]; [|reflexivity]. destruct (plot_timetrace_comparison f latex "fullres_" (q :: l) 0 (e_t0_std e) 100 100000); reflexivity.
Qed.

(** *** the file operations are those of the run without movie and plot, possibly fewer *)
Lemma tail_prefix {G} (plot : IO V R G) (pl : disk V R -> res G) fs1 : (forall fs, plot fs = (([], fs), pl fs)) ->
  let A := ibind (end_movie e) (fun m => ibind (run_properties_ s c) (fun _ => ibind plot (fun g => iret (m, g)))) in
  match movie_of e fs1 with
  | Exn x => A fs1 = (([], fs1), Exn x)
  | Ok m => trace_of A fs1 = trace_of (run_properties_ s c) fs1 /\ disk_of A fs1 = disk_of (run_properties_ s c) fs1 /\
      res_of A fs1 = (let* _ := res_of (run_properties_ s c) fs1 in let* g := pl (disk_of (run_properties_ s c) fs1) in Ok (m, g))
  end.
Proof.
  intros Hp A. subst A. unfold trace_of, disk_of, result_of, ibind. rewrite !movie_eq. destruct (movie_of e fs1) as [m|x]; [|reflexivity].
  destruct (run_properties_ s c fs1) as [[tr2 fs2] [[]|x2]]; cbn.
  - rewrite Hp. destruct (pl fs2); cbn; rewrite ?app_nil_r; repeat split; reflexivity.
  - repeat split; reflexivity.
Qed.

Lemma bind_prefix {X Y Z} (m : IO V R X) (f : X -> IO V R Y) (g : X -> IO V R Z) fs :
  (forall x fs', is_prefix (trace_of (f x) fs') (trace_of (g x) fs')) -> is_prefix (trace_of (ibind m f) fs) (trace_of (ibind m g) fs).
Proof.
  intros H. unfold trace_of, ibind. destruct (m fs) as [[tr fs1] [x|x]]; [|exists []; now rewrite app_nil_r].
  specialize (H x fs1). unfold trace_of in H. destruct (f x fs1) as [[tr1 fs2] r1]. destruct (g x fs1) as [[tr2 fs3] r2]. cbn in *.
  destruct H as [r ->]. exists r. now rewrite app_assoc.
Qed.
Lemma all_prefix pl0 fs : is_prefix (trace_of (run_all s c e latex pl0) fs) (trace_of (run s c pl0) fs).
Proof.
  unfold run_all, run. destruct (negb _); [exists []; reflexivity|]. apply bind_prefix. intros [st|] fs1; [|exists []; reflexivity].
  apply bind_prefix. intros _ fs2. pose proof (tail_prefix (end_plot e latex) (plot_of e latex) fs2 plot_eq) as H. cbv zeta in H.
  destruct (movie_of e fs2) as [m|x].
  - destruct H as [-> _]. exists []. now rewrite app_nil_r.
  - unfold trace_of. rewrite H. cbn. eexists. reflexivity.
Qed.
Lemma all2_prefix fuel pl0 fs : is_prefix (trace_of (run2_all s c e latex fuel pl0) fs) (trace_of (run2 s c fuel pl0) fs).
Proof.
  unfold run2_all, run2. apply bind_prefix. intros q fs0. destruct (_ =? _)%Z; [exists []; reflexivity|].
  destruct (negb _); [exists []; reflexivity|]. apply bind_prefix. intros [st|] fs1; [|exists []; reflexivity].
  apply bind_prefix. intros _ fs2. pose proof (tail_prefix (end_plot2 e latex) (plot2_of e latex) fs2 plot2_eq) as H. cbv zeta in H.
  destruct (movie_of e fs2) as [m|x].
  - destruct H as [-> _]. exists []. now rewrite app_nil_r.
  - unfold trace_of. rewrite H. cbn. eexists. reflexivity.
Qed.
Lemma crash_prefix {X Y} zl (A : IO V R X) (B : IO V R Y) fs j : is_prefix (trace_of A fs) (trace_of B fs) ->
  exists j', crash_after zl j A fs = crash_after zl j' B fs.
Proof.
  intros [r H]. exists (Nat.min j (length (trace_of A fs))). unfold crash_after. f_equal. rewrite H.
  destruct (Nat.le_ge_cases j (length (trace_of A fs))) as [L|L].
  - rewrite Nat.min_l by exact L. rewrite firstn_app. replace (j - length (trace_of A fs))%nat with 0%nat by lia. now rewrite firstn_O, app_nil_r.
  - rewrite Nat.min_r by exact L. rewrite firstn_app, Nat.sub_diag, firstn_O, app_nil_r. now rewrite !firstn_all2 by lia.
Qed.

(** *** with neither movie nor plot *)
Lemma all_plain pl0 fs : e_movie e = false -> e_plots e = [] ->
  disk_of (run_all s c e latex pl0) fs = disk_of (run s c pl0) fs /\
  result_of (run_all s c e latex pl0) fs = (let* _ := result_of (run s c pl0) fs in Ok (None, None)).
Proof.
  intros Hm Hp. unfold run_all, run. destruct (negb _); [split; reflexivity|].
  unfold disk_of, result_of, ibind. destruct (run_files s c pl0 fs) as [[tr fs1] [[st|]|x]]; try (split; reflexivity).
  destruct (run_simulate s c st fs1) as [[tr2 fs2] [[]|x]]; [|split; reflexivity].
  rewrite movie_eq. unfold movie_of. rewrite Hm. destruct (run_properties_ s c fs2) as [[tr4 fs4] [[]|x4]]; cbn; [|split; reflexivity].
  rewrite plot_eq. unfold plot_of. rewrite Hp. split; reflexivity.
Qed.

(** *** run.py: the simulation is the run without properties *)
Lemma files_same pl0 : run_files s (no_props c) pl0 = run_files s c pl0.
Proof. reflexivity. Qed.
Lemma simulate_same st : run_simulate s (no_props c) st = run_simulate s c st.
Proof. reflexivity. Qed.
Lemma files_some pl0 fs tr fs1 st : starts c fs -> run_files s c pl0 fs = ((tr, fs1), Ok st) -> st <> None.
Proof.
  intros Hs. unfold run_files. unfold ibind at 1. cbn [iget]. 
  assert (C : forall fs, (let '(tr', fs2, r) := ibind (run_create s c pl0) (fun st => iret (Some st)) fs in ((([] ++ tr')%list, fs2), r)) = (tr, fs1, Ok st) -> st <> None).
  { intros f. unfold ibind at 1. destruct (run_create s c pl0 f) as [[t1 f1] [x|x]]; cbn; intros E; inversion E; subst; discriminate. }
  destruct fs as [f|]; [|apply C]. destruct (c_force c) eqn:Ef; [apply C|].
  destruct Hs as [Hs|[Hs|Hs]]; try discriminate; [congruence|]. unfold run_continue. rewrite Hs.
  unfold ibind at 1. cbn [iget]. unfold ibind at 1. destruct (continue_h5_file (Some f)) as [[l phys]|x]; cbn; [|discriminate].
  unfold ibind. cbn. destruct (check_loaded s (mkPlasma (l_density l) (l_omega l) (l_phi l) (l_age l))) as [u|x]; cbn; [|discriminate]. intros H.
  inversion H; subst. discriminate.
Qed.
Lemma all_run pl0 fs g : starts c fs -> result_of (run s (no_props c) pl0) fs = Ok tt -> disk_of (run s (no_props c) pl0) fs = Some g ->
  let A := run_all s c e latex pl0 in let B := run s c pl0 in
  match movie_of e (Some g) with
  | Exn x => disk_of A fs = Some g /\ result_of A fs = Exn x
  | Ok m => disk_of A fs = disk_of B fs /\
      result_of A fs = (let* _ := result_of B fs in let* p := plot_of e latex (disk_of B fs) in Ok (m, p))
  end.
Proof.
  intros Hs R0 D0 A B. unfold A, B. revert R0 D0. unfold run_all, run. cbn [c_output no_props]. destruct (negb _); [discriminate|].
  unfold disk_of, result_of, ibind. rewrite files_same.
  destruct (run_files s c pl0 fs) as [[tr fs1] [st|x]] eqn:E; [|discriminate].
  destruct st as [st|]; [|exfalso; now apply (files_some _ _ _ _ _ Hs E)].
  rewrite simulate_same.
  destruct (run_simulate s c st fs1) as [[tr2 fs2] [[]|x]]; cbn; [|discriminate]. intros _ E2. rewrite E2. clear E2.
  rewrite movie_eq. destruct (movie_of e (Some g)) as [m|x]; [|cbn; split; reflexivity].
  destruct (run_properties_ s c (Some g)) as [[tr4 fs4] [[]|x4]]; cbn; [|split; reflexivity].
  rewrite plot_eq. destruct (plot_of e latex fs4); cbn; split; reflexivity.
Qed.
End E.

Lemma setup_no_props b p ny nx ys xs k0 dsf c : hw_setup b p ny nx ys xs k0 dsf c -> hw_setup b p ny nx ys xs k0 dsf (no_props c).
Proof. intros []. split; cbn; try assumption; [constructor|tauto]. Qed.
Lemma records_no_props b p ny nx ys xs k0 dsf c fs m : records_from b p ny nx ys xs k0 dsf c fs m -> records_from b p ny nx ys xs k0 dsf (no_props c) fs m.
Proof. intros []. split; cbn; try assumption. now apply setup_no_props. Qed.

Section HWEnd.
Local Open Scope R_scope.
Variables (b : backend R) (p : par) (ny nx ys xs : nat) (k0 : R) (dsf : field -> field) (c : cfg (arr R) R) (rnd : R -> R) (y0 : state) (phi0 : field)
  (fs : disk (arr R) R) (m : nat).
Hypothesis RF : records_from b p ny nx ys xs k0 dsf c fs m.
Variables (e : ending) (latex : string -> string).
Let pl0 := plasma0 (grid ny nx (fst y0)) (grid ny nx (snd y0)) (grid ny nx phi0).
Let S := hw_sim b rnd ny nx ys xs.
Let A := run_all S c e latex pl0.
Let k := Z.to_nat (c_snaps c).
Let N := rows_of m k (steps_of c).
Let fr r := hw_frame p ny nx (c_dx c) (c_step c) y0 phi0 (iteration m k r).

Lemma hw_starts : starts c fs.
Proof. destruct (rf_file _ _ _ _ _ _ _ _ _ _ _ RF) as [H|H]; [now left|right; now left]. Qed.
Lemma movie_dispatch (g : h5 (arr R) R) fps speed : attrs g = @save_params_of _ _ TimeR c (c_phys c) false -> 
  create_movie g 0 None fps speed = create_movie_equally_spaced g 0 None fps speed.
Proof.
  intros E. unfold create_movie, dlook. rewrite E. rewrite (de_ad _ _ _ (@saved_describe _ _ TimeR c false)). reflexivity.
Qed.

Lemma end_some g mv : e_movie e = true -> (forall q, In q (e_plots e) -> In q (c_props c)) -> (0 < N)%nat -> c_rec c <= 300 ->
  result_of (run S (no_props c) pl0) fs = Ok tt -> disk_of (run S (no_props c) pl0) fs = Some g ->
  create_movie g 0 None (e_fps e) (e_speed e) = Ok mv ->
  exists g' fig, disk_of A fs = Some g' /\ disk_of (run S c pl0) fs = Some g' /\ result_of A fs = Ok (Some mv, fig) /\
    file_frames rnd dsf ys xs (map fr (seq 0 N)) g' /\
    match fig with
    | None => e_plots e = []
    | Some fig => exists curves cut, fig = Figure curves cut /\ plot_timetraces g' latex (e_plots e) 0 300 100000 = Ok fig
    end.
Proof.
  intros Hm Hin PN H3 R0 D0 Ec.
  destruct (run_file b p ny nx ys xs k0 dsf c rnd y0 phi0 fs m RF) as (g' & R1 & D1 & FF & _ & _). fold pl0 S in R1, D1.
  pose proof (all_run S c e latex pl0 fs g hw_starts R0 D0) as H. cbv zeta in H. unfold movie_of in H. rewrite Hm, Ec in H. cbn [bind] in H.
  destruct H as [H1 H2]. fold A in H1, H2. rewrite D1 in H1, H2. rewrite R1 in H2. cbn [bind] in H2.
  exists g'. unfold plot_of in H2. destruct (e_plots e) as [|q l] eqn:Ep.
  - exists None. repeat split; try assumption; exact FF || apply FF.
  - set (dt := c_step c * IZR (c_snaps c)).
    assert (Pd : 0 < dt) by exact (dt_pos b p ny nx ys xs k0 dsf c fs m RF).
    assert (Hr : c_rec c = INR m * dt) by exact (rf_rec _ _ _ _ _ _ _ _ _ _ _ RF).
    set (x := (300 - INR m * dt) / dt). assert (Hx : 0 <= x).
    { apply Rmult_le_reg_r with dt; [exact Pd|]. unfold x. field_simplify; lra. }
    destruct (base_Int_part x) as [B1 B2].
    assert (Z0 : (0 <= Int_part x)%Z).
    { apply le_IZR. assert (-1 < IZR (Int_part x)) by lra. apply lt_IZR in H. apply IZR_le. lia. }
    assert (Es : INR (Z.to_nat (Int_part x)) = IZR (Int_part x)) by (rewrite INR_IZR_INZ, Z2Nat.id by exact Z0; reflexivity).
    assert (Ex : x * dt = 300 - INR m * dt) by (unfold x; field; lra).
    destruct (run_traces b p ny nx ys xs k0 dsf c rnd y0 phi0 fs m RF latex (q :: l) 300 100000 (Z.to_nat (Int_part x)))
      as (g2 & curves & cut & D2 & E2 & _).
    + discriminate.
    + exact Hin.
    + exact PN.
    + fold dt. rewrite Es. nra.
    + fold pl0 S in D2. rewrite D1 in D2. injection D2 as <-. rewrite E2 in H2. cbn [bind] in H2.
      exists (Some (Figure curves cut)). repeat split; try assumption; try (exact FF || apply FF). exists curves, cut. split; [reflexivity|exact E2].
Qed.

Lemma end_from_start : m = 0%nat -> e_movie e = true -> (0 < e_fps e)%Z -> incl (e_plots e) (c_props c) ->
  exists g fps shown fig, disk_of A fs = Some g /\ disk_of (run S c pl0) fs = Some g /\ result_of A fs = Ok (Some (fps, shown), fig) /\ shown <> [] /\
    (forall r t, In (r, t) shown -> (r < N)%nat /\ t = f_t (fr r) /\ row_shows rnd dsf ys xs g r (fr r)) /\ fig_of e latex g fig.
Proof.
  intros Em Hm Hf Hin. pose proof (records_no_props _ _ _ _ _ _ _ _ _ _ _ RF) as RF0.
  destruct (run_file b p ny nx ys xs k0 dsf (no_props c) rnd y0 phi0 fs m RF0) as (g0 & R0 & D0 & _ & _ & A0).
  destruct (run_movie b p ny nx ys xs k0 dsf (no_props c) rnd y0 phi0 fs m RF0 (e_fps e) (e_speed e) Em Hf) as (g1 & fps & shown & D1 & M & Hne & Hs).
  rewrite D0 in D1. injection D1 as <-. rewrite <- (movie_dispatch g0 _ _ A0) in M.
  assert (PN : (0 < N)%nat) by (unfold N, rows_of; rewrite Em; lia).
  destruct (end_some g0 (fps, shown) Hm Hin PN) as (g & fig & D & D' & Rs & FF & Fg); try assumption.
  { rewrite (rf_rec _ _ _ _ _ _ _ _ _ _ _ RF), Em. cbn [INR]. lra. }
  exists g, fps, shown, fig. repeat split; try assumption.
  - apply (Hs r t H).
  - apply (Hs r t H).
  - apply (frame_shows p ny nx ys xs dsf c rnd y0 phi0 m g r FF). apply (Hs r t H).
Qed.
Lemma end_late : (0 < m <= N)%nat -> e_movie e = true -> (0 < e_fps e)%Z -> incl (e_plots e) (c_props c) -> c_rec c <= 300 ->
  exists g fps shown fig, disk_of A fs = Some g /\ disk_of (run S c pl0) fs = Some g /\ result_of A fs = Ok (Some (fps, shown), fig) /\ shown <> [] /\
    (forall r t, In (r, t) shown -> (r < N)%nat /\ t < f_t (fr r) /\ row_shows rnd dsf ys xs g r (fr r)) /\ fig_of e latex g fig.
Proof.
  intros Em Hm Hf Hin H3. pose proof (records_no_props _ _ _ _ _ _ _ _ _ _ _ RF) as RF0.
  destruct (run_file b p ny nx ys xs k0 dsf (no_props c) rnd y0 phi0 fs m RF0) as (g0 & R0 & D0 & _ & _ & A0).
  destruct (run_movie_late b p ny nx ys xs k0 dsf (no_props c) rnd y0 phi0 fs m RF0 (e_fps e) (e_speed e) Em Hf) as (g1 & fps & shown & D1 & M & Hne & Hs).
  rewrite D0 in D1. injection D1 as <-. rewrite <- (movie_dispatch g0 _ _ A0) in M.
  assert (PN : (0 < N)%nat) by lia.
  destruct (end_some g0 (fps, shown) Hm Hin PN) as (g & fig & D & D' & Rs & FF & Fg); try assumption.
  exists g, fps, shown, fig. repeat split; try assumption.
  - apply (Hs r t H).
  - apply (Hs r t H).
  - apply (frame_shows p ny nx ys xs dsf c rnd y0 phi0 m g r FF). apply (Hs r t H).
Qed.
Lemma end_far : (0 < N < m)%nat -> e_movie e = true -> (0 < e_fps e)%Z ->
  result_of A fs = Exn IndexError /\
  exists g, disk_of A fs = Some g /\ file_frames rnd dsf ys xs (map fr (seq 0 N)) g /\ forall q, In q (c_props c) -> dget (dsets g) q = None.
Proof.
  intros Em Hm Hf. pose proof (records_no_props _ _ _ _ _ _ _ _ _ _ _ RF) as RF0.
  destruct (run_file b p ny nx ys xs k0 dsf (no_props c) rnd y0 phi0 fs m RF0) as (g0 & R0 & D0 & FF & _ & A0).
  destruct (run_movie_far b p ny nx ys xs k0 dsf (no_props c) rnd y0 phi0 fs m RF0 (e_fps e) (e_speed e) Em Hf) as (g1 & D1 & M).
  rewrite D0 in D1. injection D1 as <-. rewrite <- (movie_dispatch g0 _ _ A0) in M.
  pose proof (all_run S c e latex pl0 fs g0 hw_starts R0 D0) as H. cbv zeta in H. unfold movie_of in H. rewrite Hm, M in H. cbn [bind] in H.
  destruct H as [H1 H2]. split; [exact H2|]. exists g0. split; [exact H1|]. split; [exact FF|]. intros q Hq.
  assert (Nq : ~ In q (field_keys ++ state_keys)).
  { pose proof (hs_props _ _ _ _ _ _ _ _ _ (rf_setup _ _ _ _ _ _ _ _ _ _ _ RF) q Hq) as Pq.
    assert (In q ["gamma_n"; "gamma_c"; "energy"; "thermal_energy"; "enstrophy"; "enstrophy_phi"; "kinetic_energy"; "gamma_n_spectral"]).
    { destruct Pq as [Pq|[[-> _]|[-> _]]]; cbn in *; tauto. }
    cbn in H. cbn. intuition (subst; discriminate). }
  assert (D2 : disk_of (run S (no_props c) pl0) None = Some g0).
  { destruct (rf_file _ _ _ _ _ _ _ _ _ _ _ RF) as [E|E]; [now rewrite E in D0|]. destruct fs as [f|]; [|exact D0].
    unfold disk_of in *. pose proof (run_forced S (no_props c) pl0 f (hs_out _ _ _ _ _ _ _ _ _ (rf_setup _ _ _ _ _ _ _ _ _ _ _ RF0)) E) as Q.
    rewrite <- Q. exact D0. }
  destruct (names_run S (no_props c) pl0 eq_refl) as [F K].
  specialize (K None (length (trace_of (run S (no_props c) pl0) None)) g0 q).
  rewrite (crash_all _ _ _ _ F (le_n _)) in K. specialize (K D2).
  unfold dhas in K. destruct (dget (dsets g0) q); [|reflexivity]. destruct (K eq_refl) as [(g & E & _)|K']; [discriminate|contradiction].
Qed.
End HWEnd.
