(** Proofs about the end of run2. *)
From Coq Require Import Arith ZArith Bool Reals String List Lia Lra.
Import List.
From Verif Require Import Num NdArray Spec SpecFourier SpecHW SpecPlasma SpecDiag
  ModelHW ModelBackend ModelIO ModelRun ModelRunHW SpecIO SpecRun SpecRunHW ModelPlot SpecPlot SpecAttr
  IOFacts KeepFacts RunHWFacts RunHWProps RunHWSplit RunHWTop PlotFacts PlotProps RunPlot ModelRunEnd SpecRunEnd RunEnd SpecRun2End.
Import ListNotations.
Local Open Scope string_scope.
#[local] Existing Instance TimeR.

Section E.
Context {V : Type}.
Variables (s : sim V R) (c : cfg V R) (e : ending) (latex : string -> string).
Notation Kp := (fun k => ~ In k (c_props c)).

(** *** the movie reads the attributes, the density and the times only *)
Lemma movie_same K (f g : h5 V R) t0 t1 fps sp : same K (Some f) (Some g) -> K "density" -> K "time" ->
  create_movie f t0 t1 fps sp = create_movie g t0 t1 fps sp.
Proof.
  intros (Ha & Hd) K1 K2. unfold create_movie, create_movie_equally_spaced, create_movie_unequal_spaced_fine, generate_title, rows_len, nums, attr_look, initial_time, dlook.
  cbn in Hd. rewrite Ha. rewrite <- (Hd "density" K1), <- (Hd "time" K2). reflexivity.
Qed.
Lemma movie_of_same K (f g : h5 V R) : same K (Some f) (Some g) -> K "density" -> K "time" -> movie_of e (Some f) = movie_of e (Some g).
Proof. intros S K1 K2. unfold movie_of. now rewrite (movie_same K f g _ _ _ _ S K1 K2). Qed.

Lemma props_same fs fs1 tr : run_properties_ s c fs = ((tr, fs1), Ok tt) -> same Kp fs fs1.
Proof.
  intros E. destruct (same_props s c) as [F K].
  specialize (K fs (length tr)). rewrite (crash_all (zero_like s) (run_properties_ s c) fs (length tr) F) in K; [|unfold trace_of; now rewrite E].
  unfold disk_of in K. now rewrite E in K.
Qed.

Lemma tail_order {G} (plot : IO V R G) (pl : disk V R -> res G) fs1 g tr : (forall fs, plot fs = (([], fs), pl fs)) ->
  Kp "density" -> Kp "time" -> run_properties_ s c fs1 = ((tr, Some g), Ok tt) ->
  let A := ibind (end_movie e) (fun m => ibind (run_properties_ s c) (fun _ => ibind plot (fun g => iret (m, g)))) in
  match movie_of e (Some g) with
  | Ok m => disk_of A fs1 = Some g /\ result_of A fs1 = (let* p := pl (Some g) in Ok (m, p))
  | Exn x => result_of A fs1 = Exn x /\ exists g0, disk_of A fs1 = Some g0 /\ same Kp (Some g0) (Some g)
  end.
Proof.
  intros Hp K1 K2 E A. pose proof (props_same _ _ _ E) as S. destruct fs1 as [f1|].
  2:{ exfalso. unfold run_properties_ in E. destruct (c_props c); discriminate. }
  pose proof (tail_prefix s c e plot pl (Some f1) Hp) as H. cbv zeta in H. fold A in H.
  rewrite (movie_of_same _ _ _ S K1 K2) in H. destruct (movie_of e (Some g)) as [m|x].
  - destruct H as (_ & D & R0). unfold disk_of, result_of in *. rewrite D, R0, E. cbn [fst snd bind]. split; reflexivity.
  - unfold result_of, disk_of. rewrite H. cbn. split; [reflexivity|]. exists f1. split; [reflexivity|exact S].
Qed.

Lemma files2_some pl0 fs tr fs1 st : starts c fs -> run2_files s c pl0 fs = ((tr, fs1), Ok st) -> st <> None.
Proof.
  intros Hs. unfold run2_files. unfold ibind at 1. cbn [iget].
  assert (C : forall fs, (let '(tr', fs2, r) := ibind (run2_create s c pl0) (fun st => iret (Some st)) fs in ((([] ++ tr')%list, fs2), r)) = (tr, fs1, Ok st) -> st <> None).
  { intros f. unfold ibind at 1. destruct (run2_create s c pl0 f) as [[t1 f1] [x|x]]; cbn; intros E; inversion E; subst; discriminate. }
  destruct fs as [f|]; [|apply C]. destruct (c_force c) eqn:Ef; [apply C|].
  destruct Hs as [Hs|[Hs|Hs]]; try discriminate; [congruence|]. unfold run_continue. rewrite Hs.
  unfold ibind at 1. cbn [iget]. unfold ibind at 1. destruct (continue_h5_file (Some f)) as [[l phys]|x]; cbn; [|discriminate].
  unfold ibind. cbn. destruct (check_loaded s (mkPlasma (l_density l) (l_omega l) (l_phi l) (l_age l))) as [u|x]; cbn; [|discriminate]. intros H.
  inversion H; subst. discriminate.
Qed.

Lemma bind_disk {X Y} (m : IO V R X) (f : X -> IO V R Y) fs tr fs1 x : m fs = ((tr, fs1), Ok x) ->
  disk_of (ibind m f) fs = disk_of (f x) fs1.
Proof. intros E. unfold disk_of, ibind. rewrite E. now destruct (f x fs1) as [[t2 f2] r]. Qed.
Lemma bind_result {X Y} (m : IO V R X) (f : X -> IO V R Y) fs tr fs1 x : m fs = ((tr, fs1), Ok x) ->
  result_of (ibind m f) fs = result_of (f x) fs1.
Proof. intros E. unfold result_of, ibind. rewrite E. now destruct (f x fs1) as [[t2 f2] r]. Qed.
Lemma bind_ok {X Y} (m : IO V R X) (f : X -> IO V R Y) fs y : result_of (ibind m f) fs = Ok y ->
  exists tr fs1 x, m fs = ((tr, fs1), Ok x).
Proof. unfold result_of, ibind. destruct (m fs) as [[tr fs1] [x|x]]; [|discriminate]. intros _. now exists tr, fs1, x. Qed.

Lemma order2 fuel pl0 fs g : starts c fs -> ~ In "density" (c_props c) -> ~ In "time" (c_props c) ->
  result_of (run2 s c fuel pl0) fs = Ok tt -> disk_of (run2 s c fuel pl0) fs = Some g ->
  let A := run2_all s c e latex fuel pl0 in
  match movie_of e (Some g) with
  | Ok m => disk_of A fs = Some g /\ result_of A fs = (let* p := plot2_of e latex (Some g) in Ok (m, p))
  | Exn x => result_of A fs = Exn x /\ exists g0, disk_of A fs = Some g0 /\ same Kp (Some g0) (Some g)
  end.
Proof.
  intros Hs K1 K2 R0 D0 A. unfold A. clear A. unfold run2, run2_all in *.
  destruct (bind_ok _ _ _ _ R0) as (tr1 & fs1 & q & E1).
  rewrite (bind_disk _ _ _ _ _ _ E1) in D0. rewrite (bind_result _ _ _ _ _ _ E1) in R0.
  rewrite (bind_disk _ _ _ _ _ _ E1), (bind_result _ _ _ _ _ _ E1).
  assert (fs1 = fs) as -> by (revert E1; unfold ilift; intros H; now inversion H).
  destruct (_ =? _)%Z; [discriminate|]. destruct (negb _); [discriminate|].
  destruct (bind_ok _ _ _ _ R0) as (tr2 & fs2 & st & E2).
  rewrite (bind_disk _ _ _ _ _ _ E2) in D0. rewrite (bind_result _ _ _ _ _ _ E2) in R0.
  rewrite (bind_disk _ _ _ _ _ _ E2), (bind_result _ _ _ _ _ _ E2).
  destruct st as [st|]; [|exfalso; exact (files2_some _ _ _ _ _ Hs E2 eq_refl)].
  destruct (bind_ok _ _ _ _ R0) as (tr3 & fs3 & u & E3).
  rewrite (bind_disk _ _ _ _ _ _ E3) in D0. rewrite (bind_result _ _ _ _ _ _ E3) in R0.
  rewrite (bind_disk _ _ _ _ _ _ E3), (bind_result _ _ _ _ _ _ E3).
  unfold disk_of, result_of in D0, R0. destruct (run_properties_ s c fs3) as [[tr4 fs4] r4] eqn:E4. cbn in D0, R0. subst fs4 r4.
  exact (tail_order (end_plot2 e latex) (plot2_of e latex) fs3 g tr4 (plot2_eq e latex) K1 K2 E4).
Qed.
Lemma order1 pl0 fs g : starts c fs -> ~ In "density" (c_props c) -> ~ In "time" (c_props c) ->
  result_of (run s c pl0) fs = Ok tt -> disk_of (run s c pl0) fs = Some g ->
  let A := run_all s c e latex pl0 in
  match movie_of e (Some g) with
  | Ok m => disk_of A fs = Some g /\ result_of A fs = (let* p := plot_of e latex (Some g) in Ok (m, p))
  | Exn x => result_of A fs = Exn x /\ exists g0, disk_of A fs = Some g0 /\ same Kp (Some g0) (Some g)
  end.
Proof.
  intros Hs K1 K2 R0 D0 A. unfold A. clear A. unfold run, run_all in *.
  destruct (negb _); [discriminate|].
  destruct (bind_ok _ _ _ _ R0) as (tr2 & fs2 & st & E2).
  rewrite (bind_disk _ _ _ _ _ _ E2) in D0. rewrite (bind_result _ _ _ _ _ _ E2) in R0.
  rewrite (bind_disk _ _ _ _ _ _ E2), (bind_result _ _ _ _ _ _ E2).
  destruct st as [st|]; [|exfalso; exact (files_some _ _ _ _ _ _ _ Hs E2 eq_refl)].
  destruct (bind_ok _ _ _ _ R0) as (tr3 & fs3 & u & E3).
  rewrite (bind_disk _ _ _ _ _ _ E3) in D0. rewrite (bind_result _ _ _ _ _ _ E3) in R0.
  rewrite (bind_disk _ _ _ _ _ _ E3), (bind_result _ _ _ _ _ _ E3).
  unfold disk_of, result_of in D0, R0. destruct (run_properties_ s c fs3) as [[tr4 fs4] r4] eqn:E4. cbn in D0, R0. subst fs4 r4.
  exact (tail_order (end_plot e latex) (plot_of e latex) fs3 g tr4 (plot_eq e latex) K1 K2 E4).
Qed.
End E.
