(** C124: the pictures of a movie.
    Model: ModelMovie.v; vocabulary: SpecMovie.v; proofs: MovieFacts.v, RunPlot.v. *)
From Coq Require Import Arith ZArith Bool Reals String List Lia Lra.
From Verif Require Import Num NdArray NdFacts Spec SpecHW SpecPlasma SpecDiag SpecFourier DiagFacts
  ModelHW ModelBackend ModelIO ModelRun ModelRunHW SpecIO SpecRun SpecRunHW RunHWProps RunPlot ModelPlot SpecPlot PlotFacts PlotProps SpecAttr ModelImage SpecImage ImageFacts
  ModelMovie SpecMovie MovieFacts RunWit RunHWWit PropRunPlot.
Import ListNotations.
Local Existing Instance TimeR.
Local Open Scope R_scope.

(** Fixed steps: every row the movie shows becomes one picture with the three
    fields of [order], their data and time, and symmetric colour limits which
    contain the data and forget earlier pictures by halves. *)
Theorem C124_equal : forall fmt0 str f order N ny nx D zero out dpi pre t0 t1 min_fps speed fps shown,
  film_file f order N ny nx D -> rows_len f "density" = Ok N ->
  create_movie_equally_spaced f t0 t1 min_fps speed = Ok (fps, shown) ->
  exists t1' pics, film_equal fmt0 str f out dpi order zero pre t0 t1 min_fps speed = Ok (movie_name fmt0 str out dpi fps speed t0 t1', fps, pics) /\
    (forall t, t1 = Some t -> t1' = t) /\ film_of zero order ny nx D shown pics.
Proof. intros. eapply equal_ok; eauto. Qed.
Print Assumptions C124_equal.
(** adaptive steps *)
Theorem C124_unequal : forall fmt0 str f order N ny nx D zero out dpi pre t0 t1 min_fps speed fps shown,
  film_file f order N ny nx D -> rows_len f "density" = Ok N ->
  create_movie_unequal_spaced_fine f t0 t1 min_fps speed = Ok (fps, shown) ->
  exists t1' pics, film_unequal fmt0 str f out dpi order zero pre t0 t1 min_fps speed = Ok (movie_name fmt0 str out dpi fps speed t0 t1', fps, pics) /\
    (forall t, t1 = Some t -> t1' = t) /\ film_of zero order ny nx D shown pics.
Proof. intros. eapply unequal_ok; eauto. Qed.
Print Assumptions C124_unequal.
(** the script *)
Theorem C124_main : forall fmt0 str f order N ny nx D out dpi pre t0 t1 min_fps speed fps shown,
  film_file f order N ny nx D -> rows_len f "density" = Ok N ->
  create_movie f t0 t1 min_fps speed = Ok (fps, shown) ->
  exists t1' pics, film_main fmt0 str f out dpi order pre t0 t1 min_fps speed = Ok (movie_name fmt0 str out dpi fps speed t0 t1', fps, pics) /\
    (forall t, t1 = Some t -> t1' = t) /\ film_of false order ny nx D shown pics.
Proof. exact main_ok. Qed.
Print Assumptions C124_main.
(** the first picture still remembers row 0 of the file *)
Theorem C124_first : forall f order N ny nx D zero pre q r t frames pics i a a0, film_file f order N ny nx D -> row_index N q = Ok r -> (i < 3)%nat ->
  amplitude ny nx (shown_row zero order ny nx D i r) a -> amplitude ny nx (D i 0%nat) a0 ->
  movie_pictures f order zero pre ((q, Ok t) :: frames) = Ok pics ->
  exists vs rest v, pics = vs :: rest /\ nth_error vs i = Some v /\ snd (v_clim v) = Rmax a (a + (a0 - a) / 2 ^ S pre).
Proof. exact first_ok. Qed.
Print Assumptions C124_first.

(** a run recorded from the start: every picture shows the fields of the frame of
    its time, as stored *)
Theorem C124_run : forall b p ny nx ys xs k0 dsf (c : cfg (arr R) R) rnd y0 phi0 fs (min_fps : Z) speed fmt0 str out dpi order zero pre,
  records_from b p ny nx ys xs k0 dsf c fs 0 ->
  let sim := run (hw_sim b rnd ny nx ys xs) c (plasma0 (grid ny nx (fst y0)) (grid ny nx (snd y0)) (grid ny nx phi0)) in
  let k := Z.to_nat (c_snaps c) in
  let fr r := hw_frame p ny nx (c_dx c) (c_step c) y0 phi0 (iteration 0 k r) in
  let D i r : field := fun u v => rnd (dsf (frame_field (nth i order ""%string) (fr r)) u v) in
  (0 < ys)%nat -> (0 < xs)%nat -> (0 < min_fps)%Z -> recorded_names order ->
  exists g fps shown name pics, disk_of sim fs = Some g /\ film_equal fmt0 str g out dpi order zero pre 0 None min_fps speed = Ok (name, fps, pics) /\
    shown <> [] /\ (forall r t, In (r, t) shown -> (r < rows_of 0 k (steps_of c))%nat /\ t = f_t (fr r)) /\ film_of zero order ys xs D shown pics.
Proof.
  intros b p ny nx ys xs k0 dsf c rnd y0 phi0 fs min_fps speed fmt0 str out dpi order zero pre RF sim k fr D Hy Hx Hf (n1 & n2 & n3 & l & Eo & Ho).
  destruct (run_movie b p ny nx ys xs k0 dsf c rnd y0 phi0 fs 0 RF min_fps speed eq_refl Hf) as (g & fps & shown & Dg & M & Ne & Sh).
  destruct (run_file b p ny nx ys xs k0 dsf c rnd y0 phi0 fs 0 RF) as (g' & _ & Dg' & FF & _).
  rewrite Dg in Dg'. injection Dg' as <-. set (N := rows_of 0 k (steps_of c)).
  assert (PN : (0 < N)%nat) by (unfold N, rows_of; lia).
  destruct FF as (F1 & F2 & F3 & _).
  assert (A : film_file g order N ys xs D).
  { split; [exact PN|]. split; [exact Hy|]. split; [exact Hx|]. intros i Hi.
    assert (Hn : nth_error order i = Some (nth i order ""%string)). { apply nth_error_nth'. rewrite Eo. cbn [List.length]. lia. }
    assert (Hin : In (nth i order ""%string) ["density"; "omega"; "phi"]%string). { apply Ho. rewrite Eo. destruct i as [|[|[|i]]]; [cbn; auto..|lia]. }
    exists (nth i order ""%string). unfold D. set (nm := nth i order ""%string) in *. clearbody nm.
    cbn [In] in Hin. destruct Hin as [<-|[<-|[<-|[]]]]; eexists; (split; [exact Hn|]); (split; [eassumption|]); (split; [now rewrite !map_length, seq_length|]);
    intros r Hr; rewrite map_map, nth_error_map, (nth_error_nth' _ 0%nat) by (now rewrite seq_length); rewrite seq_nth by assumption; reflexivity. }
  assert (Hd : rows_len g "density" = Ok N). { unfold rows_len, dlook. rewrite F1. cbn [bind]. now rewrite !map_length, seq_length. }
  destruct (equal_ok fmt0 str g order N ys xs D zero A Hd out dpi pre 0 None min_fps speed fps shown M) as (t1' & pics & E & _ & P).
  exists g, fps, shown. eexists. exists pics. split; [exact Dg|]. split; [exact E|]. split; [exact Ne|]. split; [|exact P].
  intros r t Hin. destruct (Sh r t Hin) as (H1 & H2 & _). split; [exact H1|exact H2].
Qed.
Print Assumptions C124_run.

(** a movie of fewer than three fields cannot be made; names after the third are ignored *)
Theorem C124_short_refuted : forall fmt0 str f out dpi order zero pre t0 t1 min_fps mf speed r, (List.length order < 3)%nat ->
  film_equal fmt0 str f out dpi order zero pre t0 t1 min_fps speed <> Ok r /\ film_unequal fmt0 str f out dpi order zero pre t0 t1 mf speed <> Ok r.
Proof. exact short_order. Qed.
Print Assumptions C124_short_refuted.
Theorem C124_extra : forall fmt0 str f out dpi order zero pre t0 t1 min_fps mf speed,
  film_equal fmt0 str f out dpi (firstn 3 order) zero pre t0 t1 min_fps speed = film_equal fmt0 str f out dpi order zero pre t0 t1 min_fps speed /\
  film_unequal fmt0 str f out dpi (firstn 3 order) zero pre t0 t1 mf speed = film_unequal fmt0 str f out dpi order zero pre t0 t1 mf speed.
Proof. exact extra_names. Qed.
Print Assumptions C124_extra.

(** ** A file of one cell: density, vorticity and potential [x], 1, 1 *)
Definition one (x : R) : arr R := grid 1 1 (fun _ _ => x).
Definition tiny_file (x : R) : h5 (arr R) R :=
  mkH5 (map (fun s => (s, Rows [RFrame (one x); RFrame (one 1); RFrame (one 1)])) ["density"; "omega"; "phi"]%string)
       ([("frame_dt"%string, AT 1); ("adaptive_step_size"%string, AB false)] ++ map (fun s => (s, AT 1)) title_keys)%list.
Definition tiny_row (x : R) (i r u v : nat) : R := match r with O => x | _ => 1 end.
Lemma tiny_ok x order : recorded_names order -> film_file (tiny_file x) order 3 1 1 (tiny_row x).
Proof.
  intros (n1 & n2 & n3 & l & -> & Ho). split; [lia|]. split; [lia|]. split; [lia|]. intros i Hi.
  assert (Hn : exists nm, nth_error (n1 :: n2 :: n3 :: l) i = Some nm /\ In nm ["density"; "omega"; "phi"]%string).
  { destruct i as [|[|[|i]]]; [eexists; split; [reflexivity|apply Ho; cbn; auto]..|lia]. }
  destruct Hn as (nm & En & Hin). exists nm. cbn [In] in Hin. destruct Hin as [<-|[<-|[<-|[]]]]; eexists; (split; [exact En|]); (split; [reflexivity|]); (split; [reflexivity|]);
  intros [|[|[|r]]] Hr; try reflexivity; lia.
Qed.
Lemma default_names : recorded_names ["density"; "omega"; "phi"]%string.
Proof. exists "density"%string, "omega"%string, "phi"%string, []. split; [reflexivity|]. intros x H. exact H. Qed.
Lemma tiny_len x : rows_len (tiny_file x) "density" = Ok 3%nat.
Proof. reflexivity. Qed.
Lemma tiny_frames x : create_movie_equally_spaced (tiny_file x) 1 (Some 2) 1 1 = Ok (1, [(1%nat, 1); (2%nat, 2)]).
Proof.
  unfold create_movie_equally_spaced. change (generate_title (tiny_file x)) with (Ok tt). cbn [bind]. rewrite tiny_len. cbn [bind].
  change (attr_look (tiny_file x) "frame_dt") with (Ok 1). cbn [bind]. change (initial_time (tiny_file x)) with 0. unfold time_to_length.
  destruct (Req_EM_T 1 0) as [|_]; [lra|]. cbn [bind].
  replace ((1 - 0) / 1) with (IZR 1) by lra. replace ((2 - 0) / 1) with (IZR 2) by lra. rewrite !R_round_IZR.
  replace (1 / 1) with (IZR 1) by lra. rewrite R_trunc_IZR. change (1 =? 0)%Z with false. cbv iota zeta.
  change (Z.max 1 (1 / 1)) with 1%Z. change (row_index 3 0) with (Ok 0%nat). cbn [bind].
  change (py_range 1 (2 + 1) 1) with [1; 2]%Z. cbn [show_frames]. change (row_index 3 1) with (Ok 1%nat). change (row_index 3 2) with (Ok 2%nat). cbn [bind].
  replace (1 / 1) with 1 by lra. rewrite !Rmult_1_r. reflexivity.
Qed.
Lemma tiny_film x fmt0 str out dpi order zero pre : film_equal fmt0 str (tiny_file x) out dpi order zero pre 1 (Some 2) 1 1 =
  let* p := movie_pictures (tiny_file x) order zero pre [(1%Z, Ok 1); (2%Z, Ok 2)] in Ok (movie_name fmt0 str out dpi 1 1 1 2, 1, p).
Proof.
  unfold film_equal. change (generate_title (tiny_file x)) with (Ok tt). cbn [bind].
  change (attr_look (tiny_file x) "frame_dt") with (Ok 1). cbn [bind]. change (initial_time (tiny_file x)) with 0. unfold time_to_length.
  destruct (Req_EM_T 1 0) as [|_]; [lra|]. cbn [bind].
  replace ((1 - 0) / 1) with (IZR 1) by lra. replace ((2 - 0) / 1) with (IZR 2) by lra. rewrite !R_round_IZR.
  replace (1 / 1) with (IZR 1) by lra. rewrite R_trunc_IZR. change (1 =? 0)%Z with false. cbv iota zeta.
  change (Z.max 1 (1 / 1)) with 1%Z. change (py_range 1 (2 + 1) 1) with [1; 2]%Z. cbn [map]. replace (1 / 1) with 1 by lra. rewrite !Rmult_1_r. reflexivity.
Qed.
Lemma tiny_amp x r : 0 <= x -> forall i, amplitude 1 1 (tiny_row x i r) (match r with O => x | _ => 1 end).
Proof.
  intros Hx i. unfold tiny_row. destruct r; (split; [exists 0%nat, 0%nat; repeat split; [lia..|]; apply Rabs_right; lra|intros; rewrite Rabs_right; lra]).
Qed.
(** the movie of rows 1 and 2 for every first row: density, vorticity and potential
    of these rows; the colours of the first picture still reach (1 + 5)/2 = 3 for a first row of 5 *)
Example C124_case : forall fmt0 str out, exists pics, film_equal fmt0 str (tiny_file 5) out "75" ["density"; "omega"; "phi"]%string false 0 1 (Some 2) 1 1 = Ok (movie_name fmt0 str out "75" 1 1 1 2, 1, pics) /\
  film_of false ["density"; "omega"; "phi"]%string 1 1 (tiny_row 5) [(1%nat, 1); (2%nat, 2)] pics /\
  exists vs rest v, pics = vs :: rest /\ nth_error vs 0 = Some v /\ snd (v_clim v) = 3.
Proof.
  intros fmt0 str out.
  destruct (equal_ok fmt0 str (tiny_file 5) _ 3 1 1 (tiny_row 5) false (tiny_ok 5 _ default_names) (tiny_len 5) out "75" 0 1 (Some 2) 1 1 1 _ (tiny_frames 5)) as (t1' & pics & E & T & P).
  rewrite (T 2 eq_refl) in E. exists pics. split; [exact E|]. split; [exact P|].
  rewrite tiny_film in E. destruct (movie_pictures (tiny_file 5) ["density"; "omega"; "phi"]%string false 0 [(1%Z, Ok 1); (2%Z, Ok 2)]) as [p|] eqn:Ep; [|discriminate]. cbn [bind] in E. injection E as ->.
  destruct (first_ok (tiny_file 5) _ 3 1 1 (tiny_row 5) false 0 1 1 1 [(2%Z, Ok 2)] pics 0 1 5 (tiny_ok 5 _ default_names) eq_refl ltac:(lia) (tiny_amp 5 1 ltac:(lra) 0%nat) (tiny_amp 5 0 ltac:(lra) 0%nat) Ep) as (vs & rest & v & E1 & E2 & E3).
  exists vs, rest, v. split; [exact E1|]. split; [exact E2|]. rewrite E3. replace (1 + (5 - 1) / 2 ^ 1) with 3 by lra. apply Rmax_right. lra.
Qed.

(** the colours of a movie do not only depend on the rows it shows: row 0 of the
    file counts although it is not shown *)
Theorem C124_start_refuted : ~ (forall fmt0 str f g order N ny nx D E zero out dpi pre t0 t1 min_fps speed fps shown u v,
  film_file f order N ny nx D -> film_file g order N ny nx E -> attrs f = attrs g -> rows_len f "density" = Ok N -> rows_len g "density" = Ok N ->
  create_movie_equally_spaced f t0 t1 min_fps speed = Ok (fps, shown) -> create_movie_equally_spaced g t0 t1 min_fps speed = Ok (fps, shown) ->
  (forall r t, In (r, t) shown -> forall i, D i r = E i r) ->
  film_equal fmt0 str f out dpi order zero pre t0 t1 min_fps speed = Ok u -> film_equal fmt0 str g out dpi order zero pre t0 t1 min_fps speed = Ok v -> snd u = snd v).
Proof.
  intros H. set (o := ["density"; "omega"; "phi"]%string).
  assert (K : forall x, 1 <= x -> exists u vs rest v, film_equal (fun _ => ""%string) (fun _ => ""%string) (tiny_file x) "" "75" o false 1 1 (Some 2) 1 1 = Ok u /\ snd u = vs :: rest /\ nth_error vs 0 = Some v /\ snd (v_clim v) = 1 + (x - 1) / 4).
  { intros x Hx. destruct (equal_ok (fun _ => ""%string) (fun _ => ""%string) (tiny_file x) o 3 1 1 (tiny_row x) false (tiny_ok x _ default_names) (tiny_len x) "" "75" 1 1 (Some 2) 1 1 1 _ (tiny_frames x)) as (t1' & pics & E & T & P).
    eexists. rewrite E. pose proof E as E'. rewrite tiny_film in E'. destruct (movie_pictures (tiny_file x) o false 1 [(1%Z, Ok 1); (2%Z, Ok 2)]) as [p|] eqn:Ep; [|discriminate]. cbn [bind] in E'. injection E' as ->.
    destruct (first_ok (tiny_file x) _ 3 1 1 (tiny_row x) false 1 1 1 1 [(2%Z, Ok 2)] pics 0 1 x (tiny_ok x _ default_names) eq_refl ltac:(lia) (tiny_amp x 1 ltac:(lra) 0%nat) (tiny_amp x 0 ltac:(lra) 0%nat) Ep) as (vs & rest & v & E1 & E2 & E3).
    exists vs, rest, v. split; [reflexivity|]. split; [exact E1|]. split; [exact E2|]. rewrite E3. replace (2 ^ 2) with 4 by lra. apply Rmax_right. lra. }
  destruct (K 1 ltac:(lra)) as (u & vs & rest & w & U1 & U2 & U3 & U4). destruct (K 5 ltac:(lra)) as (u' & vs' & rest' & w' & V1 & V2 & V3 & V4).
  pose proof (H (fun _ => ""%string) (fun _ => ""%string) (tiny_file 1) (tiny_file 5) o 3%nat 1%nat 1%nat (tiny_row 1) (tiny_row 5) false ""%string "75"%string 1%nat 1 (Some 2) 1%Z 1 1 _ u u' (tiny_ok 1 _ default_names) (tiny_ok 5 _ default_names) eq_refl (tiny_len 1) (tiny_len 5) (tiny_frames 1) (tiny_frames 5)) as G.
  assert (Q : snd u = snd u').
  { eapply G; [|exact U1|exact V1]. intros r t [E|[E|[]]] i; injection E as <- _; reflexivity. }
  rewrite U2, V2 in Q. injection Q as -> _. rewrite V3 in U3. injection U3 as ->. rewrite V4 in U4. lra.
Qed.
Print Assumptions C124_start_refuted.

(** movies of different fields are saved under one name: the second replaces the first *)
Theorem C124_name_refuted : forall fmt0 str f order order' N ny nx D D' zero zero' out dpi pre t0 t1 min_fps speed fps shown u v,
  film_file f order N ny nx D -> film_file f order' N ny nx D' -> rows_len f "density" = Ok N ->
  create_movie_equally_spaced f t0 (Some t1) min_fps speed = Ok (fps, shown) ->
  film_equal fmt0 str f out dpi order zero pre t0 (Some t1) min_fps speed = Ok u -> film_equal fmt0 str f out dpi order' zero' pre t0 (Some t1) min_fps speed = Ok v ->
  fst (fst u) = fst (fst v).
Proof.
  intros fmt0 str f order order' N ny nx D D' zero zero' out dpi pre t0 t1 min_fps speed fps shown u v A B Hd M U V.
  destruct (equal_ok fmt0 str f order N ny nx D zero A Hd out dpi pre t0 (Some t1) min_fps speed fps shown M) as (a & p & E & T & _).
  destruct (equal_ok fmt0 str f order' N ny nx D' zero' B Hd out dpi pre t0 (Some t1) min_fps speed fps shown M) as (a' & p' & E' & T' & _).
  rewrite (T t1 eq_refl) in E. rewrite (T' t1 eq_refl) in E'. rewrite E in U. rewrite E' in V. injection U as <-. injection V as <-. reflexivity.
Qed.
Print Assumptions C124_name_refuted.
Example C124_names : recorded_names ["phi"; "phi"; "omega"]%string /\ film_file (tiny_file 5) ["phi"; "phi"; "omega"]%string 3 1 1 (tiny_row 5) /\ film_file (tiny_file 5) ["density"; "omega"; "phi"]%string 3 1 1 (tiny_row 5).
Proof.
  assert (A : recorded_names ["phi"; "phi"; "omega"]%string). { exists "phi"%string, "phi"%string, "omega"%string, []. split; [reflexivity|]. cbn. tauto. }
  split; [exact A|]. split; apply tiny_ok; [exact A|exact default_names].
Qed.
(** two steps on a 2 x 2 grid: three frames *)
Example C124_run_case : records_from np_backend (pc false) 2 2 2 2 1 idf wit1 None 0 /\ rows_of 0 1 2 = 3%nat.
Proof. split; [exact (proj1 C89_example)|reflexivity]. Qed.
