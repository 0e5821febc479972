(** Proofs about the pictures of a movie. *)
From Coq Require Import Arith ZArith Bool Reals String List Lia Lra.
From Verif Require Import Num NdArray NdFacts Spec PoissonFacts ModelIO ModelRun ModelRunHW ModelPlot ModelHelpers SpecPlot PlotFacts ModelImage SpecImage ImageFacts ModelMovie SpecMovie.
Import ListNotations.
Local Open Scope R_scope.

(** ** Colour limits of one panel *)
Definition pm (c : R * R) : R := Rmax (Rabs (fst c)) (snd c).
Definition nxt (a p : R) : R := if Rlt_dec a p then (a + p) / 2 else a.
Definition ampf (d : list R) : R := match np_max d, np_min d with Ok hi, Ok lo => Rmax (Rabs lo) hi | _, _ => 0 end.
Lemma nxt_ge a p : a <= nxt a p.
Proof. unfold nxt. destruct (Rlt_dec a p); lra. Qed.
Lemma nxt_le a p b : p <= b -> nxt a p <= Rmax a ((a + b) / 2).
Proof. intros H. unfold nxt. destruct (Rlt_dec a p). - eapply Rle_trans; [|apply Rmax_r]. lra. - apply Rmax_l. Qed.
Lemma nxt_keep a p b : p <= Rmax a b -> nxt a p <= Rmax a b.
Proof. intros H. unfold nxt. destruct (Rlt_dec a p); [lra|apply Rmax_l]. Qed.
Lemma nxt_half a p b : p <= Rmax a b -> nxt a p <= Rmax a ((a + b) / 2).
Proof.
  intros H. unfold nxt. destruct (Rlt_dec a p); [|apply Rmax_l]. eapply Rle_trans; [|apply Rmax_r].
  unfold Rmax in H. destruct (Rle_dec a b); lra.
Qed.
Lemma pm_sym m : 0 <= m -> pm (- m, m) = m.
Proof. intros H. unfold pm. cbn [fst snd]. rewrite Rabs_Ropp, (Rabs_right m) by lra. apply Rmax_left; lra. Qed.

Section Grid.
Context (ny nx : nat) (Hy : (0 < ny)%nat) (Hx : (0 < nx)%nat).
Notation dat g := (NdArray.data (grid ny nx g)).
Lemma ampf_amplitude g : amplitude ny nx g (ampf (dat g)).
Proof.
  destruct (grid_clim ny nx g Hy Hx) as (lo & hi & E1 & E2 & B & (i & j & Hi & Hj & L) & (i' & j' & Hi' & Hj' & G)).
  unfold ampf. rewrite E1, E2. pose proof (B i j Hi Hj) as B1. pose proof (B i' j' Hi' Hj') as B2. rewrite L in B1. rewrite G in B2.
  assert (U : forall a b, (a < ny)%nat -> (b < nx)%nat -> Rabs (g a b) <= Rmax (Rabs lo) hi).
  { intros a b Ha Hb. specialize (B a b Ha Hb). pose proof (Rmax_l (Rabs lo) hi). pose proof (Rmax_r (Rabs lo) hi).
    pose proof (Rle_abs (- lo)) as K. rewrite Rabs_Ropp in K. apply Rabs_le. lra. }
  split; [|exact U]. unfold Rmax in *. destruct (Rle_dec (Rabs lo) hi) as [Hl|Hl].
  - exists i', j'. repeat split; auto. rewrite G. apply Rabs_right. pose proof (Rabs_pos lo). lra.
  - exists i, j. repeat split; auto. now rewrite L.
Qed.
Lemma amplitude_unique g a b : amplitude ny nx g a -> amplitude ny nx g b -> a = b.
Proof.
  intros ((i & j & Hi & Hj & E) & U) ((i' & j' & Hi' & Hj' & E') & U'). apply Rle_antisym.
  - rewrite <- E. now apply U'.
  - rewrite <- E'. now apply U.
Qed.
Lemma amplitude_pos g a : amplitude ny nx g a -> 0 <= a.
Proof. intros ((i & j & Hi & Hj & E) & U). rewrite <- E. apply Rabs_pos. Qed.
Lemma amplitude_inside g a b : amplitude ny nx g a -> inside ny nx b g -> a <= b.
Proof. intros ((i & j & Hi & Hj & E) & U) B. rewrite <- E. now apply B. Qed.
Lemma next_clim_grid g c : next_clim (dat g) c = Ok (- nxt (ampf (dat g)) (pm c), nxt (ampf (dat g)) (pm c)).
Proof.
  destruct (grid_clim ny nx g Hy Hx) as (lo & hi & E1 & E2 & _). unfold next_clim, ampf. rewrite E1, E2. cbn [bind].
  unfold new_cbar_max_smooth, nxt, pm. reflexivity.
Qed.
Lemma pm_auto g lo hi : np_min (dat g) = Ok lo -> np_max (dat g) = Ok hi -> pm (lo, hi) = ampf (dat g).
Proof. intros E1 E2. unfold ampf, pm. now rewrite E1, E2. Qed.
End Grid.

Lemma row_index_lt n q r : row_index n q = Ok r -> (r < n)%nat.
Proof.
  unfold row_index. destruct ((0 <=? q)%Z && (q <? Z.of_nat n)%Z) eqn:E1; [|destruct ((q <? 0)%Z && (- Z.of_nat n <=? q)%Z) eqn:E2]; intros H; try discriminate; injection H as <-.
  - apply andb_true_iff in E1. destruct E1 as [A B]. apply Z.leb_le in A. apply Z.ltb_lt in B. lia.
  - apply andb_true_iff in E2. destruct E2 as [A B]. apply Z.ltb_lt in A. apply Z.leb_le in B. lia.
Qed.
Lemma show_inv {X} (g : X -> res (nat * R)) l : forall s, show_frames g l = Ok s -> Forall2 (fun x a => g x = Ok a) l s.
Proof.
  induction l as [|x l IH]; intros s; cbn [show_frames].
  - intros H. injection H as <-. constructor.
  - destruct (g x) as [a|] eqn:E; [|discriminate]. cbn [bind]. destruct (show_frames g l) as [r|]; [|discriminate]. cbn [bind].
    intros H. injection H as <-. constructor; auto.
Qed.

Section Film.
Context (f : h5 (arr R) R) (order : list string) (N ny nx : nat) (D : nat -> nat -> nat -> nat -> R) (zero : bool) (F : film_file f order N ny nx D).
Let Hy : (0 < ny)%nat := proj1 (proj2 F).
Let Hx : (0 < nx)%nat := proj1 (proj2 (proj2 F)).
Notation SR := (shown_row zero order ny nx D).
Notation dat g := (NdArray.data (grid ny nx g)).
Definition Am (i r : nat) : R := ampf (dat (SR i r)).

Lemma film_pick i : (i < 3)%nat -> pick order i = Ok (nth i order ""%string).
Proof.
  intros Hi. pose proof F as (_ & _ & _ & G). destruct (G i Hi) as (name & l & E & _). unfold pick. rewrite E. f_equal.
  symmetry. now apply nth_error_nth.
Qed.
Lemma film_row i q r : (i < 3)%nat -> row_index N q = Ok r -> field_row f (nth i order ""%string) q = Ok (grid ny nx (D i r)).
Proof.
  intros Hi Hr. pose proof F as (_ & _ & _ & G). destruct (G i Hi) as (name & l & E & El & Hl & V).
  rewrite (nth_error_nth _ _ _ E). eapply field_row_at; [exact El|rewrite Hl; exact Hr|]. apply V. eapply row_index_lt; exact Hr.
Qed.
Definition pics_of (t : R) (r : nat) (c : nat -> R * R) (i : nat) : view :=
  mkView (nth i order ""%string) t (grid ny nx (SR i r)) (- nxt (Am i r) (pm (c i)), nxt (Am i r) (pm (c i))).
Lemma animate_axes_ok q r t (c : nat -> R * R) is : row_index N q = Ok r -> (forall i, In i is -> (i < 3)%nat) ->
  animate_axes f order zero q (Ok t) is (map c is) = Ok (map (pics_of t r c) is).
Proof.
  intros Hr. induction is as [|i is IH]; intros H; cbn [animate_axes map]; [reflexivity|].
  assert (Hi : (i < 3)%nat) by (apply H; now left). rewrite (film_pick i Hi). cbn [bind]. rewrite (film_row i q r Hi Hr). cbn [bind].
  match goal with |- (let* _ := ?x in _) = _ => assert (E : x = Ok (grid ny nx (SR i r))) end.
  { unfold shown_row. destruct (zero && (nth i order "" =? "omega")%string); [|reflexivity]. now rewrite mean_all_grid, sub_grid_sc. }
  rewrite E. cbn [bind]. rewrite (next_clim_grid ny nx Hy Hx). cbn [bind]. rewrite IH by (intros j Hj; apply H; now right). cbn [bind]. reflexivity.
Qed.
Lemma animate_ok q r t c : row_index N q = Ok r -> animate f order zero (q, Ok t) (map c axes) = Ok (map (pics_of t r c) axes).
Proof. intros Hr. unfold animate. cbn [fst snd]. apply animate_axes_ok; [exact Hr|]. cbn. lia. Qed.
Definition clims_of t r c (i : nat) : R * R := v_clim (pics_of t r c i).
Lemma map_clims t r c : map v_clim (map (pics_of t r c) axes) = map (clims_of t r c) axes.
Proof. now rewrite map_map. Qed.
Lemma Am_pos i r : 0 <= Am i r.
Proof. eapply amplitude_pos. apply (ampf_amplitude ny nx Hy Hx). Qed.
Lemma pm_clims t r c i : pm (clims_of t r c i) = nxt (Am i r) (pm (c i)).
Proof. apply pm_sym. pose proof (Am_pos i r). pose proof (nxt_ge (Am i r) (pm (c i))). lra. Qed.

Fixpoint warmc (pre : nat) (t : R) (r : nat) (c : nat -> R * R) : nat -> R * R := match pre with O => c | S n => warmc n t r (clims_of t r c) end.
Lemma warm_ok pre q r t : row_index N q = Ok r -> forall c, warm f order zero pre (q, Ok t) (map c axes) = Ok (map (warmc pre t r c) axes).
Proof.
  intros Hr. induction pre as [|n IH]; intros c; [reflexivity|]. cbn [warm warmc]. rewrite (animate_ok q r t c Hr). cbn [bind]. rewrite map_clims. apply IH.
Qed.
Lemma warm_le pre t r i b : forall c, pm (c i) <= Rmax (Am i r) b -> pm (warmc pre t r c i) <= Rmax (Am i r) b.
Proof.
  induction pre as [|n IH]; intros c H; [exact H|]. cbn [warmc]. apply IH. rewrite pm_clims. now apply nxt_keep.
Qed.

Fixpoint seqc (shown : list (nat * R)) (c : nat -> R * R) : list (nat -> R * R) :=
  match shown with [] => [] | rt :: l => let c' := clims_of (snd rt) (fst rt) c in c' :: seqc l c' end.
Lemma play_ok frames shown : Forall2 (fun fr rt => row_index N (fst fr) = Ok (fst rt) /\ snd fr = Ok (snd rt)) frames shown -> forall c,
  exists pics, play f order zero frames (map c axes) = Ok pics /\ List.length pics = List.length shown /\
    forall k rt vs, nth_error shown k = Some rt -> nth_error pics k = Some vs -> exists ck, nth_error (seqc shown c) k = Some ck /\
      vs = map (fun i => mkView (nth i order ""%string) (snd rt) (grid ny nx (SR i (fst rt))) (- pm (ck i), pm (ck i))) axes.
Proof.
  induction 1 as [|[q lab] [r t] frames shown [Hr Hl] H IH]; intros c.
  - exists []. repeat split; try reflexivity. intros [|k] rt vs Hk; discriminate.
  - cbn [fst snd] in Hr, Hl. subst lab. cbn [play]. rewrite (animate_ok q r t c Hr). cbn [bind]. rewrite map_clims.
    destruct (IH (clims_of t r c)) as (pics & E & L & P). rewrite E. cbn [bind].
    exists (map (pics_of t r c) axes :: pics). split; [reflexivity|]. split; [cbn; now rewrite L|].
    intros [|k] rt vs Hk Hv; cbn [nth_error] in Hk, Hv.
    + injection Hk as <-. injection Hv as <-. exists (clims_of t r c). split; [reflexivity|]. transitivity (map (pics_of t r c) axes); [reflexivity|]. apply map_ext. intros i.
      cbn [fst snd]. unfold pics_of. now rewrite pm_clims.
    + cbn [seqc fst snd]. exact (P k rt vs Hk Hv).
Qed.
(** limits of picture k *)
Lemma seqc_le shown i : forall c b, (forall r, In r (map fst shown) -> Am i r <= b) -> pm (c i) <= b ->
  forall k ck, nth_error (seqc shown c) k = Some ck -> pm (ck i) <= b.
Proof.
  induction shown as [|[r t] l IH]; intros c b H Hc [|k] ck E; cbn [seqc nth_error] in E; try discriminate.
  - injection E as <-. cbn [fst snd]. rewrite pm_clims. eapply Rle_trans; [apply (nxt_le _ _ b Hc)|].
    assert (Am i r <= b) by (apply H; now left). apply Rmax_lub; lra.
  - cbn [fst snd] in E. eapply IH; [| |exact E].
    + intros r' Hr'. apply H. now right.
    + rewrite pm_clims. eapply Rle_trans; [apply (nxt_le _ _ b Hc)|]. assert (Am i r <= b) by (apply H; now left). apply Rmax_lub; lra.
Qed.
Lemma seqc_step shown i : forall c k r ck, nth_error (map fst shown) k = Some r -> nth_error (seqc shown c) k = Some ck ->
  Am i r <= pm (ck i) /\
  forall b, (forall r', In r' (firstn k (map fst shown)) -> Am i r' <= b) -> match k with O => pm (c i) <= Rmax (Am i r) b | _ => pm (c i) <= match shown with rt :: _ => Rmax (Am i (fst rt)) b | [] => b end end ->
    pm (ck i) <= Rmax (Am i r) ((Am i r + b) / 2).
Proof.
  induction shown as [|[r0 t0] l IH]; intros c [|k] r ck Hr Hc; cbn [map nth_error seqc fst snd] in Hr, Hc; try discriminate.
  - injection Hr as ->. injection Hc as <-. rewrite pm_clims. split; [apply nxt_ge|]. intros b _ H. now apply nxt_half.
  - destruct (IH _ k r ck Hr Hc) as [G1 G2]. split; [exact G1|]. intros b B H. cbn [map firstn fst] in B, H.
    assert (B0 : Am i r0 <= b) by (apply B; now left).
    assert (P : pm (clims_of t0 r0 c i) <= b). { rewrite pm_clims. eapply Rle_trans; [apply nxt_keep; exact H|]. apply Rmax_lub; lra. }
    apply G2.
    + intros r' Hr'. apply B. now right.
    + destruct k; [eapply Rle_trans; [exact P|apply Rmax_r]|]. destruct l as [|[r1 t1] l']; [exact P|]. cbn [fst]. eapply Rle_trans; [exact P|apply Rmax_r].
Qed.

Lemma setup_ok is : (forall i, In i is -> (i < 3)%nat) -> exists c, setup_axes f order is = Ok (map c is) /\ forall i, In i is -> pm (c i) = ampf (dat (D i 0%nat)).
Proof.
  assert (R0 : row_index N 0 = Ok 0%nat). { pose proof F as (HN & _). rewrite row_index_mod by lia. reflexivity. }
  intros H. 
  exists (fun i => match np_min (dat (D i 0%nat)), np_max (dat (D i 0%nat)) with Ok lo, Ok hi => (lo, hi) | _, _ => (0, 0) end). split.
  - revert H. induction is as [|i is IH]; intros H; [reflexivity|]. cbn [setup_axes map].
    assert (Hi : (i < 3)%nat) by (apply H; now left). rewrite (film_pick i Hi). cbn [bind]. rewrite (film_row i 0 0 Hi R0). cbn [bind].
    destruct (grid_clim ny nx (D i 0%nat) Hy Hx) as (lo & hi & E1 & E2 & _). rewrite E1, E2. cbn [bind]. rewrite IH by (intros j Hj; apply H; now right). reflexivity.
  - intros i _. destruct (grid_clim ny nx (D i 0%nat) Hy Hx) as (lo & hi & E1 & E2 & _). pose proof (pm_auto ny nx (D i 0%nat) lo hi E1 E2) as K. now rewrite E1, E2.
Qed.

Theorem pictures_ok pre frames shown : Forall2 (fun fr rt => row_index N (fst fr) = Ok (fst rt) /\ snd fr = Ok (snd rt)) frames shown ->
  exists pics, movie_pictures f order zero pre frames = Ok pics /\ film_of zero order ny nx D shown pics.
Proof.
  intros H. unfold movie_pictures. destruct (setup_ok axes) as (c & Ec & Pc); [cbn; lia|]. rewrite Ec. cbn [bind].
  destruct H as [|[q lab] [r t] frames shown [Hr Hl] H].
  - exists []. split; [reflexivity|]. split; [reflexivity|]. exists (fun _ _ => 0). split; [intros [|k] rt vs E; discriminate|intros [|k] r i a E; discriminate].
  - cbn [fst snd] in Hr, Hl. subst lab. rewrite (warm_ok pre q r t Hr c). cbn [bind]. set (c1 := warmc pre t r c).
    destruct (play_ok ((q, Ok t) :: frames) ((r, t) :: shown) (Forall2_cons (q, Ok t) (r, t) (conj Hr eq_refl) H) c1) as (pics & E & L & P).
    exists pics. split; [exact E|]. split; [exact L|].
    exists (fun k i => match nth_error (seqc ((r, t) :: shown) c1) k with Some ck => pm (ck i) | None => 0 end). split.
    + intros k rt vs Hk Hv. destruct (P k rt vs Hk Hv) as (ck & Ek & ->). rewrite Ek. split; [reflexivity|].
      intros i Hi. destruct i as [|[|[|i]]]; [reflexivity..|lia].
    + intros k r' i a Hk Hi Ha.
      assert (Hc : exists ck, nth_error (seqc ((r, t) :: shown) c1) k = Some ck).
      { assert (Lk : (k < List.length ((r, t) :: shown))%nat). { rewrite <- (map_length fst). apply nth_error_Some. now rewrite Hk. }
        destruct (nth_error ((r, t) :: shown) k) as [rt|] eqn:E1; [|apply nth_error_None in E1; lia].
        destruct (nth_error pics k) as [vs|] eqn:E2; [|apply nth_error_None in E2; rewrite L in E2; lia].
        destruct (P k rt vs E1 E2) as (ck & Ek & _). eauto. }
      destruct Hc as [ck Ek]. rewrite Ek. destruct (seqc_step _ i c1 k r' ck Hk Ek) as [G1 G2].
      assert (Ea : a = Am i r'). { eapply amplitude_unique; [exact Ha|apply (ampf_amplitude ny nx Hy Hx)]. } subst a.
      split; [exact G1|]. intros b B0 B. 
      assert (Q : pm (c1 i) <= Rmax (Am i r) b).
      { apply warm_le. rewrite Pc by (destruct i as [|[|[|i]]]; cbn; auto; lia). eapply Rle_trans; [|apply Rmax_r].
        eapply amplitude_inside; [apply (ampf_amplitude ny nx Hy Hx)|exact B0]. }
      apply G2.
      * intros r'' Hr''. eapply amplitude_inside; [apply (ampf_amplitude ny nx Hy Hx)|apply B; exact Hr''].
      * destruct k; [|exact Q]. cbn in Hk. injection Hk as <-. exact Q.
Qed.
End Film.

(** ** The two movie functions *)
Section Movies.
Context (fmt0 str : R -> string) (f : h5 (arr R) R) (order : list string) (N ny nx : nat) (D : nat -> nat -> nat -> nat -> R) (zero : bool) (F : film_file f order N ny nx D).
Context (Hd : rows_len f "density" = Ok N).
Lemma first_len : pick order 0 = Ok (nth 0 order ""%string) /\ rows_len f (nth 0 order ""%string) = Ok N.
Proof.
  pose proof F as (_ & _ & _ & G). destruct (G 0%nat ltac:(lia)) as (name & l & E & El & Hl & _). unfold pick. rewrite E, (nth_error_nth _ _ _ E).
  split; [reflexivity|]. unfold rows_len, dlook. rewrite El. cbn [bind]. now rewrite Hl.
Qed.
Theorem equal_ok out dpi pre t0 t1 min_fps speed fps shown :
  create_movie_equally_spaced f t0 t1 min_fps speed = Ok (fps, shown) ->
  exists t1' pics, film_equal fmt0 str f out dpi order zero pre t0 t1 min_fps speed = Ok (movie_name fmt0 str out dpi fps speed t0 t1', fps, pics) /\
    (forall t, t1 = Some t -> t1' = t) /\ film_of zero order ny nx D shown pics.
Proof.
  unfold create_movie_equally_spaced, film_equal. destruct first_len as [Ep El].
  destruct (generate_title f) as [u|]; [|discriminate]. cbn [bind]. rewrite Hd. cbn [bind].
  destruct (attr_look f "frame_dt") as [dt|]; [|discriminate]. cbn [bind].
  intros H. set (T1 := match t1 with Some t => t | None => (INR N - 1) * dt end) in H.
  assert (E1 : match t1 with Some t => Ok t | None => let* name := pick order 0 in let* n := rows_len f name in Ok ((INR n - 1) * dt)%R end = Ok T1).
  { unfold T1. destruct t1; [reflexivity|]. rewrite Ep. cbn [bind]. rewrite El. reflexivity. }
  rewrite E1. cbn [bind].
  destruct (time_to_length (t0 - initial_time f) dt) as [a|]; [|discriminate]. cbn [bind] in *.
  destruct (time_to_length (T1 - initial_time f) dt) as [b|]; [|discriminate]. cbn [bind] in *.
  cbv zeta in H |- *. destruct (min_fps =? 0)%Z; [discriminate|].
  destruct (row_index N 0) as [r0|]; [|discriminate]. cbn [bind] in H.
  match type of H with context [show_frames ?g ?l] => destruct (show_frames g l) as [s|] eqn:Es; [|discriminate] end. cbn [bind] in H. injection H as <- <-.
  apply show_inv in Es.
  match goal with |- context [movie_pictures f order zero pre ?fr] => destruct (pictures_ok f order N ny nx D zero F pre fr s) as (pics & E & P) end.
  { clear - Es. induction Es as [|q rt l s Hq H IH]; [constructor|]. cbn [map]. constructor; [|exact IH]. cbn [fst snd].
    destruct (row_index N q) as [r|]; [|discriminate]. cbn [bind] in Hq. injection Hq as <-. split; reflexivity. }
  rewrite E. cbn [bind]. exists T1, pics. split; [reflexivity|]. split; [|exact P]. intros t ->. reflexivity.
Qed.
Theorem unequal_ok out dpi pre t0 t1 min_fps speed fps shown :
  create_movie_unequal_spaced_fine f t0 t1 min_fps speed = Ok (fps, shown) ->
  exists t1' pics, film_unequal fmt0 str f out dpi order zero pre t0 t1 min_fps speed = Ok (movie_name fmt0 str out dpi fps speed t0 t1', fps, pics) /\
    (forall t, t1 = Some t -> t1' = t) /\ film_of zero order ny nx D shown pics.
Proof.
  unfold create_movie_unequal_spaced_fine, film_unequal.
  destruct (generate_title f) as [u|]; [|discriminate]. cbn [bind].
  destruct (nums f "time") as [times|]; [|discriminate]. cbn [bind].
  match goal with |- context [match t1 with Some t => Ok t | None => ?b end] => destruct (match t1 with Some t => Ok t | None => b end) as [T1|] eqn:E1; [|discriminate] end. cbn [bind].
  destruct (Req_EM_T min_fps 0); [discriminate|]. cbv zeta. destruct (Req_EM_T (speed / min_fps) 0); [discriminate|]. rewrite Hd. cbn [bind].
  destruct (row_index N 0) as [r0|]; [|discriminate]. cbn [bind].
  intros H. match type of H with context [show_frames ?g ?l] => destruct (show_frames g l) as [s|] eqn:Es; [|discriminate] end. cbn [bind] in H. injection H as <- <-.
  apply show_inv in Es.
  match goal with |- context [movie_pictures f order zero pre ?fr] => destruct (pictures_ok f order N ny nx D zero F pre fr s) as (pics & E & P) end.
  { clear - Es. induction Es as [|q rt l s Hq H IH]; [constructor|]. cbn [map]. constructor; [|exact IH]. cbn [fst snd].
    destruct (row_index N (Z.of_nat q)) as [r|] eqn:Er; [|discriminate]. cbn [bind] in Hq.
    assert (r = q). { unfold row_index in Er. destruct ((0 <=? Z.of_nat q)%Z && (Z.of_nat q <? Z.of_nat N)%Z); [injection Er as <-; lia|]. destruct (Z.ltb_spec (Z.of_nat q) 0); [lia|discriminate]. } subst r.
    destruct (q <? List.length times)%nat; [|discriminate]. injection Hq as <-. split; reflexivity. }
  rewrite E. cbn [bind]. exists T1, pics. split; [reflexivity|]. split; [|exact P]. intros t ->. now injection E1.
Qed.
End Movies.

Theorem main_ok fmt0 str f order N ny nx D out dpi pre t0 t1 min_fps speed fps shown : film_file f order N ny nx D -> rows_len f "density" = Ok N ->
  create_movie f t0 t1 min_fps speed = Ok (fps, shown) ->
  exists t1' pics, film_main fmt0 str f out dpi order pre t0 t1 min_fps speed = Ok (movie_name fmt0 str out dpi fps speed t0 t1', fps, pics) /\
    (forall t, t1 = Some t -> t1' = t) /\ film_of false order ny nx D shown pics.
Proof.
  intros F Hd. unfold create_movie, film_main. destruct (dlook (attrs f) "adaptive_step_size") as [a|]; [|discriminate]. cbn [bind].
  destruct (attr_bool a); intros H; [eapply unequal_ok|eapply equal_ok]; eauto.
Qed.

(** ** Orders of more or fewer than three names *)
Lemma setup_short f order is : (exists i, In i is /\ (List.length order <= i)%nat) -> forall c, setup_axes f order is <> Ok c.
Proof.
  induction is as [|j is IH]; intros (i & Hi & Ho) c; [destruct Hi|]. cbn [setup_axes]. destruct Hi as [->|Hi].
  - unfold pick. rewrite (proj2 (nth_error_None order i) Ho). discriminate.
  - destruct (pick order j) as [nm|]; [|discriminate]. cbn [bind]. destruct (field_row f nm 0) as [a|]; [|discriminate]. cbn [bind].
    destruct (np_min (data a)); [|discriminate]. cbn [bind]. destruct (np_max (data a)); [|discriminate]. cbn [bind].
    destruct (setup_axes f order is) as [r|] eqn:E; [|discriminate]. exfalso. eapply IH; [eauto|reflexivity].
Qed.
Theorem short_order fmt0 str f out dpi order zero pre t0 t1 min_fps mf speed r : (List.length order < 3)%nat ->
  film_equal fmt0 str f out dpi order zero pre t0 t1 min_fps speed <> Ok r /\ film_unequal fmt0 str f out dpi order zero pre t0 t1 mf speed <> Ok r.
Proof.
  intros H. assert (K : forall fr p, movie_pictures f order zero pre fr <> Ok p).
  { intros fr p. unfold movie_pictures. destruct (setup_axes f order axes) as [c|] eqn:E; [|discriminate]. exfalso. eapply setup_short; [|exact E].
    exists 2%nat. split; [cbn; auto|lia]. }
  split; unfold film_equal, film_unequal; destruct (generate_title f); try discriminate; cbn [bind].
  - match goal with |- (let* _ := ?x in _) <> _ => destruct x as [T1|]; [|discriminate] end. cbn [bind].
    destruct (attr_look f "frame_dt") as [dt|]; [|discriminate]. cbn [bind].
    destruct (time_to_length (t0 - initial_time f) dt); [|discriminate]. cbn [bind].
    destruct (time_to_length (T1 - initial_time f) dt); [|discriminate]. cbn [bind]. cbv zeta. destruct (min_fps =? 0)%Z; [discriminate|].
    match goal with |- context [movie_pictures f order zero pre ?fr] => specialize (K fr); destruct (movie_pictures f order zero pre fr) as [p|] end; [|discriminate]. exfalso. now apply (K p).
  - destruct (nums f "time"); [|discriminate]. cbn [bind].
    match goal with |- (let* _ := ?x in _) <> _ => destruct x; [|discriminate] end. cbn [bind].
    destruct (Req_EM_T mf 0); [discriminate|]. cbv zeta. destruct (Req_EM_T (speed / mf) 0); [discriminate|].
    match goal with |- context [movie_pictures f order zero pre ?fr] => specialize (K fr); destruct (movie_pictures f order zero pre fr) as [p|] end; [|discriminate]. exfalso. now apply (K p).
Qed.
Lemma pick_3 order i : (i < 3)%nat -> pick (firstn 3 order) i = pick order i.
Proof. intros H. destruct order as [|a [|b [|c l]]], i as [|[|[|i]]]; try reflexivity; lia. Qed.
Lemma setup_ext f order is : (forall i, In i is -> (i < 3)%nat) -> setup_axes f (firstn 3 order) is = setup_axes f order is.
Proof. induction is as [|i is IH]; intros H; [reflexivity|]. cbn [setup_axes]. rewrite pick_3 by (apply H; now left). rewrite IH by (intros j Hj; apply H; now right). reflexivity. Qed.
Lemma animate_axes_ext f order zero q lab is : (forall i, In i is -> (i < 3)%nat) -> forall c, animate_axes f (firstn 3 order) zero q lab is c = animate_axes f order zero q lab is c.
Proof. induction is as [|i is IH]; intros H [|c cs]; try reflexivity. cbn [animate_axes]. rewrite pick_3 by (apply H; now left). rewrite IH by (intros j Hj; apply H; now right). reflexivity. Qed.
Lemma animate_ext f order zero fr c : animate f (firstn 3 order) zero fr c = animate f order zero fr c.
Proof. apply animate_axes_ext. cbn; lia. Qed.
Lemma warm_ext f order zero pre fr : forall c, warm f (firstn 3 order) zero pre fr c = warm f order zero pre fr c.
Proof. induction pre as [|n IH]; intros c; [reflexivity|]. cbn [warm]. rewrite animate_ext. destruct (animate f order zero fr c); [apply IH|reflexivity]. Qed.
Lemma play_ext f order zero fr : forall c, play f (firstn 3 order) zero fr c = play f order zero fr c.
Proof. induction fr as [|x l IH]; intros c; [reflexivity|]. cbn [play]. rewrite animate_ext. destruct (animate f order zero x c); [cbn [bind]; now rewrite IH|reflexivity]. Qed.
Lemma movie_ext f order zero pre fr : movie_pictures f (firstn 3 order) zero pre fr = movie_pictures f order zero pre fr.
Proof.
  unfold movie_pictures. rewrite setup_ext by (cbn; lia). destruct (setup_axes f order axes); [|reflexivity]. cbn [bind]. destruct fr as [|x l]; [reflexivity|].
  rewrite warm_ext. destruct (warm f order zero pre x a); [|reflexivity]. cbn [bind]. apply play_ext.
Qed.
Theorem extra_names fmt0 str f out dpi order zero pre t0 t1 min_fps mf speed :
  film_equal fmt0 str f out dpi (firstn 3 order) zero pre t0 t1 min_fps speed = film_equal fmt0 str f out dpi order zero pre t0 t1 min_fps speed /\
  film_unequal fmt0 str f out dpi (firstn 3 order) zero pre t0 t1 mf speed = film_unequal fmt0 str f out dpi order zero pre t0 t1 mf speed.
Proof.
  assert (P0 : pick (firstn 3 order) 0 = pick order 0) by (apply pick_3; lia).
  split; unfold film_equal, film_unequal.
  - rewrite P0. destruct (generate_title f); [|reflexivity]. cbn [bind].
    match goal with |- (let* _ := ?x in _) = _ => destruct x as [T1|]; [|reflexivity] end. cbn [bind].
    destruct (attr_look f "frame_dt") as [dt|]; [|reflexivity]. cbn [bind].
    destruct (time_to_length (t0 - initial_time f) dt); [|reflexivity]. cbn [bind].
    destruct (time_to_length (T1 - initial_time f) dt); [|reflexivity]. cbn [bind]. cbv zeta. destruct (min_fps =? 0)%Z; [reflexivity|]. now rewrite movie_ext.
  - destruct (generate_title f); [|reflexivity]. cbn [bind]. destruct (nums f "time"); [|reflexivity]. cbn [bind].
    match goal with |- (let* _ := ?x in _) = _ => destruct x; [|reflexivity] end. cbn [bind].
    destruct (Req_EM_T mf 0); [reflexivity|]. cbv zeta. destruct (Req_EM_T (speed / mf) 0); [reflexivity|]. now rewrite movie_ext.
Qed.

(** ** The limits of the first picture *)
Lemma iter_nxt a p n : nxt a p = Rmax a ((a + p) / 2) /\ Nat.iter n (nxt a) p = if Rle_dec p a then (match n with O => p | _ => a end) else a + (p - a) / 2 ^ n.
Proof.
  assert (K : nxt a p = Rmax a ((a + p) / 2)). { unfold nxt, Rmax. destruct (Rlt_dec a p), (Rle_dec a ((a + p) / 2)); lra. }
  split; [exact K|]. induction n as [|n IH].
  - cbn. destruct (Rle_dec p a); lra.
  - cbn [Nat.iter nat_rect]. change (nat_rect (fun _ => R) p (fun _ => nxt a) n) with (Nat.iter n (nxt a) p). rewrite IH. destruct (Rle_dec p a) as [H|H].
    + destruct n; unfold nxt; destruct Rlt_dec; lra.
    + assert (0 < (p - a) / 2 ^ n) by (apply Rdiv_lt_0_compat; [lra|apply pow_lt; lra]). unfold nxt. destruct (Rlt_dec a (a + (p - a) / 2 ^ n)); [|lra].
      cbn [pow]. assert (2 ^ n <> 0) by (apply pow_nonzero; lra). field. assumption.
Qed.
Lemma warm_iter f order N ny nx D zero (F : film_file f order N ny nx D) pre t r i : forall c, pm (warmc order ny nx D zero pre t r c i) = Nat.iter pre (nxt (Am order ny nx D zero i r)) (pm (c i)).
Proof.
  induction pre as [|n IH]; intros c; [reflexivity|]. cbn [warmc]. rewrite IH, (pm_clims f order N ny nx D zero F).
  clear IH. induction n as [|n IH]; [reflexivity|]. cbn [Nat.iter nat_rect]. f_equal. exact IH.
Qed.
Theorem first_ok f order N ny nx D zero pre q r t frames pics i a a0 : film_file f order N ny nx D -> row_index N q = Ok r -> (i < 3)%nat ->
  amplitude ny nx (shown_row zero order ny nx D i r) a -> amplitude ny nx (D i 0%nat) a0 ->
  movie_pictures f order zero pre ((q, Ok t) :: frames) = Ok pics ->
  exists vs rest v, pics = vs :: rest /\ nth_error vs i = Some v /\ snd (v_clim v) = Rmax a (a + (a0 - a) / 2 ^ S pre).
Proof.
  intros F Hr Hi Ha Ha0. pose proof F as (_ & Hy & Hx & _). unfold movie_pictures. destruct (setup_ok f order N ny nx D F axes) as (c & Ec & Pc); [cbn; lia|]. rewrite Ec. cbn [bind].
  rewrite (warm_ok f order N ny nx D zero F pre q r t Hr c). cbn [bind play]. rewrite (animate_ok f order N ny nx D zero F q r t _ Hr). cbn [bind].
  match goal with |- context [play f order zero frames ?x] => destruct (play f order zero frames x) as [rest|]; [|discriminate] end. cbn [bind].
  intros H. injection H as <-. eexists. exists rest, (pics_of order ny nx D zero t r (warmc order ny nx D zero pre t r c) i). split; [reflexivity|].
  split; [destruct i as [|[|[|i]]]; [reflexivity..|lia]|]. unfold pics_of. cbn [v_clim snd].
  rewrite (warm_iter f order N ny nx D zero F), Pc by (destruct i as [|[|[|i]]]; cbn; auto; lia).
  rewrite <- (amplitude_unique ny nx _ _ _ Ha0 (ampf_amplitude ny nx Hy Hx _)).
  unfold Am. rewrite <- (amplitude_unique ny nx _ _ _ Ha (ampf_amplitude ny nx Hy Hx _)).
  change (nxt a (Nat.iter pre (nxt a) a0)) with (Nat.iter (S pre) (nxt a) a0). rewrite (proj2 (iter_nxt a a0 (S pre))).
  assert (P : 0 < 2 ^ S pre) by (apply pow_lt; lra). destruct (Rle_dec a0 a) as [L|L].
  - symmetry. apply Rmax_left. assert (0 <= (a - a0) / 2 ^ S pre) by (unfold Rdiv; apply Rmult_le_pos; [lra|left; now apply Rinv_0_lt_compat]). 
    replace ((a0 - a) / 2 ^ S pre) with (- ((a - a0) / 2 ^ S pre)) by (field; lra). lra.
  - symmetry. apply Rmax_right. assert (0 < (a0 - a) / 2 ^ S pre) by (apply Rdiv_lt_0_compat; lra). lra.
Qed.
