(** Proofs about the image script. *)
From Coq Require Import Arith ZArith Bool Reals String Ascii List Lia Lra.
From Verif Require Import Num NdArray NdFacts Spec PoissonFacts ModelIO ModelRun ModelRunHW ModelPlot ModelHelpers SpecPlot PlotFacts ModelImage SpecImage.
Import ListNotations.
Local Open Scope string_scope.

Lemma len_app a b : String.length (a ++ b) = (String.length a + String.length b)%nat.
Proof. induction a as [|c a IH]; cbn; [reflexivity|now rewrite IH]. Qed.
Lemma app_assoc_s a b c : (a ++ b) ++ c = a ++ b ++ c.
Proof. induction a as [|x a IH]; cbn; [reflexivity|now rewrite IH]. Qed.
Lemma app_nil_s a : a ++ "" = a.
Proof. induction a as [|x a IH]; cbn; [reflexivity|now rewrite IH]. Qed.
Lemma take_app a b : String.substring 0 (String.length a) (a ++ b) = a.
Proof. induction a as [|x a IH]; cbn; [now destruct b|now rewrite IH]. Qed.
Lemma but4 a b : String.length b = 4%nat -> but_last4 (a ++ b) = a.
Proof. intros H. unfold but_last4. rewrite len_app, H. replace (String.length a + 4 - 4)%nat with (String.length a) by lia. apply take_app. Qed.

Lemma digits_fuel f : forall f' n, (n <= f)%nat -> (n <= f')%nat -> str_digits f n = str_digits f' n.
Proof.
  induction f as [|f IH]; intros f' n Hf Hf'.
  - assert (n = 0)%nat by lia. subst n. now destruct f'.
  - destruct f' as [|f'].
    + assert (n = 0)%nat by lia. subst n. reflexivity.
    + cbn [str_digits]. destruct (n <? 10)%nat eqn:E; [reflexivity|]. apply Nat.ltb_ge in E.
      assert (n / 10 < n)%nat by (apply Nat.div_lt; lia). f_equal. apply IH; lia.
Qed.
Lemma str_small n : (n < 10)%nat -> str_nat n = digit n.
Proof. intros H. unfold str_nat. destruct n as [|n]; [reflexivity|]. unfold str_digits. apply Nat.ltb_lt in H. now rewrite H. Qed.
Lemma str_step n : (10 <= n)%nat -> str_nat n = str_nat (n / 10) ++ digit (n mod 10).
Proof.
  intros H. unfold str_nat at 1. destruct n as [|n]; [lia|]. cbn [str_digits].
  destruct (Datatypes.S n <? 10)%nat eqn:E; [apply Nat.ltb_lt in E; lia|]. f_equal.
  assert (Datatypes.S n / 10 < Datatypes.S n)%nat by (apply Nat.div_lt; lia). apply digits_fuel; lia.
Qed.
Lemma digit_len n : String.length (digit n) = 1%nat.
Proof. reflexivity. Qed.

Lemma div_div n : (n / 10 / 10 / 10 / 10 = n / Z.to_nat 10000)%nat.
Proof. rewrite !Nat.div_div by lia. f_equal. Qed.
Lemma saved_name base n : but_last4 (base ++ "_t=" ++ str_nat n) = base ++ left_of_time n.
Proof.
  unfold left_of_time. destruct (n <? 10)%nat eqn:E1.
  { apply Nat.ltb_lt in E1. rewrite str_small by assumption. rewrite app_nil_s. now apply but4. }
  apply Nat.ltb_ge in E1. rewrite str_step by assumption. destruct (n <? 100)%nat eqn:E2.
  { apply Nat.ltb_lt in E2. assert (n / 10 < 10)%nat by (apply Nat.div_lt_upper_bound; lia). rewrite str_small by assumption.
    change ("_t=" ++ digit (n / 10) ++ digit (n mod 10)) with ("_" ++ ("t=" ++ digit (n / 10) ++ digit (n mod 10))).
    rewrite <- app_assoc_s. now apply but4. }
  apply Nat.ltb_ge in E2. assert (10 <= n / 10)%nat by (apply Nat.div_le_lower_bound; lia). rewrite (str_step (n / 10)) by assumption.
  destruct (n <? 1000)%nat eqn:E3.
  { apply Nat.ltb_lt in E3. assert (n / 10 / 10 < 10)%nat by (rewrite Nat.div_div by lia; apply Nat.div_lt_upper_bound; lia). rewrite str_small by assumption.
    change ("_t=" ++ (digit (n / 10 / 10) ++ digit ((n / 10) mod 10)) ++ digit (n mod 10)) with ("_t" ++ ("=" ++ (digit (n / 10 / 10) ++ digit ((n / 10) mod 10)) ++ digit (n mod 10))).
    rewrite <- app_assoc_s. now apply but4. }
  apply Nat.ltb_ge in E3. assert (10 <= n / 10 / 10)%nat by (rewrite Nat.div_div by lia; apply Nat.div_le_lower_bound; lia). rewrite (str_step (n / 10 / 10)) by assumption.
  destruct (n <? Z.to_nat 10000)%nat eqn:E4.
  { apply Nat.ltb_lt in E4. assert (n / 10 / 10 / 10 < 10)%nat by (rewrite !Nat.div_div by lia; apply Nat.div_lt_upper_bound; lia). rewrite str_small by assumption.
    rewrite <- app_assoc_s. now apply but4. }
  apply Nat.ltb_ge in E4. assert (10 <= n / 10 / 10 / 10)%nat by (rewrite !Nat.div_div by lia; apply Nat.div_le_lower_bound; lia). rewrite (str_step (n / 10 / 10 / 10)) by assumption.
  rewrite div_div. rewrite !app_assoc_s. rewrite <- (app_assoc_s "_t=" (str_nat (n / Z.to_nat 10000))). rewrite <- app_assoc_s. now apply but4.
Qed.

(** the path with its ending replaced *)
Lemma replace_end stem : (forall a b, stem <> a ++ ".h5" ++ b) -> py_replace ".h5" ".jpg" (stem ++ ".h5") = stem ++ ".jpg".
Proof.
  intros H. unfold py_replace. enough (G : forall fuel, (String.length (stem ++ ".h5") <= fuel)%nat -> str_replace fuel ".h5" ".jpg" (stem ++ ".h5") = stem ++ ".jpg") by (now apply G).
  induction stem as [|c stem IH]; intros fuel Hf.
  - cbn in Hf. destruct fuel as [|fuel]; [lia|]. now destruct fuel.
  - destruct fuel as [|fuel]; [cbn in Hf; lia|].
    change (String c stem ++ ".h5") with (String c (stem ++ ".h5")) in *. cbn [str_replace].
    destruct (String.prefix ".h5" (String c (stem ++ ".h5"))) eqn:E.
    + exfalso. cbn -[ascii_dec] in E. destruct (ascii_dec "." c) as [<-|]; [|congruence].
      destruct stem as [|c1 stem]; [vm_compute in E; congruence|]. cbn -[ascii_dec] in E. destruct (ascii_dec "h" c1) as [<-|]; [|congruence].
      destruct stem as [|c2 stem]; [vm_compute in E; congruence|]. cbn -[ascii_dec] in E. destruct (ascii_dec "5" c2) as [<-|]; [|congruence].
      now apply (H "" stem).
    + change (String c stem ++ ".jpg") with (String c (stem ++ ".jpg")). f_equal. apply IH.
      * intros a b ->. now apply (H (String c a) b).
      * cbn in Hf. lia.
Qed.

Lemma last_char a b c d : a ++ String c "" = b ++ String d "" -> c = d.
Proof.
  intros H. apply (f_equal list_ascii_of_string) in H.
  assert (G : forall x y, list_ascii_of_string (x ++ y) = (list_ascii_of_string x ++ list_ascii_of_string y)%list) by (intros x y; induction x as [|z x IH]; cbn; [reflexivity|now rewrite IH]).
  rewrite !G in H. cbn in H. now apply app_inj_tail in H.
Qed.
Lemma ends_digit n : exists s k, (k < 10)%nat /\ str_nat n = s ++ digit k.
Proof.
  destruct (lt_dec n 10) as [H|H]; [exists "", n; split; [exact H|now apply str_small]|].
  exists (str_nat (n / 10)), (n mod 10)%nat. split; [apply Nat.mod_upper_bound; lia|apply str_step; lia].
Qed.
Lemma not_saved base n ty k c : (ty = k ++ String c "") -> (forall d, (d < 10)%nat -> digit d <> String c "") ->
  base ++ left_of_time n ++ ty <> base ++ "_t=" ++ str_nat n.
Proof.
  intros -> Hc H. destruct (ends_digit n) as (s & d & Hd & E). rewrite E in H. unfold digit in H.
  rewrite <- !app_assoc_s in H. apply last_char in H. apply (Hc d Hd). unfold digit. now rewrite <- H.
Qed.

(** ** Panels *)
Lemma data_grid ny nx (g : nat -> nat -> R) x : In x (NdArray.data (grid ny nx g)) <-> exists i j, (i < ny)%nat /\ (j < nx)%nat /\ x = g i j.
Proof.
  unfold grid, stack, build. cbn [NdArray.data indices]. rewrite in_map_iff. split.
  - intros (ix & <- & H). apply in_flat_map in H. destruct H as (iy & Hy & Hx). apply in_map_iff in Hx. destruct Hx as (j & <- & Hj).
    apply in_flat_map in Hy. destruct Hy as (iz & Hz & Hi). cbn in Hz. destruct Hz as [<-|[]]. apply in_map_iff in Hi. destruct Hi as (i & <- & Hi).
    apply in_seq in Hi. apply in_seq in Hj. exists i, j. cbn. repeat split; lia.
  - intros (i & j & Hi & Hj & ->). exists [j; i]. split; [reflexivity|]. apply in_flat_map. exists [i]. split.
    + apply in_flat_map. exists []. split; [now left|]. apply in_map_iff. exists i. split; [reflexivity|]. apply in_seq; lia.
    + apply in_map_iff. exists j. split; [reflexivity|]. apply in_seq; lia.
Qed.
Lemma grid_data_ne ny nx (g : nat -> nat -> R) : (0 < ny)%nat -> (0 < nx)%nat -> NdArray.data (grid ny nx g) <> [].
Proof. intros Hy Hx E. assert (H : In (g 0 0)%nat (NdArray.data (grid ny nx g))) by (apply data_grid; exists 0%nat, 0%nat; auto). now rewrite E in H. Qed.
Lemma grid_clim ny nx (g : nat -> nat -> R) : (0 < ny)%nat -> (0 < nx)%nat -> exists lo hi, np_min (NdArray.data (grid ny nx g)) = Ok lo /\ np_max (NdArray.data (grid ny nx g)) = Ok hi /\
  (forall i j, (i < ny)%nat -> (j < nx)%nat -> (lo <= g i j <= hi)%R) /\
    (exists i j, (i < ny)%nat /\ (j < nx)%nat /\ g i j = lo) /\ (exists i j, (i < ny)%nat /\ (j < nx)%nat /\ g i j = hi).
Proof.
  intros Hy Hx. destruct (np_min_ok _ (grid_data_ne ny nx g Hy Hx)) as (lo & E1 & L1 & L2). destruct (np_max_ok _ (grid_data_ne ny nx g Hy Hx)) as (hi & E2 & G1 & G2).
  exists lo, hi. split; [exact E1|]. split; [exact E2|]. split; [|split].
  - intros i j Hi Hj. assert (H : In (g i j) (NdArray.data (grid ny nx g))) by (apply data_grid; eauto). split; [now apply L2|now apply G2].
  - apply data_grid in L1. destruct L1 as (i & j & Hi & Hj & ->). eauto.
  - apply data_grid in G1. destruct G1 as (i & j & Hi & Hj & ->). eauto.
Qed.

Lemma plot_loop_ok l : forall a b, (forall x, In x l -> (List.length (shape (snd x)) = 1 \/ List.length (shape (snd x)) = 2)%nat /\ NdArray.data (snd x) <> []) ->
  exists ps lim, plot_loop l a b = Ok (ps, lim) /\
    Forall2 (fun x p => p_title p = fst x /\ p_data p = snd x /\
      (List.length (shape (snd x)) = 1%nat -> p_clim p = None) /\
      (List.length (shape (snd x)) = 2%nat -> exists lo hi, p_clim p = Some (lo, hi) /\ least lo (NdArray.data (snd x)) /\ greatest hi (NdArray.data (snd x)))) l ps /\
    least (fst lim) (a :: flat_map (fun x => NdArray.data (snd x)) l) /\ greatest (snd lim) (b :: flat_map (fun x => NdArray.data (snd x)) l).
Proof.
  induction l as [|[label d] l IH]; intros a b H.
  - exists [], (a, b). split; [reflexivity|]. split; [constructor|]. cbn. split; (split; [now left|intros x [<-|[]]; lra]).
  - destruct (H (label, d) (or_introl eq_refl)) as [Hs Hd]. cbn [snd] in Hs, Hd.
    destruct (np_min_ok _ Hd) as (lo & E1 & L1 & L2). destruct (np_max_ok _ Hd) as (hi & E2 & G1 & G2).
    destruct (IH (Rmin lo a) (Rmax hi b)) as (ps & lim & E & F & Q1 & Q2); [intros x Hx; apply H; now right|].
    assert (El : exists line : bool, (match List.length (shape d) with 1 => Ok true | 2 => Ok false | _ => Exn BaseException end) = Ok line /\
      (List.length (shape d) = 1%nat -> line = true) /\ (List.length (shape d) = 2%nat -> line = false)).
    { destruct Hs as [-> | ->]; eexists; (split; [reflexivity|]); split; intros Z; congruence. }
    destruct El as (line & El & T1 & T2). exists (mkPanel label d (if line then None else Some (lo, hi)) :: ps), lim. split; [|split; [|split]].
    + cbn [plot_loop]. rewrite El. cbn [bind]. rewrite E1. cbn [bind]. rewrite E2. cbn [bind]. rewrite E. reflexivity.
    + constructor; [|exact F]. cbn. split; [reflexivity|]. split; [reflexivity|]. split; intros Z.
      * now rewrite (T1 Z).
      * rewrite (T2 Z). exists lo, hi. repeat split; auto.
    + destruct Q1 as [I1 B1]. cbn [flat_map snd]. split.
      * destruct I1 as [I1|I1]; [|right; apply in_app_iff; now right]. rewrite <- I1. unfold Rmin. destruct (Rle_dec lo a); [right; apply in_app_iff; now left|now left].
      * intros x [<-|Hx]; [apply Rle_trans with (Rmin lo a); [apply B1; now left|apply Rmin_r]|]. apply in_app_iff in Hx. destruct Hx as [Hx|Hx]; [|apply B1; now right].
        apply Rle_trans with (Rmin lo a); [apply B1; now left|]. apply Rle_trans with lo; [apply Rmin_l|now apply L2].
    + destruct Q2 as [I1 B1]. cbn [flat_map snd]. split.
      * destruct I1 as [I1|I1]; [|right; apply in_app_iff; now right]. rewrite <- I1. unfold Rmax. destruct (Rle_dec hi b); [now left|right; apply in_app_iff; now left].
      * intros x [<-|Hx]; [apply Rle_trans with (Rmax hi b); [apply Rmax_r|apply B1; now left]|]. apply in_app_iff in Hx. destruct Hx as [Hx|Hx]; [|apply B1; now right].
        apply Rle_trans with (Rmax hi b); [|apply B1; now left]. apply Rle_trans with hi; [now apply G2|apply Rmax_l].
Qed.

Lemma c118_panels l : (2 <= List.length l)%nat -> (forall x, In x l -> (List.length (shape (snd x)) = 1 \/ List.length (shape (snd x)) = 2)%nat /\ NdArray.data (snd x) <> []) ->
  exists ps, plot_dict l false = Ok ps /\
    Forall2 (fun x p => p_title p = fst x /\ p_data p = snd x /\
      (List.length (shape (snd x)) = 1%nat -> p_clim p = None) /\
      (List.length (shape (snd x)) = 2%nat -> exists lo hi, p_clim p = Some (lo, hi) /\ least lo (NdArray.data (snd x)) /\ greatest hi (NdArray.data (snd x)))) l ps.
Proof.
  intros L H. destruct (plot_loop_ok l 0 0 H) as (ps & lim & E & F & _). exists ps. split; [|exact F].
  unfold plot_dict. rewrite E. destruct l as [|x [|y l]]; [cbn in L; lia|cbn in L; lia|reflexivity].
Qed.
Lemma c118_coupled l : (2 <= List.length l)%nat -> (forall x, In x l -> (List.length (shape (snd x)) = 1 \/ List.length (shape (snd x)) = 2)%nat /\ NdArray.data (snd x) <> []) ->
  exists ps lo hi, plot_dict l true = Ok ps /\
    Forall2 (fun x p => p_title p = fst x /\ p_data p = snd x /\
      (List.length (shape (snd x)) = 1%nat -> p_clim p = None) /\ (List.length (shape (snd x)) = 2%nat -> p_clim p = Some (lo, hi))) l ps /\
    least lo (0%R :: flat_map (fun x => NdArray.data (snd x)) l) /\ greatest hi (0%R :: flat_map (fun x => NdArray.data (snd x)) l).
Proof.
  intros L H. destruct (plot_loop_ok l 0 0 H) as (ps & [lo hi] & E & F & Q1 & Q2).
  exists (map (fun p => mkPanel (p_title p) (p_data p) (match p_clim p with Some _ => Some (lo, hi) | None => None end)) ps), lo, hi. split; [|split; [|split; assumption]].
  - unfold plot_dict. rewrite E. destruct l as [|x [|y l]]; [cbn in L; lia|cbn in L; lia|reflexivity].
  - clear - F. induction F as [|x p l ps (A & B & C & D) F IH]; [constructor|]. cbn [map]. constructor; [|exact IH]. cbn. split; [exact A|]. split; [exact B|]. split; intros Z.
    + now rewrite (C Z).
    + destruct (D Z) as (u & v & -> & _). reflexivity.
Qed.

Lemma image_row_inv (f : h5 (arr R) R) t r : image_row f t = Ok r -> exists dt q n, attr_look f "frame_dt" = Ok dt /\ floordiv (t - initial_time f)%R dt = Ok q /\ rows_len f "density" = Ok n /\ row_index n q = Ok r.
Proof.
  unfold image_row. intros H. destruct (attr_look f "frame_dt") as [dt|]; [|discriminate]. cbn [bind] in H.
  destruct (floordiv (t - initial_time f) dt) as [q|] eqn:E; [|discriminate]. cbn [bind] in H.
  destruct (rows_len f "density") as [n|]; [|discriminate]. cbn [bind] in H. eauto 10.
Qed.
Lemma field_row_at f name q l r v : dget (dsets f) name = Some (Rows l) -> row_index (List.length l) q = Ok r -> nth_error l r = Some (RFrame v) -> field_row f name q = Ok v.
Proof. intros E R V. unfold field_row, dlook. rewrite E. cbn [bind]. rewrite R. cbn [bind]. now rewrite V. Qed.

Lemma c118_image f N r ny nx n o p path text t types zero ticks : fields_at f N r ny nx n o p -> (0 < ny)%nat -> (0 < nx)%nat -> image_row f t = Ok r ->
  let o' i j := if zero : bool then (o i j - gmean ny nx o)%R else o i j in
  exists d a b c, image_main path text t types zero ticks f = Ok d /\ d_panels d = [a; b; c] /\
    panel_shows ny nx (nth 0 titles "") n a /\ panel_shows ny nx (nth 1 titles "") o' b /\ panel_shows ny nx (nth 2 titles "") p c /\
    d_xticks d = (if ticks : bool then [0; ny / 2; ny]%nat else []) /\ d_yticks d = (if ticks then [0; nx / 2; nx]%nat else []) /\
    d_files d = map (fun ty => but_last4 (save_path path text) ++ ty) types /\ d_said d = save_path path text.
Proof.
  intros [Hr F] Hy Hx HR o'. destruct (image_row_inv f t r HR) as (dt & q & m & E1 & E2 & E3 & E4).
  destruct (F "density" n) as (ln & An & Ln & Vn); [now left|].
  destruct (F "omega" o) as (lo & Ao & Lo & Vo); [right; now left|].
  destruct (F "phi" p) as (lp & Ap & Lp & Vp); [right; right; now left|].
  assert (Em : m = N). { unfold rows_len, dlook in E3. rewrite An in E3. cbn in E3. now injection E3 as <-. } subst m.
  destruct (grid_clim ny nx n Hy Hx) as (n1 & n2 & N1 & N2 & N3). destruct (grid_clim ny nx o' Hy Hx) as (o1 & o2 & O1 & O2 & O3). destruct (grid_clim ny nx p Hy Hx) as (p1 & p2 & P1 & P2 & P3).
  assert (EO : (if zero then sub_ (Ok (grid ny nx o)) (mean_all (Ok (grid ny nx o))) else Ok (grid ny nx o)) = Ok (grid ny nx o')).
  { unfold o'. destruct zero; [|reflexivity]. now rewrite mean_all_grid, sub_grid_sc. }
  eexists _, _, _, _. split; [|split; [|split; [|split; [|split; [|split; [|split; [|split]]]]]]].
  - unfold image_main. rewrite E1. cbn [bind]. rewrite E2. cbn [bind].
    rewrite (field_row_at f "density" q ln r _ An ltac:(now rewrite Ln) Vn). cbn [bind].
    rewrite (field_row_at f "omega" q lo r _ Ao ltac:(now rewrite Lo) Vo). cbn [bind].
    rewrite (field_row_at f "phi" q lp r _ Ap ltac:(now rewrite Lp) Vp). cbn [bind].
    change (shape (grid ny nx n)) with [nx; ny]. cbn [bind]. unfold nd in *. rewrite EO. cbn [bind]. unfold plot_dict. cbn [plot_loop].
    change (List.length (shape (grid ny nx n))) with 2%nat. change (List.length (shape (grid ny nx o'))) with 2%nat. change (List.length (shape (grid ny nx p))) with 2%nat. cbn [bind].
    rewrite N1, N2, O1, O2, P1, P2. cbn [bind fst snd]. reflexivity.
  - reflexivity.
  - split; [reflexivity|]. split; [reflexivity|]. exists n1, n2. split; [reflexivity|exact N3].
  - split; [reflexivity|]. split; [reflexivity|]. exists o1, o2. split; [reflexivity|exact O3].
  - split; [reflexivity|]. split; [reflexivity|]. exists p1, p2. split; [reflexivity|exact P3].
  - reflexivity.
  - reflexivity.
  - reflexivity.
  - reflexivity.
Qed.
