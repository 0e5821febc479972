(** C118: the image script.
    Model: ModelImage.v; vocabulary: SpecImage.v, SpecPlot.v; proofs: ImageFacts.v, RunPlot.v. *)
From Coq Require Import Arith ZArith Bool Reals String Ascii List Lia Lra.
From Verif Require Import Num NdArray NdFacts Spec SpecHW SpecPlasma SpecDiag SpecFourier DiagFacts
  ModelHW ModelBackend ModelIO ModelRun ModelRunHW SpecIO SpecRun SpecRunHW RunHWProps RunPlot ModelPlot SpecPlot PlotFacts PlotProps SpecAttr ModelImage SpecImage ImageFacts RunWit RunHWWit PropRunPlot.
Import ListNotations.
Local Existing Instance TimeR.
Local Open Scope string_scope.

(** any file: density, vorticity and potential of the row of time t, in that order,
    each with colours spanning exactly its values, the mean of the vorticity taken
    off if asked; and the names of the files written *)
Theorem C118_image : forall f N r ny nx n o p path text t types zero ticks, fields_at f N r ny nx n o p -> (0 < ny)%nat -> (0 < nx)%nat -> image_row f t = Ok r ->
  let o' i j := if zero : bool then (o i j - gmean ny nx o)%R else o i j in
  exists d a b c, image_main path text t types zero ticks f = Ok d /\ d_panels d = [a; b; c] /\
    panel_shows ny nx (nth 0 titles "") n a /\ panel_shows ny nx (nth 1 titles "") o' b /\ panel_shows ny nx (nth 2 titles "") p c /\
    d_xticks d = (if ticks : bool then [0; ny / 2; ny]%nat else []) /\ d_yticks d = (if ticks then [0; nx / 2; nx]%nat else []) /\
    d_files d = map (fun ty => but_last4 (save_path path text) ++ ty) types /\ d_said d = save_path path text.
Proof. exact c118_image. Qed.
Print Assumptions C118_image.
(** the ticks of the horizontal axis are those of the rows *)
Theorem C118_ticks_refuted : ~ (forall f N r ny nx n o p path text t types zero d, fields_at f N r ny nx n o p -> image_row f t = Ok r ->
  image_main path text t types zero true f = Ok d -> d_xticks d = [0; nx / 2; nx]%nat).
Proof.
  intros H. pose (f := mkH5 (map (fun s => (s, Rows [RFrame (grid 2 4 (fun _ _ => 0%R))])) ["density"; "omega"; "phi"]) [("frame_dt", AT 1%R); ("initial_time", AT 0%R); ("adaptive_step_size", AB false)] : h5 (arr R) R).
  assert (A : fields_at f 1 0 2 4 (fun _ _ => 0%R) (fun _ _ => 0%R) (fun _ _ => 0%R)).
  { split; [lia|]. intros name g Hin. cbn [In] in Hin. destruct Hin as [Hin|[Hin|[Hin|[]]]]; injection Hin as <- <-; eexists; (split; [reflexivity|]); split; reflexivity. }
  assert (B : image_row f 0 = Ok 0%nat).
  { apply (image_ok f 1 0 1 0 0); [split; try reflexivity; lra|eexists; split; reflexivity|lia|cbn; lra]. }
  destruct (c118_image f 1 0 2 4 _ _ _ "" "" 0%R [] false true A ltac:(lia) ltac:(lia) B) as (d & a & b & c & E & _ & _ & _ & _ & X & _).
  rewrite (H f 1%nat 0%nat 2%nat 4%nat _ _ _ "" "" 0%R [] false d A B E) in X. discriminate X.
Qed.
Print Assumptions C118_ticks_refuted.

(** composed with the simulation: the picture of time t of a recorded run *)
Theorem C118_run : forall b p ny nx ys xs k0 dsf (c : cfg (arr R) R) rnd y0 phi0 fs m t r path text types zero ticks, records_from b p ny nx ys xs k0 dsf c fs m ->
  let sim := run (hw_sim b rnd ny nx ys xs) c (plasma0 (grid ny nx (fst y0)) (grid ny nx (snd y0)) (grid ny nx phi0)) in
  let k := Z.to_nat (c_snaps c) in
  let fr r := hw_frame p ny nx (c_dx c) (c_step c) y0 phi0 (iteration m k r) in
  let st (f : field) : field := fun i j => rnd (dsf f i j) in
  (0 < ys)%nat -> (0 < xs)%nat ->
  (r < rows_of m k (steps_of c))%nat -> (f_t (fr r) <= t < f_t (fr r) + c_step c * IZR (c_snaps c))%R ->
  exists g d u v w, disk_of sim fs = Some g /\ image_main path text t types zero ticks g = Ok d /\ d_panels d = [u; v; w] /\
    panel_shows ys xs (nth 0 titles "") (st (f_n (fr r))) u /\
    panel_shows ys xs (nth 1 titles "") (fun i j => if zero : bool then (st (f_o (fr r)) i j - gmean ys xs (st (f_o (fr r))))%R else st (f_o (fr r)) i j) v /\
    panel_shows ys xs (nth 2 titles "") (st (f_p (fr r))) w.
Proof.
  intros b p ny nx ys xs k0 dsf c rnd y0 phi0 fs m t r path text types zero ticks RF sim k fr st Hy Hx Hr Ht.
  destruct (run_image b p ny nx ys xs k0 dsf c rnd y0 phi0 fs m RF t r Hr Ht) as (g & D & I & _).
  destruct (run_file b p ny nx ys xs k0 dsf c rnd y0 phi0 fs m RF) as (g' & _ & D' & FF & _).
  rewrite D in D'. injection D' as <-.
  assert (A : fields_at g (rows_of m k (steps_of c)) r ys xs (st (f_n (fr r))) (st (f_o (fr r))) (st (f_p (fr r)))).
  { split; [exact Hr|]. destruct FF as (F1 & F2 & F3 & _). intros name h Hin. cbn [In] in Hin.
    destruct Hin as [Hin|[Hin|[Hin|[]]]]; injection Hin as <- <-; eexists; (split; [eassumption|]); (split; [now rewrite !map_length, seq_length|]);
    rewrite map_map, nth_error_map, (nth_error_nth' _ 0%nat) by (now rewrite seq_length); rewrite seq_nth by assumption; reflexivity. }
  destruct (c118_image g _ r ys xs _ _ _ path text t types zero ticks A Hy Hx I) as (d & u & v & w & E & P & P1 & P2 & P3 & _).
  exists g, d, u, v, w. auto 10.
Qed.
Print Assumptions C118_run.

(** [plot_dict] with at least two entries, each a line or an image: one panel per
    entry; coupled colour bars span 0 and every entry, lines included *)
Theorem C118_plot_dict : forall l, (2 <= List.length l)%nat -> (forall x, In x l -> (List.length (shape (snd x)) = 1 \/ List.length (shape (snd x)) = 2)%nat /\ NdArray.data (snd x) <> []) ->
  exists ps, plot_dict l false = Ok ps /\
    Forall2 (fun x p => p_title p = fst x /\ p_data p = snd x /\
      (List.length (shape (snd x)) = 1%nat -> p_clim p = None) /\
      (List.length (shape (snd x)) = 2%nat -> exists lo hi, p_clim p = Some (lo, hi) /\ least lo (NdArray.data (snd x)) /\ greatest hi (NdArray.data (snd x)))) l ps.
Proof. exact c118_panels. Qed.
Print Assumptions C118_plot_dict.
Theorem C118_coupled : forall l, (2 <= List.length l)%nat -> (forall x, In x l -> (List.length (shape (snd x)) = 1 \/ List.length (shape (snd x)) = 2)%nat /\ NdArray.data (snd x) <> []) ->
  exists ps lo hi, plot_dict l true = Ok ps /\
    Forall2 (fun x p => p_title p = fst x /\ p_data p = snd x /\
      (List.length (shape (snd x)) = 1%nat -> p_clim p = None) /\ (List.length (shape (snd x)) = 2%nat -> p_clim p = Some (lo, hi))) l ps /\
    least lo (0%R :: flat_map (fun x => NdArray.data (snd x)) l) /\ greatest hi (0%R :: flat_map (fun x => NdArray.data (snd x)) l).
Proof. exact c118_coupled. Qed.
Print Assumptions C118_coupled.
(** a single field cannot be plotted *)
Theorem C118_single_refuted : forall x couple, plot_dict [x] couple = Exn TypeError.
Proof. reflexivity. Qed.
Print Assumptions C118_single_refuted.

(** the names: of the time n, the last four characters of the path are lost *)
Theorem C118_name : forall stem n, (forall a b, stem <> a ++ ".h5" ++ b) ->
  save_path (stem ++ ".h5") (str_nat n) = stem ++ ".jpg_t=" ++ str_nat n /\
  but_last4 (save_path (stem ++ ".h5") (str_nat n)) = stem ++ ".jpg" ++ left_of_time n.
Proof.
  intros stem n H. unfold save_path. rewrite saved_name, (replace_end stem H), !app_assoc_s. split; reflexivity.
Qed.
Print Assumptions C118_name.
(** images of different times overwrite each other: all times of the same ten
    thousand, or with the same number of digits up to four *)
Theorem C118_distinct_refuted : forall f f' path n n' t t' types zero ticks d d',
  left_of_time n = left_of_time n' ->
  image_main path (str_nat n) t types zero ticks f = Ok d -> image_main path (str_nat n') t' types zero ticks f' = Ok d' -> d_files d = d_files d'.
Proof.
  intros f f' path n n' t t' types zero ticks d d' E H H'.
  assert (G : forall g s u x, image_main path s u types zero ticks g = Ok x -> d_files x = map (fun ty => but_last4 (save_path path s) ++ ty) types).
  { intros g s u x Hx. unfold image_main in Hx. revert Hx.
    repeat (match goal with |- bind ?m _ = _ -> _ => destruct m; [cbn [bind]|discriminate] end). intros Hx. now injection Hx as <-. }
  rewrite (G _ _ _ _ H), (G _ _ _ _ H'). unfold save_path. now rewrite !saved_name, E.
Qed.
Print Assumptions C118_distinct_refuted.
(** the path printed as "saved to" is none of the files written *)
Theorem C118_said_refuted : forall f path n t zero ticks d, image_main path (str_nat n) t [".jpg"; ".pdf"] zero ticks f = Ok d -> ~ In (d_said d) (d_files d).
Proof.
  intros f path n t zero ticks d Hx. unfold image_main in Hx. revert Hx.
  repeat (match goal with |- bind ?m _ = _ -> _ => destruct m; [cbn [bind]|discriminate] end). intros Hx. injection Hx as <-. cbn [d_said d_files map]. unfold save_path. rewrite saved_name.
  intros [H|[H|[]]]; rewrite app_assoc_s in H.
  - apply (not_saved _ _ ".jpg" ".jp" "g"%char eq_refl) in H; [exact H|]. intros k Hk. do 10 (destruct k as [|k]; [discriminate|]). lia.
  - apply (not_saved _ _ ".pdf" ".pd" "f"%char eq_refl) in H; [exact H|]. intros k Hk. do 10 (destruct k as [|k]; [discriminate|]). lia.
Qed.
Print Assumptions C118_said_refuted.
(** the default call for the times 200 and 300 *)
Example C118_case : left_of_time 200 = left_of_time 300 /\ save_path "_512.h5" (str_nat 200) = "_512.jpg_t=200" /\
  map (fun ty => but_last4 (save_path "_512.h5" (str_nat 200)) ++ ty) [".jpg"; ".pdf"] = ["_512.jpg_t.jpg"; "_512.jpg_t.pdf"] /\
  (forall a b, "_512" <> a ++ ".h5" ++ b).
Proof.
  repeat split; try (vm_compute; reflexivity). intros a b H. do 4 (destruct a as [|? a]; [discriminate H|injection H as _ H]). destruct a; discriminate H.
Qed.
(** two steps on a 2 x 2 grid: the run of C89_example has three frames to show *)
Example C118_run_case : records_from np_backend (pc false) 2 2 2 2 1 idf wit1 None 0 /\ rows_of 0 1 2 = 3%nat.
Proof. split; [exact (proj1 C89_example)|reflexivity]. Qed.
