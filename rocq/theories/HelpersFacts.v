(** Facts about printed parameters. *)
From Coq Require Import Arith ZArith Bool Lia String List.
Import List.
From Verif Require Import NdArray ModelIO ModelHelpers SpecHelpers SpecDownsample.
Import ListNotations.
Local Open Scope string_scope.

Lemma str_app_len a b : String.length (a ++ b) = (String.length a + String.length b)%nat.
Proof. induction a as [|c a IH]; [reflexivity|]. cbn. now rewrite IH. Qed.
Lemma blanks_len n : String.length (blanks n) = n.
Proof. induction n; cbn; congruence. Qed.
Lemma every_nth {X} (l : list X) i j r : (0 < i)%nat -> nth_error (every l j i) r = nth_error l (j + r * i).
Proof.
  intros Hi. revert j r. induction l as [|x l IH]; intros j r.
  - cbn. now rewrite !(proj2 (nth_error_None _ _)) by (cbn; lia).
  - destruct j as [|j]; cbn [every].
    + destruct r as [|r]; [reflexivity|]. cbn [nth_error]. rewrite IH. replace (0 + S r * i)%nat with (S (i - 1 + r * i)) by lia. reflexivity.
    + rewrite IH. reflexivity.
Qed.
Lemma every_lt {X} (l : list X) i j r : (0 < i)%nat -> (r < List.length (every l j i))%nat <-> (j + r * i < List.length l)%nat.
Proof. intros Hi. rewrite <- !nth_error_Some, every_nth by exact Hi. reflexivity. Qed.
Lemma mapM_ok {X Y} (g : X -> res Y) (h : X -> Y) l : (forall x, In x l -> g x = Ok (h x)) -> mapM g l = Ok (map h l).
Proof.
  induction l as [|x l IH]; intros H; [reflexivity|]. cbn. rewrite (H x (or_introl eq_refl)). cbn. rewrite IH; [reflexivity|].
  intros y Hy. apply H. now right.
Qed.
Lemma list_max_le_in l x : In x l -> (x <= list_max l)%nat.
Proof. intros H. pose proof (proj1 (list_max_le l (list_max l)) (le_n _)) as F. rewrite Forall_forall in F. now apply F. Qed.
Lemma list_max_attained l : l <> [] -> In (list_max l) l.
Proof.
  induction l as [|x l IH]; intros H; [contradiction|]. unfold list_max. cbn [fold_right]. fold (list_max l).
  destruct l as [|y l]; [left; cbn; lia|]. specialize (IH ltac:(discriminate)).
  destruct (Nat.max_spec x (list_max (y :: l))) as [[_ ->]|[_ ->]]; [now right|now left].
Qed.
Lemma list_max_sup l m : (forall x, In x l -> (x <= m)%nat) -> (list_max l <= m)%nat.
Proof. intros H. apply list_max_le. apply Forall_forall. exact H. Qed.
Lemma list_sum_in l x : In x l -> (x <= list_sum l)%nat.
Proof. unfold list_sum. induction l as [|y l IH]; intros [->|H] || intros []; cbn [fold_right]; [lia|]. specialize (IH H). lia. Qed.
Lemma seq_snoc n s : seq s (S n) = (seq s n ++ [s + n])%list.
Proof. apply seq_S. Qed.

Lemma nth_map_seq {X} (g : nat -> X) n r d : (r < n)%nat -> nth r (map g (seq 0 n)) d = g r.
Proof. intros H. rewrite (nth_indep _ d (g 0%nat)) by (now rewrite map_length, seq_length). rewrite map_nth, seq_nth by exact H. reflexivity. Qed.

Section Table.
Context {A : Type}.
Variable fmt : A -> string.
Variables spacing key_spacing : string.
Variable vl : nat.
Notation ent := (entry fmt spacing vl).
Definition num_entry (kx : string * A) : string * value A := (fst kx, VNum (snd kx)).
Definition cell_fn (w : nat) (kv : string * value A) : res string :=
  let* v := format_value fmt vl (snd kv) in Ok (pad_right w (fst kv ++ ":") ++ spacing ++ v).
Lemma cell_ok w kx : cell_fn w (num_entry kx) = Ok (ent w kx).
Proof. reflexivity. Qed.

Lemma filter_numbers (d : list (string * value A)) : no_text d -> filter (fun kv => is_number (snd kv)) d = map num_entry (numbers d).
Proof.
  unfold no_text. induction d as [|[k v] d IH]; intros H; [reflexivity|]. cbn [filter snd]. unfold numbers. cbn [flat_map snd fst]. fold (numbers d).
  assert (H' : forall k s, ~ In (k, VStr s) d) by (intros k' s' Hin; apply (H k' s'); now right).
  destruct v as [x|s|]; cbn [is_number].
  - cbn [app map]. rewrite IH by exact H'. reflexivity.
  - exfalso. apply (H k s). now left.
  - cbn [app]. apply IH, H'.
Qed.
Lemma every_map {X Y} (g : X -> Y) l j i : every (map g l) j i = map g (every l j i).
Proof. revert j. induction l as [|x l IH]; intros j; [reflexivity|]. destruct j; cbn; now rewrite IH. Qed.

Lemma add_column_eq w (column : list (string * A)) lines : (List.length column <= List.length lines)%nat ->
  add_column (cell_fn w) (map num_entry column) lines
  = Ok (map (fun r => (nth r lines [] ++ match nth_error column r with Some kx => [ent w kx] | None => [] end)%list) (seq 0 (List.length lines))).
Proof.
  revert lines. induction column as [|kx c IH]; intros lines L.
  - cbn [map add_column]. apply (f_equal Ok). apply nth_ext with (d := []) (d' := []); [now rewrite map_length, seq_length|].
    intros r Hr. rewrite nth_map_seq by exact Hr. destruct r; cbn [nth_error]; now rewrite app_nil_r.
  - destruct lines as [|l ls]; [cbn in L; lia|]. cbn [map add_column]. rewrite cell_ok. cbn [bind]. rewrite IH by (cbn in L; lia). cbn [bind List.length seq map nth nth_error].
    apply (f_equal Ok). f_equal. rewrite <- seq_shift, map_map. reflexivity.
Qed.

(** lines of a table with i columns, after the first c columns *)
Definition partial_lines (l : list (string * A)) (w : nat -> nat) (i c : nat) (dflt : string * A) : list (list string) :=
  map (fun r => map (fun q => ent (w (q - r * i)) (nth q l dflt)) (seq (r * i) (Nat.min c (List.length l - r * i)))) (seq 0 (ceil_div (List.length l) i)).
Lemma ceil_iff n i r : (0 < i)%nat -> (r < ceil_div n i)%nat <-> (r * i < n)%nat.
Proof.
  intros Hi. unfold ceil_div. pose proof (Nat.mul_div_le (n + (i - 1)) i ltac:(lia)) as D1.
  pose proof (Nat.mul_succ_div_gt (n + (i - 1)) i ltac:(lia)) as D2. set (k := ((n + (i - 1)) / i)%nat) in *. split; intros H; nia.
Qed.
Lemma lines_step (l : list (string * A)) (w : nat -> nat) i c dflt : (c < i)%nat -> (i <= List.length l)%nat ->
  add_column (cell_fn (w c)) (map num_entry (every l c i)) (partial_lines l w i c dflt) = Ok (partial_lines l w i (S c) dflt).
Proof.
  intros Hc Hi. assert (Pi : (0 < i)%nat) by lia.
  assert (Ll : List.length (partial_lines l w i c dflt) = ceil_div (List.length l) i) by (unfold partial_lines; now rewrite map_length, seq_length).
  rewrite add_column_eq.
  - rewrite Ll. apply (f_equal Ok). unfold partial_lines at 2. apply map_ext_in. intros r Hr. apply in_seq in Hr.
    assert (Hr' : (r * i < List.length l)%nat) by (apply ceil_iff; lia).
    unfold partial_lines. rewrite nth_map_seq by lia. rewrite every_nth by lia.
    destruct (Nat.lt_ge_cases (c + r * i) (List.length l)) as [H|H].
    + rewrite (nth_error_nth' _ dflt H). rewrite !Nat.min_l by lia. rewrite seq_snoc, map_app. cbn [map].
      replace (r * i + c - r * i)%nat with c by lia. now rewrite (Nat.add_comm (r * i) c).
    + rewrite (proj2 (nth_error_None _ _) H), app_nil_r. rewrite !Nat.min_r by lia. reflexivity.
  - rewrite Ll. destruct (Nat.lt_ge_cases (ceil_div (List.length l) i) (List.length (every l c i))) as [H|H]; [|exact H].
    exfalso. apply every_lt in H; [|lia]. assert (A0 : (ceil_div (List.length l) i * i < List.length l)%nat) by lia. apply ceil_iff in A0; lia.
Qed.
Lemma lines_all (l : list (string * A)) (w : nat -> nat) i c n dflt : (c + n = i)%nat -> (i <= List.length l)%nat ->
  add_columns cell_fn (combine (map w (seq c n)) (map (fun j => map num_entry (every l j i)) (seq c n))) (partial_lines l w i c dflt)
  = Ok (partial_lines l w i i dflt).
Proof.
  revert c. induction n as [|n IH]; intros c E Hi.
  - cbn. rewrite Nat.add_0_r in E. now subst c.
  - cbn [seq map combine add_columns]. rewrite lines_step by lia. cbn [bind]. apply IH; lia.
Qed.

Lemma key_nth (l : list (string * A)) q dflt : (q < List.length l)%nat -> key l q = fst (nth q l dflt).
Proof. intros H. unfold key. rewrite (nth_indep _ "" (fst dflt)) by (now rewrite map_length). apply map_nth. Qed.
Lemma column_max (l : list (string * A)) i j : (j < i)%nat ->
  list_max (map (fun kv => String.length (fst kv)) (map num_entry (every l j i))) = column_width l i j.
Proof.
  intros Hj. unfold column_width. rewrite map_map. cbn [num_entry fst]. apply Nat.le_antisymm; apply list_max_sup; intros x Hx; apply in_map_iff in Hx.
  - destruct Hx as (kx & <- & Hk). apply In_nth_error in Hk. destruct Hk as [r Hr]. rewrite every_nth in Hr by lia.
    assert (B : (j + r * i < List.length l)%nat) by (apply nth_error_Some; congruence).
    apply list_max_le_in. apply in_map_iff. exists (j + r * i)%nat. split.
    + rewrite Nat.mod_add, Nat.mod_small by lia. rewrite Nat.eqb_refl. rewrite (key_nth l _ kx B). apply nth_error_nth with (d := kx) in Hr. now rewrite Hr.
    + apply in_seq. lia.
  - destruct Hx as (q & <- & Hq). apply in_seq in Hq. destruct (Nat.eqb_spec (q mod i) j) as [E|E]; [|lia].
    destruct l as [|d0 l0]; [cbn in Hq; lia|]. set (l := d0 :: l0) in *. rewrite (key_nth l q d0) by lia. apply list_max_le_in. apply in_map_iff.
    exists (nth q l d0). split; [reflexivity|]. apply nth_error_In with (n := (q / i)%nat). rewrite every_nth by lia.
    replace (j + q / i * i)%nat with q. { apply nth_error_nth'. lia. } pose proof (Nat.div_mod q i ltac:(lia)). lia.
Qed.
Definition wid (l : list (string * A)) (i j : nat) : nat := (column_width l i j + 1)%nat.
Lemma widths_eq (l : list (string * A)) i : (0 < i)%nat -> (i <= List.length l)%nat ->
  mapM (fun c => let* n := longest_key c in Ok (n + 1)%nat) (map (fun j => map num_entry (every l j i)) (seq 0 i)) = Ok (map (wid l i) (seq 0 i)).
Proof.
  intros Pi Hi. rewrite (mapM_ok _ (fun c => list_max (map (fun kv => String.length (fst kv)) c) + 1)%nat).
  - apply (f_equal Ok). rewrite map_map. apply map_ext_in. intros j Hj. apply in_seq in Hj. rewrite column_max by lia. reflexivity.
  - intros c Hc. apply in_map_iff in Hc. destruct Hc as (j & <- & Hj). apply in_seq in Hj. unfold longest_key.
    assert (B : (0 < List.length (every l j i))%nat) by (apply every_lt; lia). destruct (every l j i); [cbn in B; lia|]. reflexivity.
Qed.
Lemma lines_count (l : list (string * A)) i : (0 < i)%nat -> (i <= List.length l)%nat ->
  list_max (map (@List.length _) (map (fun j => map num_entry (every l j i)) (seq 0 i))) = ceil_div (List.length l) i.
Proof.
  intros Pi Hi. rewrite map_map. apply Nat.le_antisymm.
  - apply list_max_sup. intros x Hx. apply in_map_iff in Hx. destruct Hx as (j & <- & Hj). rewrite map_length.
    destruct (Nat.lt_ge_cases (ceil_div (List.length l) i) (List.length (every l j i))) as [H|H]; [|exact H].
    exfalso. apply every_lt in H; [|lia]. assert (A0 : (ceil_div (List.length l) i * i < List.length l)%nat) by lia. apply ceil_iff in A0; lia.
  - assert (E : List.length (every l 0 i) = ceil_div (List.length l) i).
    { apply Nat.le_antisymm.
      - destruct (Nat.lt_ge_cases (ceil_div (List.length l) i) (List.length (every l 0 i))) as [H|H]; [|exact H].
        exfalso. apply every_lt in H; [|lia]. cbn in H. apply ceil_iff in H; lia.
      - destruct (Nat.lt_ge_cases (List.length (every l 0 i)) (ceil_div (List.length l) i)) as [H|H]; [|exact H].
        exfalso. apply ceil_iff in H; [|lia]. apply (every_lt l i 0) in H; lia. }
    rewrite <- E. apply list_max_le_in. apply in_map_iff. exists 0%nat. rewrite map_length. split; [reflexivity|]. apply in_seq. lia.
Qed.
Lemma try_eq (l : list (string * A)) i (maxl : Z) dflt : (0 < i)%nat -> (i <= List.length l)%nat ->
  try_layout fmt spacing key_spacing vl maxl (map num_entry l) i
  = Ok (if (Z.of_nat (table_width (String.length spacing) (String.length key_spacing) vl l i) <? maxl)%Z
        then Some (map (String.concat key_spacing) (partial_lines l (wid l i) i i dflt)) else None).
Proof.
  intros Pi Hi. unfold try_layout.
  assert (Ec : map (fun j => every (map num_entry l) j i) (seq 0 i) = map (fun j => map num_entry (every l j i)) (seq 0 i))
    by (apply map_ext; intros; apply every_map). rewrite Ec. rewrite widths_eq by assumption. cbn [bind].
  assert (Et : (list_sum (map (fun w => (w + String.length spacing + vl)%nat) (map (wid l i) (seq 0 i))) + (i - 1) * String.length key_spacing
    = table_width (String.length spacing) (String.length key_spacing) vl l i)%nat).
  { unfold table_width. rewrite map_map. reflexivity. }
  rewrite Et. destruct (Z.ltb _ _); [|reflexivity]. rewrite lines_count by assumption.
  assert (Er : repeat [] (ceil_div (List.length l) i) = partial_lines l (wid l i) i 0 dflt).
  { unfold partial_lines. generalize (ceil_div (List.length l) i) as n. intros n. cbn [Nat.min seq map]. generalize 0%nat. induction n as [|n IH]; intros m; [reflexivity|]. cbn [repeat seq map]. f_equal. apply IH. }
  rewrite Er. pose proof (lines_all l (wid l i) i 0 i dflt ltac:(lia) Hi) as E. unfold cell_fn in E. rewrite E. reflexivity.
Qed.
Lemma layouts_spec (try_ : nat -> res (option (list string))) (fits : nat -> bool) (out : nat -> list string) n :
  (forall i, (0 < i <= n)%nat -> try_ i = Ok (if fits i then Some (out i) else None)) ->
  (layouts try_ n = Ok None /\ forall i, (0 < i <= n)%nat -> fits i = false) \/
  exists i, (0 < i <= n)%nat /\ fits i = true /\ layouts try_ n = Ok (Some (out i)) /\ forall j, (i < j <= n)%nat -> fits j = false.
Proof.
  induction n as [|n IH]; intros H.
  - left. split; [reflexivity|]. intros; lia.
  - cbn [layouts]. rewrite (H (S n)) by lia. cbn [bind]. destruct (fits (S n)) eqn:E.
    + right. exists (S n). split; [lia|]. split; [exact E|]. split; [reflexivity|]. intros; lia.
    + destruct IH as [[E1 E2]|(i & Hi & Fi & Li & Ji)]; [intros i Hi; apply H; lia| |].
      * left. split; [exact E1|]. intros i Hi. destruct (Nat.eq_dec i (S n)) as [->|]; [exact E|]. apply E2. lia.
      * right. exists i. split; [lia|]. split; [exact Fi|]. split; [exact Li|]. intros j Hj. destruct (Nat.eq_dec j (S n)) as [->|]; [exact E|]. apply Ji. lia.
Qed.
Lemma print_spec (d : list (string * value A)) columns maxl dflt : no_text d -> numbers d <> [] ->
  let l := numbers d in let limit := width_limit columns maxl in
  let fits i := (Z.of_nat (table_width (String.length spacing) (String.length key_spacing) vl l i) < limit)%Z in
  (format_print_dict fmt columns spacing key_spacing maxl vl d = Ok None /\ forall i, (0 < i <= List.length l)%nat -> ~ fits i) \/
  exists i, (0 < i <= List.length l)%nat /\ fits i /\
    format_print_dict fmt columns spacing key_spacing maxl vl d = Ok (Some (map (String.concat key_spacing) (partial_lines l (wid l i) i i dflt))) /\
    forall j, (i < j <= List.length l)%nat -> ~ fits j.
Proof.
  intros Nt Ne l limit fits. unfold format_print_dict. rewrite filter_numbers by exact Nt. fold l.
  assert (El : longest_key (map num_entry l) = Ok (list_max (map (fun kv => String.length (fst kv)) (map num_entry l)))).
  { unfold longest_key. fold l in Ne. destruct l; [contradiction|reflexivity]. }
  rewrite El. cbn [bind]. fold (width_limit columns maxl). fold limit. rewrite map_length.
  destruct (layouts_spec (try_layout fmt spacing key_spacing vl limit (map num_entry l))
     (fun i => (Z.of_nat (table_width (String.length spacing) (String.length key_spacing) vl l i) <? limit)%Z)
     (fun i => map (String.concat key_spacing) (partial_lines l (wid l i) i i dflt)) (List.length l)) as [[E1 E2]|(i & Hi & Fi & Li & Ji)].
  - intros i Hi. apply try_eq; lia.
  - left. split; [exact E1|]. intros i Hi F. specialize (E2 i Hi). apply Z.ltb_ge in E2. unfold fits in F. lia.
  - right. exists i. split; [exact Hi|]. split; [unfold fits; now apply Z.ltb_lt|]. split; [exact Li|]. intros j Hj F. specialize (Ji j Hj). apply Z.ltb_ge in Ji. unfold fits in F. lia.
Qed.

(** reading order *)
Lemma concat_seq n i L : (0 < i)%nat ->
  concat (map (fun r => seq (r * i) (Nat.min i (n - r * i))) (seq 0 L)) = seq 0 (Nat.min (L * i) n).
Proof.
  intros Pi. induction L as [|L IH]; [reflexivity|]. rewrite seq_snoc, map_app, concat_app, IH. cbn [map concat plus]. rewrite app_nil_r.
  destruct (Nat.le_gt_cases (L * i) n) as [H|H].
  - rewrite (Nat.min_l (L * i)) by lia. rewrite <- seq_app. f_equal. lia.
  - replace (n - L * i)%nat with 0%nat by lia. rewrite Nat.min_0_r. cbn [seq]. rewrite app_nil_r. f_equal. lia.
Qed.
Lemma concat_lines (l : list (string * A)) (w : nat -> nat) i dflt : (0 < i)%nat ->
  concat (partial_lines l w i i dflt) = map (fun q => ent (w (q mod i)) (nth q l dflt)) (seq 0 (List.length l)).
Proof.
  intros Pi. unfold partial_lines.
  transitivity (map (fun q => ent (w (q mod i)) (nth q l dflt)) (concat (map (fun r => seq (r * i) (Nat.min i (List.length l - r * i))) (seq 0 (ceil_div (List.length l) i))))).
  - rewrite concat_map, map_map. f_equal. apply map_ext. intros r. apply map_ext_in. intros q Hq. apply in_seq in Hq.
    assert (E : (q mod i = q - r * i)%nat).
    { replace q with (q - r * i + r * i)%nat at 1 by lia. rewrite Nat.mod_add by lia. apply Nat.mod_small. lia. }
    now rewrite E.
  - rewrite concat_seq by exact Pi. do 2 f_equal. apply Nat.min_r.
    destruct (Nat.le_gt_cases (List.length l) (ceil_div (List.length l) i * i)) as [H|H]; [exact H|]. apply ceil_iff in H; lia.
Qed.
Theorem table_ok (d : list (string * value A)) columns maxl lines : no_text d -> numbers d <> [] ->
  format_print_dict fmt columns spacing key_spacing maxl vl d = Ok (Some lines) ->
  let l := numbers d in
  exists i rows, (0 < i <= List.length l)%nat /\ lines = map (String.concat key_spacing) rows /\
    List.length (concat rows) = List.length l /\
    (forall q kx, nth_error l q = Some kx -> nth_error (concat rows) q = Some (ent (column_width l i (q mod i) + 1) kx)) /\
    (forall r, (r < List.length rows)%nat -> List.length (nth r rows []) = Nat.min i (List.length l - r * i) /\ (r * i < List.length l)%nat) /\
    (Z.of_nat (table_width (String.length spacing) (String.length key_spacing) vl l i) < width_limit columns maxl)%Z /\
    forall j, (i < j <= List.length l)%nat -> ~ (Z.of_nat (table_width (String.length spacing) (String.length key_spacing) vl l j) < width_limit columns maxl)%Z.
Proof.
  intros Nt Ne E l. destruct (numbers d) as [|dflt l0] eqn:El; [contradiction|]. subst l. rewrite <- El. rewrite <- El in Ne.
  destruct (print_spec d columns maxl dflt Nt Ne) as [[E1 _]|(i & Hi & Fi & Ei & Ji)]; [congruence|]. rewrite E in Ei. injection Ei as ->.
  exists i, (partial_lines (numbers d) (wid (numbers d) i) i i dflt). split; [exact Hi|]. split; [reflexivity|].
  rewrite concat_lines by lia. split; [now rewrite map_length, seq_length|]. split; [|split; [|split; [exact Fi|exact Ji]]].
  - intros q kx Hq. assert (B : (q < List.length (numbers d))%nat) by (apply nth_error_Some; congruence).
    rewrite (map_nth_error _ q (seq 0 (List.length (numbers d))) (d := q)).
    + unfold wid. now rewrite (nth_error_nth _ _ dflt Hq).
    + rewrite (nth_error_nth' _ 0%nat) by (now rewrite seq_length). now rewrite seq_nth.
  - intros r Hr. unfold partial_lines in *. rewrite map_length, seq_length in Hr.
    rewrite nth_map_seq by exact Hr. rewrite map_length, seq_length.
    split; [reflexivity|]. apply ceil_iff; lia.
Qed.

(** widths *)
Lemma pad_right_len w s : (String.length s <= w)%nat -> String.length (pad_right w s) = w.
Proof. intros H. unfold pad_right. rewrite str_app_len, blanks_len. lia. Qed.
Lemma pad_left_len w s : (String.length s <= w)%nat -> String.length (pad_left w s) = w.
Proof. intros H. unfold pad_left. rewrite str_app_len, blanks_len. lia. Qed.
Lemma concat_len sep (l : list string) : String.length (String.concat sep l) = (list_sum (map String.length l) + (List.length l - 1) * String.length sep)%nat.
Proof.
  unfold list_sum. induction l as [|x l IH]; [reflexivity|]. destruct l as [|y l]; [cbn; lia|].
  cbn [String.concat]. rewrite !str_app_len. cbn [String.concat] in IH. rewrite IH. cbn [map fold_right List.length]. lia.
Qed.
Lemma key_le (l : list (string * A)) i q : (0 < i)%nat -> (q < List.length l)%nat -> (String.length (key l q) <= column_width l i (q mod i))%nat.
Proof. intros Pi Hq. unfold column_width. apply list_max_le_in. apply in_map_iff. exists q. rewrite Nat.eqb_refl. split; [reflexivity|]. apply in_seq. lia. Qed.
Lemma sum_seq_le (g : nat -> nat) a k i : (k <= i)%nat -> (list_sum (map g (seq a k)) <= list_sum (map g (seq a i)))%nat.
Proof.
  intros H. replace i with (k + (i - k))%nat by lia. rewrite seq_app, map_app, list_sum_app. lia.
Qed.
Theorem width_ok (d : list (string * value A)) columns maxl lines : no_text d -> numbers d <> [] ->
  (forall k x, In (k, x) (numbers d) -> (String.length (fmt x) <= vl)%nat) ->
  format_print_dict fmt columns spacing key_spacing maxl vl d = Ok (Some lines) ->
  forall s, In s lines -> (Z.of_nat (String.length s) < width_limit columns maxl)%Z.
Proof.
  intros Nt Ne Hf E s Hs. destruct (numbers d) as [|dflt l0] eqn:El; [contradiction|]. rewrite <- El in *.
  destruct (print_spec d columns maxl dflt Nt Ne) as [[E1 _]|(i & Hi & Fi & Ei & Ji)]; [congruence|]. rewrite E in Ei. injection Ei as ->.
  apply in_map_iff in Hs. destruct Hs as (row & <- & Hrow). unfold partial_lines in Hrow. apply in_map_iff in Hrow. destruct Hrow as (r & <- & Hr). apply in_seq in Hr.
  assert (Hr' : (r * i < List.length (numbers d))%nat) by (apply ceil_iff; lia).
  eapply Z.le_lt_trans; [|exact Fi]. apply inj_le. rewrite concat_len, map_length, seq_length, map_map. set (k := Nat.min i (List.length (numbers d) - r * i)).
  unfold table_width. apply Nat.add_le_mono; [|apply Nat.mul_le_mono_r; lia].
  transitivity (list_sum (map (fun j => (column_width (numbers d) i j + 1 + String.length spacing + vl)%nat) (seq 0 k))); [|apply sum_seq_le; lia].
  apply Nat.eq_le_incl. f_equal.
  replace (seq (r * i) k) with (map (fun j => (r * i + j)%nat) (seq 0 k)).
  2:{ clear. generalize (r * i)%nat as a. intros a. induction k as [|k IH] in a |- *; [reflexivity|]. cbn [seq map]. rewrite Nat.add_0_r. f_equal. rewrite <- seq_shift, map_map, <- (IH (S a)). apply map_ext. intros; lia. }
  rewrite map_map. apply map_ext_in. intros j Hj. apply in_seq in Hj. assert (Hq : (r * i + j < List.length (numbers d))%nat) by lia.
  unfold entry. rewrite !str_app_len. replace (r * i + j - r * i)%nat with j by lia.
  pose proof (key_le (numbers d) i (r * i + j) ltac:(lia) Hq) as Kl. rewrite (key_nth _ _ dflt Hq) in Kl.
  replace ((r * i + j) mod i)%nat with j in Kl by (rewrite Nat.add_comm, Nat.mod_add, Nat.mod_small; lia).
  rewrite pad_right_len by (rewrite str_app_len; cbn; unfold wid; lia). rewrite pad_left_len.
  - unfold wid. lia.
  - apply (Hf (fst (nth (r * i + j) (numbers d) dflt))). rewrite <- surjective_pairing. apply nth_In, Hq.
Qed.
Theorem nothing_iff (d : list (string * value A)) columns maxl : no_text d -> numbers d <> [] ->
  format_print_dict fmt columns spacing key_spacing maxl vl d = Ok None <->
  exists k x, In (k, x) (numbers d) /\ (width_limit columns maxl <= Z.of_nat (String.length k + 1 + String.length spacing + vl))%Z.
Proof.
  intros Nt Ne. destruct (numbers d) as [|dflt l0] eqn:El; [contradiction|]. rewrite <- El in Ne |- *.
  assert (Pl : (0 < List.length (numbers d))%nat) by (rewrite El; cbn; lia). clear El.
  pose proof (print_spec d columns maxl dflt Nt Ne) as PS. cbv zeta in PS. set (l := numbers d) in *.
  assert (W : forall i q, (0 < i)%nat -> (q < List.length l)%nat ->
     (String.length (key l q) + 1 + String.length spacing + vl <= table_width (String.length spacing) (String.length key_spacing) vl l i)%nat).
  { intros i q Pi Hq. unfold table_width. pose proof (key_le l i q Pi Hq). eapply Nat.le_trans with (m := (column_width l i (q mod i) + 1 + String.length spacing + vl)%nat); [lia|].
    eapply Nat.le_trans; [|apply Nat.le_add_r]. apply list_sum_in. apply in_map_iff. exists (q mod i)%nat. split; [reflexivity|]. apply in_seq. pose proof (Nat.mod_upper_bound q i ltac:(lia)). lia. }
  destruct PS as [[E1 E2]|(i & Hi & Fi & Ei & Ji)].
  - split; [intros _|intros _; exact E1]. specialize (E2 1%nat ltac:(lia)).
    assert (Cw : In (column_width l 1 0) (map (fun q => String.length (key l q)) (seq 0 (List.length l)))).
    { unfold column_width. replace (map (fun q => if Nat.eqb (q mod 1) 0 then String.length (key l q) else 0%nat) (seq 0 (List.length l))) with (map (fun q => String.length (key l q)) (seq 0 (List.length l))).
      - apply list_max_attained. intros Z. apply (f_equal (@List.length nat)) in Z. rewrite map_length, seq_length in Z. cbn in Z. lia.
      - apply map_ext. intros q. rewrite Nat.mod_1_r. reflexivity. }
    apply in_map_iff in Cw. destruct Cw as (q & Eq & Hq). apply in_seq in Hq. rewrite (key_nth l q dflt) in Eq by lia.
    exists (fst (nth q l dflt)), (snd (nth q l dflt)). split; [rewrite <- surjective_pairing; apply nth_In; lia|].
    rewrite Eq. unfold table_width in E2. cbn [seq map Nat.sub Nat.mul] in E2. unfold list_sum in E2. cbn [fold_right] in E2. rewrite !Nat.add_0_r in E2. lia.
  - split; [intros E; congruence|]. intros (k & x & Hin & B). exfalso. apply In_nth_error in Hin. destruct Hin as [q Hq].
    assert (Bq : (q < List.length l)%nat) by (apply nth_error_Some; congruence). specialize (W i q ltac:(lia) Bq). rewrite (key_nth l q (k, x) Bq) in W.
    rewrite (nth_error_nth _ _ (k, x) Hq) in W. cbn [fst] in W. lia.
Qed.
End Table.

Lemma empty_fails {A} (fmt : A -> string) columns sp ks maxl vl (d : list (string * value A)) : no_text d -> numbers d = [] ->
  format_print_dict fmt columns sp ks maxl vl d = Exn ValueError.
Proof. intros Nt E. unfold format_print_dict. rewrite filter_numbers, E by exact Nt. reflexivity. Qed.
Lemma text_fails : ~ (forall (fmt : nat -> string) d, numbers d <> [] -> exists o, format_print_dict fmt None " " " | " 90 7 d = Ok o).
Proof. intros H. destruct (H (fun _ => "1") [("nx", VNum 1%nat); ("name", VStr "x")] ltac:(discriminate)) as [o E]. vm_compute in E. discriminate. Qed.
Definition wide_dict : list (string * value nat) :=
  [("a2345678901234567890123456", VNum 0%nat); ("b2345678901234567890123456789", VNum 0%nat); ("c", VNum 0%nat)].
Definition wide_out : list string :=
  match format_print_dict (fun _ : nat => "-1.2e-05") None " " " | " 90 7 wide_dict with Ok (Some l) => l | _ => [] end.
Lemma too_wide : ~ (forall (fmt : nat -> string) d lines, no_text d -> (forall n, String.length (fmt n) <= 8)%nat ->
    format_print_dict fmt None " " " | " 90 7 d = Ok (Some lines) -> forall s, In s lines -> (String.length s < 90)%nat).
Proof.
  intros H. pose proof (H (fun _ => "-1.2e-05") wide_dict wide_out) as W. clear H.
  assert (Nt : no_text wide_dict) by (intros k' s' [Hi|[Hi|[Hi|[]]]]; discriminate).
  assert (E : format_print_dict (fun _ : nat => "-1.2e-05") None " " " | " 90 7 wide_dict = Ok (Some wide_out)) by (vm_compute; reflexivity).
  specialize (W Nt ltac:(intros; cbn; lia) E (hd "" wide_out) ltac:(vm_compute; left; reflexivity)). revert W. vm_compute. lia.
Qed.

(** *** names *)
Lemma metric_ok m k v : In m ["mean"; "median"; "std"] -> name_look k = Ok v -> metric_format (m ++ "_" ++ k) = Ok (m ++ " " ++ v).
Proof.
  assert (Sk : forall k, substring 0 (String.length k) k = k) by (induction k0 as [|c k0 IH]; cbn; [reflexivity|now rewrite IH]).
  intros Hm E. unfold metric_format. rewrite (proj2 (existsb_exists _ _)).
  2:{ exists m. split; [exact Hm|]. destruct Hm as [<-|[<-|[<-|[]]]]; reflexivity. }
  destruct Hm as [<-|[<-|[<-|[]]]].
  1: replace (find_underscore ("mean" ++ "_" ++ k)) with 4%Z by (destruct k; reflexivity).
  2: replace (find_underscore ("median" ++ "_" ++ k)) with 6%Z by (destruct k; reflexivity).
  3: replace (find_underscore ("std" ++ "_" ++ k)) with 3%Z by (destruct k; reflexivity).
  all: unfold after, upto.
  1: change (Z.to_nat (4 + 1)) with 5%nat.
  2: change (Z.to_nat (6 + 1)) with 7%nat.
  3: change (Z.to_nat (3 + 1)) with 4%nat.
  all: cbn [append String.length Nat.sub substring]; rewrite ?Nat.sub_0_r, Sk, E; reflexivity.
Qed.
Lemma metric_none s : contains "mean" s = false -> contains "median" s = false -> contains "std" s = false -> metric_format s = Ok "".
Proof. intros A B C. unfold metric_format. cbn [existsb]. rewrite A, B, C. reflexivity. Qed.
