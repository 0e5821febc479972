(** Proofs about the profile (C127). *)
From Coq Require Import List Arith ZArith Lia QArith Bool String Permutation Sorted.
From Verif Require Import Num NdArray NdFacts ModelGradients ModelProperties ModelHW HWFacts LogProps ModelProfile SpecProfile.
Import ListNotations.
Local Open Scope string_scope.
Local Open Scope list_scope.

Section P.
Context {A : Type} {Nm : Num A}.
Variable clk : nat -> Z.

(** ** Forgetting the times gives the model of ModelHW.v *)
Definition erase {X} (o : events * res X * nat) : M X := match o with (l, r, _) => (map fst l, r) end.
Definition er {X} (m : T X) (m' : M X) : Prop := forall i, erase (m i) = m'.
Lemma er_bind {X Y} (m : T X) (m' : M X) (f : X -> T Y) f' :
  er m m' -> (forall x, er (f x) (f' x)) -> er (tbind m f) (mbind m' f').
Proof.
  intros Hm Hf i. unfold tbind, mbind. specialize (Hm i). destruct (m i) as [[l r] j]. cbn in Hm. subst m'.
  destruct r as [x|e]; [|reflexivity]. specialize (Hf x j). destruct (f x j) as [[l' r'] k]. cbn in Hf. rewrite <- Hf.
  cbn. now rewrite map_app.
Qed.
Lemma er_now {Y} (f : Z -> T Y) m' : (forall t, er (f t) m') -> er (tbind (tnow clk) f) m'.
Proof. intros H i. unfold tbind, tnow. specialize (H (clk i) (S i)). destruct (f (clk i) (S i)) as [[l r] k]. exact H. Qed.
Lemma er_lift {X} (r : res X) : er (tlift r) (mlift r). Proof. intros i. reflexivity. Qed.
Lemma er_ret {X} (r : X) : er (tret r) (mret r). Proof. intros i. reflexivity. Qed.
Lemma er_log s t : er (tlog s t) (mlog s). Proof. intros i. reflexivity. Qed.

Ltac er1 := lazymatch goal with
  | |- er (tbind (tnow _) _) _ => apply er_now; intros ?
  | |- er (tbind _ _) (mbind _ _) => apply er_bind; [|intros ?]
  | |- er (tlift _) _ => apply er_lift
  | |- er (tret _) _ => apply er_ret
  | |- er (tlog _ _) _ => apply er_log
  | |- er (tget _ _) _ => apply er_lift
  | |- er (tscale _ _) _ => apply er_lift
  | |- er (tadd _ _) _ => apply er_lift
  | |- er (if ?b then _ else _) _ => destruct b
  end.
Ltac ers := cbv zeta; repeat (er1; cbv zeta).

Variable h : hw A.
Lemma er_get_phi om dx : er (t_get_phi clk h om dx) (hw_get_phi h om dx).
Proof. unfold t_get_phi, hw_get_phi. ers. Qed.
Lemma er_diffuse a dx N : er (t_diffuse clk h a dx N) (hw_diffuse h a dx N).
Proof. unfold t_diffuse, hw_diffuse. ers. Qed.
Lemma er_gradient n o dt dx ph z age : er (t_hw2d_gradient clk h n o dt dx ph z age) (hw2d_gradient h n o dt dx ph z age).
Proof.
  unfold t_hw2d_gradient, hw2d_gradient. cbv zeta. apply er_bind; [destruct ph; [apply er_ret|apply er_get_phi]|intros ph'].
  repeat first [er1 | apply er_diffuse].
Qed.
Lemma er_gradient_2d y ph dt dx : er (t_gradient_2d clk h y ph dt dx) (gradient_2d h y ph dt dx).
Proof.
  unfold t_gradient_2d, gradient_2d. destruct existsb; [apply er_lift|]. destruct (ns_has y "debug"); [apply er_lift|].
  destruct (ns_get y "density"), (ns_get y "omega"); try apply er_lift. apply er_gradient.
Qed.
Lemma er_stage y p dtk dt dx : er (t_stage clk h y p dtk dt dx) (stage h y p dtk dt dx).
Proof. unfold t_stage, stage. apply er_bind; [apply er_gradient_2d|intros; apply er_lift]. Qed.
Lemma er_euler pl dt dx : er (t_euler_step clk h pl dt dx) (euler_step h pl dt dx).
Proof. unfold t_euler_step, euler_step. cbv zeta. repeat first [er1 | apply er_gradient_2d | apply er_get_phi]. Qed.
Lemma er_rk4 pl dt dx : er (t_rk4_step clk h pl dt dx) (rk4_step h pl dt dx).
Proof. unfold t_rk4_step, rk4_step. cbv zeta. repeat first [er1 | apply er_stage | apply er_get_phi]. Qed.
Lemma er_steps (s : ns A -> T (ns A)) s' k pl : (forall p, er (s p) (s' p)) -> er (t_steps s k pl) (steps s' k pl).
Proof. intros H. revert pl. induction k; intros pl; cbn; [apply er_ret|]. apply er_bind; [apply H|intros; apply IHk]. Qed.

(** the potential and the steps of a run without the times *)
Definition m_run (plasma : ns A) (dt dx : A) (k : nat) : M (ns A) :=
  do* om := mget plasma "omega" in
  do* phi := hw_get_phi h (Ok om) dx in
  steps (fun p => rk4_step h p dt dx) k (ns_set plasma "phi" phi).
Lemma er_run pl dt dx k : er (t_run clk h pl dt dx k) (m_run pl dt dx k).
Proof.
  unfold t_run, m_run. apply er_bind; [apply er_lift|intros om]. apply er_bind; [apply er_get_phi|intros phi].
  apply er_steps. intros. apply er_rk4.
Qed.

(** ** Times *)
Lemma tbind_inv {X Y} (m : T X) (f : X -> T Y) i l y k : tbind m f i = (l, Ok y, k) ->
  exists l1 x j l2, m i = (l1, Ok x, j) /\ f x j = (l2, Ok y, k) /\ l = l1 ++ l2.
Proof.
  unfold tbind. destruct (m i) as [[l1 [x|e]] j]; [|discriminate]. destruct (f x j) as [[l2 r] k'] eqn:E.
  intros K. injection K as <- -> <-. eauto 10.
Qed.

Fixpoint part (l : events) : Z :=
  match l with
  | [] => 0
  | (n, t) :: l' => (if string_dec "full_step" n then 0 else t) + part l'
  end%Z.
Lemma part_app l m : part (l ++ m) = (part l + part m)%Z.
Proof. induction l as [|[n t] l IH]; cbn [app part]; [lia|rewrite IH; lia]. Qed.
Lemma total_app k l m : total k (l ++ m) = (total k l + total k m)%Z.
Proof. induction l as [|[n t] l IH]; cbn [app total]; [lia|rewrite IH; lia]. Qed.
Lemma number_app k l m : number k (l ++ m) = (number k l + number k m)%Z.
Proof. induction l as [|[n t] l IH]; cbn [app number]; [lia|rewrite IH; lia]. Qed.
Lemma number_count k l : number k l = Z.of_nat (count_occ string_dec (map fst l) k).
Proof.
  induction l as [|[n t] l IH]; cbn [number map fst count_occ]; [reflexivity|].
  rewrite IH. destruct (string_dec k n), (string_dec n k); subst; try contradiction; lia.
Qed.

(** an event is the difference of two readings, the later one last *)
Definition ev (e : string * Z) : Prop := exists a b, (a < b)%nat /\ snd e = (clk b - clk a)%Z.
Definition span {X} (m : T X) : Prop := forall i l x j, m i = (l, Ok x, j) ->
  j = (i + 2 * List.length l)%nat /\ Forall ev l /\ total "full_step" l = 0%Z /\
  (steady clk -> part l <= clk j - clk i)%Z.

Lemma mono : steady clk -> forall i j, (i <= j)%nat -> (clk i <= clk j)%Z.
Proof. intros H i j L. induction L; [lia|]. specialize (H m). lia. Qed.

Lemma span_ret {X} (x : X) : span (tret x).
Proof. intros i l y j E. injection E as <- <- <-. cbn [part total List.length]. repeat split; auto; intros; lia. Qed.
Lemma span_lift {X} (r : res X) : span (tlift r).
Proof. intros i l y j E. injection E as <- -> <-. cbn [part total List.length]. repeat split; auto; intros; lia. Qed.
Lemma span_bind {X Y} (m : T X) (f : X -> T Y) : span m -> (forall x, span (f x)) -> span (tbind m f).
Proof.
  intros Hm Hf i l y k E. apply tbind_inv in E. destruct E as (l1 & x & j & l2 & E1 & E2 & ->).
  destruct (Hm _ _ _ _ E1) as (A1 & A2 & A3 & A4). destruct (Hf _ _ _ _ _ E2) as (B1 & B2 & B3 & B4).
  rewrite app_length, total_app, part_app. repeat split; [lia|now apply Forall_app|lia|]. intros S. specialize (A4 S). specialize (B4 S). lia.
Qed.
(** t0 = time.time(); x = ...; self.log(name, time.time() - t0) *)
Lemma span_timed {X Y} (r : res X) name (f : X -> T Y) : name <> "full_step" -> (forall x, span (f x)) ->
  span (tbind (tnow clk) (fun t0 => tbind (tlift r) (fun x => tbind (tnow clk) (fun t1 =>
        tbind (tlog name (t1 - t0)%Z) (fun _ => f x))))).
Proof.
  intros Hn Hf i l y k E. cbn in E. destruct r as [x|e]; [|discriminate].
  destruct (f x (S (S i))) as [[l' r'] k'] eqn:E'. cbn in E. injection E as <- -> <-.
  destruct (Hf _ _ _ _ _ E') as (B1 & B2 & B3 & B4). cbn [List.length].
  repeat split; [lia| | |].
  - constructor; [|exact B2]. exists i, (S i). split; [lia|reflexivity].
  - cbn [total]. destruct (string_dec "full_step" name); [congruence|lia].
  - intros S. cbn [part]. destruct (string_dec "full_step" name); [congruence|]. specialize (B4 S). specialize (S (Datatypes.S i)). lia.
Qed.

Ltac sp1 := lazymatch goal with
  | |- span (tbind (tnow _) _) => apply span_timed; [discriminate|intros ?]
  | |- span (tbind _ _) => apply span_bind; [|intros ?]
  | |- span (tlift _) => apply span_lift
  | |- span (tret _) => apply span_ret
  | |- span (tget _ _) => apply span_lift
  | |- span (tscale _ _) => apply span_lift
  | |- span (tadd _ _) => apply span_lift
  | |- span (if ?b then _ else _) => destruct b
  end.
Lemma span_get_phi om dx : span (t_get_phi clk h om dx).
Proof. unfold t_get_phi. cbv zeta. repeat sp1. Qed.
Lemma span_diffuse a dx N : span (t_diffuse clk h a dx N).
Proof. unfold t_diffuse. repeat sp1. Qed.
Lemma span_gradient n o dt dx ph z age : span (t_hw2d_gradient clk h n o dt dx ph z age).
Proof.
  unfold t_hw2d_gradient. cbv zeta. apply span_bind; [destruct ph; [apply span_ret|apply span_get_phi]|intros ph'].
  repeat first [sp1 | apply span_diffuse].
Qed.
Lemma span_gradient_2d y ph dt dx : span (t_gradient_2d clk h y ph dt dx).
Proof.
  unfold t_gradient_2d. destruct existsb; [apply span_lift|]. destruct (ns_has y "debug"); [apply span_lift|].
  destruct (ns_get y "density"), (ns_get y "omega"); try apply span_lift. apply span_gradient.
Qed.
Lemma span_stage y p dtk dt dx : span (t_stage clk h y p dtk dt dx).
Proof. unfold t_stage. apply span_bind; [apply span_gradient_2d|intros; apply span_lift]. Qed.

(** the rest of a step begun at the reading [t0], itself at position [a] *)
Definition rest {X} (a : nat) (m : T X) : Prop := forall i l x j, (a < i)%nat -> m i = (l, Ok x, j) ->
  (j + 1 = i + 2 * List.length l)%nat /\ Forall ev l /\ exists b, (a < b)%nat /\ j = S b /\
  total "full_step" l = (clk b - clk a)%Z /\ (steady clk -> part l <= clk b - clk i)%Z.
Lemma rest_bind {X Y} a (m : T X) (f : X -> T Y) : span m -> (forall x, rest a (f x)) -> rest a (tbind m f).
Proof.
  intros Hm Hf i l y k La E. apply tbind_inv in E. destruct E as (l1 & x & j & l2 & E1 & E2 & ->).
  destruct (Hm _ _ _ _ E1) as (A1 & A2 & A3 & A4).
  destruct (Hf x j _ _ _ ltac:(lia) E2) as (B1 & B2 & b & B3 & B4 & B5 & B6).
  rewrite app_length, total_app, part_app. repeat split; [lia|now apply Forall_app|]. exists b. repeat split; [exact B3|exact B4|lia|].
  intros S. specialize (A4 S). specialize (B6 S). lia.
Qed.
Lemma rest_end {X} a (x : X) :
  rest a (tbind (tnow clk) (fun tn => tbind (tlog "full_step" (tn - clk a)%Z) (fun _ => tret x))).
Proof.
  intros i l y j La E. cbn in E. injection E as <- <- <-. cbn [List.length total part].
  repeat split; [lia| |].
  - constructor; [exists a, i; cbn; split; [exact La|reflexivity]|constructor].
  - exists i. repeat split; [exact La| |]; cbn; intros; lia.
Qed.
(** a whole step *)
Definition whole {X} (m : T X) : Prop := forall i l x j, m i = (l, Ok x, j) ->
  j = (i + 2 * List.length l)%nat /\ Forall ev l /\
  (steady clk -> part l <= total "full_step" l /\ total "full_step" l <= clk j - clk i)%Z.
Lemma whole_of_rest {X} (f : Z -> T X) : (forall a, rest a (f (clk a))) -> whole (tbind (tnow clk) f).
Proof.
  intros H i l x j E. apply tbind_inv in E. destruct E as (l1 & t & i' & l2 & E1 & E2 & ->).
  injection E1 as <- <- <-. cbn [app]. destruct (H i (S i) _ _ _ ltac:(lia) E2) as (B1 & B2 & b & B3 & B4 & B5 & B6).
  repeat split; [lia|exact B2| |]; specialize (B6 H0); pose proof (H0 i); pose proof (H0 b); subst j; lia.
Qed.
Ltac re1 := lazymatch goal with
  | |- rest _ (tbind (tnow _) _) => apply rest_end
  | |- rest _ (tbind _ _) => apply rest_bind; [first [apply span_stage|apply span_get_phi|apply span_gradient_2d|sp1]|intros ?]
  end.
Lemma whole_rk4 pl dt dx : whole (t_rk4_step clk h pl dt dx).
Proof. unfold t_rk4_step. cbv zeta. apply whole_of_rest. intros a. repeat re1. Qed.
Lemma whole_euler pl dt dx : whole (t_euler_step clk h pl dt dx).
Proof. unfold t_euler_step. cbv zeta. apply whole_of_rest. intros a. repeat re1. Qed.
Lemma whole_steps (s : ns A -> T (ns A)) k pl : (forall p, whole (s p)) -> whole (t_steps s k pl).
Proof.
  intros H. revert pl. induction k as [|k IH]; intros pl i l x j E; cbn in E.
  - injection E as <- <- <-. cbn [part total List.length]. repeat split; auto; intros; lia.
  - apply tbind_inv in E. destruct E as (l1 & y & i' & l2 & E1 & E2 & ->).
    destruct (H _ _ _ _ _ E1) as (A1 & A2 & A3). destruct (IH _ _ _ _ _ E2) as (B1 & B2 & B3).
    rewrite app_length, total_app, part_app. repeat split; [lia|now apply Forall_app| |]; specialize (A3 H0); specialize (B3 H0); lia.
Qed.

(** the events of a completed run *)
Lemma run_events pl dt dx k l x j : t_run clk h pl dt dx k O = (l, Ok x, j) ->
  j = (2 * List.length l)%nat /\ Forall ev l /\
  (exists l', l = ("get_phi", (clk 1%nat - clk 0%nat)%Z) :: l') /\
  (steady clk -> part l <= total "full_step" l + (clk 1%nat - clk 0%nat) /\ total "full_step" l <= clk j - clk 1%nat)%Z /\
  map fst l = fst (m_run pl dt dx k) /\ snd (m_run pl dt dx k) = Ok x.
Proof.
  intros E. pose proof (er_run pl dt dx k O) as Er. rewrite E in Er. cbn [erase] in Er.
  unfold t_run in E. apply tbind_inv in E. destruct E as (l1 & om & j1 & l2 & E1 & E2 & ->).
  injection E1 as <- _ <-. apply tbind_inv in E2. destruct E2 as (l3 & phi & j2 & l4 & E3 & E4 & ->).
  unfold t_get_phi in E3. cbv zeta in E3. cbn in E3.
  match type of E3 with context [poisson_solver ?a ?b ?c] => destruct (poisson_solver a b c) as [ph|]; [|discriminate] end.
  injection E3 as <- <- <-.
  assert (W : whole (t_steps (fun p => t_rk4_step clk h p dt dx) k (ns_set pl "phi" ph)))
    by (apply whole_steps; intros; apply whole_rk4).
  destruct (W _ _ _ _ E4) as (B1 & B2 & B3). cbn [app] in *. repeat split.
  - cbn [List.length]. lia.
  - constructor; [|exact B2]. exists 0%nat, 1%nat. split; [lia|reflexivity].
  - now exists l4.
  - cbn [part total]. cbn. specialize (B3 H). lia.
  - cbn [part total]. cbn. specialize (B3 H). pose proof (H 1%nat). lia.
  - rewrite <- Er. reflexivity.
  - rewrite <- Er. reflexivity.
Qed.

Lemma m_run_calls pl dt dx k l x : m_run pl dt dx k = (l, Ok x) ->
  forall name, Z.of_nat (count_occ string_dec l name) =
    expected_calls (truthy (hpb h)) (truthy (hnu h)) (htest h) (Z.of_nat k) name.
Proof.
  unfold m_run. intros E name. apply mbind_inv in E. destruct E as (l1 & om & l2 & E1 & E2 & ->).
  apply mlift_inv in E1. destruct E1 as [_ ->]. apply mbind_inv in E2. destruct E2 as (l3 & phi & l4 & E3 & E4 & ->).
  apply get_phi_log in E3. subst l3. cbn [app].
  destruct (c28 h _ _ _ _ _ _ E4) as (C1 & C2 & C3 & C4 & C5 & C6).
  destruct (in_dec string_dec name ["full_step"; "get_phi"; "gradient_2d"; "poisson_bracket"; "diffuse"]) as [I|I].
  - cbn [In] in I. destruct I as [<-|[<-|[<-|[<-|[<-|[]]]]]]; cbn [count_occ];
      (destruct string_dec; try discriminate; try congruence);
      rewrite ?C1, ?C2, ?C3, ?C4, ?C5;
      destruct (truthy (hpb h)), (truthy (hnu h)), (htest h); cbn [expected_calls String.eqb Ascii.eqb Bool.eqb]; lia.
  - cbn [count_occ]. destruct (string_dec "get_phi" name) as [<-|]; [exfalso; apply I; cbn; tauto|].
    rewrite C6 by exact I. cbn [In] in I. unfold expected_calls.
    repeat match goal with |- context [String.eqb name ?s] => destruct (String.eqb_spec name s) as [->|]; [exfalso; tauto|] end.
    reflexivity.
Qed.

Lemma run_ok pl dt dx k x : snd (m_run pl dt dx k) = Ok x -> exists l j, t_run clk h pl dt dx k O = (l, Ok x, j).
Proof.
  intros E. pose proof (er_run pl dt dx k O) as Er. destruct (t_run clk h pl dt dx k O) as [[l r] j]. cbn [erase] in Er.
  rewrite <- Er in E. cbn [snd] in E. subst r. eauto.
Qed.
End P.

(** ** The tables *)
Lemma plog_spec p name t : NoDup (map fst p) -> In name (map fst p) ->
  plog p name t = Ok (map (fun e => match e with (k, (a, c)) =>
    (k, ((a + (if string_dec k name then t else 0))%Z, (c + (if string_dec k name then 1 else 0))%Z)) end) p).
Proof.
  induction p as [|[k [a c]] p IH]; intros Hn Hi; [destruct Hi|]. cbn [plog map].
  cbn [map fst] in Hn. inversion Hn; subst. destruct (String.eqb_spec name k) as [->|Ne].
  - destruct (string_dec k k); [|congruence]. do 2 f_equal. rewrite <- (map_id p) at 1. apply map_ext_in.
    intros [k' [a' c']] I. destruct (string_dec k' k) as [->|]; [|now rewrite !Z.add_0_r].
    exfalso. apply H1. now apply (in_map fst) in I.
  - cbn [map fst] in Hi. destruct Hi as [->|Hi]; [congruence|]. rewrite IH by assumption. cbn [bind].
    destruct (string_dec k name); [congruence|]. now rewrite !Z.add_0_r.
Qed.
Lemma plogs_spec p l : NoDup (map fst p) -> (forall e, In e l -> In (fst e) (map fst p)) ->
  plogs p l = Ok (map (fun e => match e with (k, (a, c)) => (k, ((a + total k l)%Z, (c + number k l)%Z)) end) p).
Proof.
  revert p. induction l as [|[name t] l IH]; intros p Hn Hi; cbn [plogs].
  - f_equal. rewrite <- (map_id p) at 1. apply map_ext. intros [k [a c]]. cbn [total number]. now rewrite !Z.add_0_r.
  - rewrite plog_spec; [|exact Hn|exact (Hi (name, t) (or_introl eq_refl))]. cbn [bind].
    rewrite IH.
    + f_equal. rewrite map_map. apply map_ext. intros [k [a c]]. cbn [total number]. now rewrite !Z.add_assoc.
    + rewrite map_map. replace (map _ p) with (map fst p); [exact Hn|]. apply map_ext. now intros [k [a c]].
    + intros e I. rewrite map_map. replace (map _ p) with (map fst p); [apply Hi; now right|]. apply map_ext. now intros [k [a c]].
Qed.

(** the row of [name] *)
Definition the_row (l : events) (name : string) : row :=
  {| r_name := name; r_time := total name l; r_calls := number name l;
     r_tpc := cdiv (total name l) (number name l); r_pct := c100 (cdiv (total name l) (total "full_step" l)) |}.
Lemma table_spec l : (forall e, In e l -> In (fst e) watch_fncs) ->
  exists p, plogs prof0 l = Ok p /\ print_log p = Ok (row_sort (map (the_row l) watch_fncs)).
Proof.
  intros H. eexists. split.
  - apply plogs_spec; [|exact H]. cbn. repeat constructor; cbn; intuition discriminate.
  - unfold prof0. rewrite map_map. reflexivity.
Qed.

(** ** Sorting *)
Lemma row_insert_perm r l : Permutation (r :: l) (row_insert r l).
Proof.
  induction l as [|s l IH]; cbn; [reflexivity|]. destruct cell_leb; [reflexivity|].
  rewrite <- IH. apply perm_swap.
Qed.
Lemma row_sort_perm l : Permutation l (row_sort l).
Proof. induction l as [|r l IH]; cbn; [reflexivity|]. rewrite <- row_insert_perm. now constructor. Qed.

Lemma cell_total a b : cell_leb a b = false -> cell_leb b a = true.
Proof.
  destruct a as [p| | |], b as [q| | |]; cbn; try congruence. intros E. apply Qle_bool_iff.
  destruct (Qlt_le_dec q p) as [L|L]; [now apply Qlt_le_weak|]. apply Qle_bool_iff in L. congruence.
Qed.
Lemma cell_trans a b c : cell_leb a b = true -> cell_leb b c = true -> cell_leb a c = true.
Proof.
  destruct a as [p| | |], b as [q| | |], c as [r| | |]; cbn; try congruence. rewrite !Qle_bool_iff. apply Qle_trans.
Qed.
Definition rle (a b : row) : Prop := cell_leb (r_tpc a) (r_tpc b) = true.
Lemma row_insert_sorted r l : StronglySorted rle l -> StronglySorted rle (row_insert r l).
Proof.
  induction 1 as [|s l S IH F]; cbn; [repeat constructor|]. destruct (cell_leb (r_tpc r) (r_tpc s)) eqn:E.
  - repeat constructor; auto. rewrite Forall_forall in *. intros x I. exact (cell_trans _ _ _ E (F x I)).
  - constructor; [exact IH|]. rewrite Forall_forall in *. intros x I.
    apply (Permutation_in x (Permutation_sym (row_insert_perm r l))) in I. destruct I as [<-|I]; [|now apply F].
    now apply cell_total.
Qed.
Lemma row_sort_sorted l : StronglySorted rle (row_sort l).
Proof. induction l; cbn; [constructor|now apply row_insert_sorted]. Qed.
Lemma sorted_split l1 r l2 s l3 : StronglySorted rle (l1 ++ r :: l2 ++ s :: l3) -> rle r s.
Proof.
  induction l1 as [|x l1 IH]; cbn; intros H; inversion H; subst; [|now apply IH].
  rewrite Forall_forall in H3. apply H3. apply in_or_app. right. now left.
Qed.

(** ** Runs *)
Section R.
Context {A : Type} {Nm : Num A}.
Variable clk : nat -> Z.
Variable h : hw A.

Lemma names_watched pl dt dx k (l : events) : map fst l = fst (m_run h pl dt dx k) -> (exists x, snd (m_run h pl dt dx k) = Ok x) ->
  forall e, In e l -> In (fst e) watch_fncs.
Proof.
  intros E (x & Ex) e I. destruct (m_run h pl dt dx k) as [lm r] eqn:Em. cbn in E, Ex. subst lm r.
  destruct (in_dec string_dec (fst e) watch_fncs) as [Y|N]; [exact Y|exfalso].
  pose proof (m_run_calls clk h pl dt dx k _ _ Em (fst e)) as C.
  assert (expected_calls (truthy (hpb h)) (truthy (hnu h)) (htest h) (Z.of_nat k) (fst e) = 0%Z) as C0.
  { unfold expected_calls. cbn [watch_fncs In] in N.
    repeat match goal with |- context [String.eqb ?n ?s] => destruct (String.eqb_spec n s) as [Q|]; [exfalso; rewrite Q in N; tauto|] end. reflexivity. }
  rewrite C0 in C. assert (count_occ string_dec (map fst l) (fst e) > 0)%nat by (apply count_occ_In, in_map, I). lia.
Qed.

Lemma profile_inv pl dt dx k rows : run_profile clk h pl dt dx k = Ok rows ->
  exists l x j, t_run clk h pl dt dx k O = (l, Ok x, j) /\ rows = row_sort (map (the_row l) watch_fncs) /\
  (forall name, number name l = expected_calls (truthy (hpb h)) (truthy (hnu h)) (htest h) (Z.of_nat k) name).
Proof.
  unfold run_profile. destruct (t_run clk h pl dt dx k O) as [[l r] j] eqn:E. destruct r as [x|e]; [|discriminate].
  destruct (run_events _ _ _ _ _ _ _ _ _ E) as (_ & _ & _ & _ & N & X).
  destruct (table_spec l) as (p & P1 & P2); [exact (names_watched _ _ _ _ _ N (ex_intro _ x X))|].
  rewrite P1. cbn [bind]. rewrite P2. intros K. injection K as <-. exists l, x, j. repeat split.
  intros name. rewrite number_count, N. apply (m_run_calls clk h pl dt dx k _ x).
  rewrite <- X. now destruct (m_run h pl dt dx k).
Qed.
Lemma profile_ok pl dt dx k x : snd (m_run h pl dt dx k) = Ok x -> exists rows, run_profile clk h pl dt dx k = Ok rows.
Proof.
  intros X. destruct (run_ok clk h pl dt dx k x X) as (l & j & E). unfold run_profile. rewrite E.
  destruct (run_events _ _ _ _ _ _ _ _ _ E) as (_ & _ & _ & _ & N & _).
  destruct (table_spec l) as (p & P1 & P2); [exact (names_watched _ _ _ _ _ N (ex_intro _ x X))|].
  rewrite P1. cbn [bind]. eauto.
Qed.

Lemma total_0 name (l : events) : number name l = 0%Z -> total name l = 0%Z.
Proof.
  assert (forall m, 0 <= number name m)%Z as P by (intros m; rewrite number_count; lia).
  induction l as [|[n t] l IH]; cbn [number total]; [reflexivity|]. specialize (P l). destruct string_dec; intros; [lia|]. rewrite IH; lia.
Qed.
Lemma part_split l : (forall e, In e l -> In (fst e) watch_fncs) ->
  (part l = total "get_phi" l + total "diffuse" l + total "gradient_2d" l + total "poisson_bracket" l)%Z.
Proof.
  induction l as [|[n t] l IH]; intros H; [reflexivity|]. cbn [part total].
  rewrite IH by (intros; apply H; now right). specialize (H (n, t) (or_introl eq_refl)). cbn [watch_fncs In fst] in H.
  destruct H as [<-|[<-|[<-|[<-|[<-|[]]]]]]; repeat (destruct string_dec; try discriminate; try congruence); lia.
Qed.
Lemma total_nonneg name (l : events) : Forall (fun e => 0 <= snd e)%Z l -> (0 <= total name l)%Z.
Proof. induction 1 as [|[n t] l H F IH]; cbn [total]; [lia|]. cbn [snd] in H. destruct string_dec; lia. Qed.
Lemma ev_nonneg (l : events) : steady clk -> Forall (ev clk) l -> Forall (fun e => 0 <= snd e)%Z l.
Proof.
  intros S. apply Forall_impl. intros e (a & b & L & ->). pose proof (mono clk S a b ltac:(lia)). lia.
Qed.
End R.
