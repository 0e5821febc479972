(** Facts about the array library [NdArray]: reading what was built, and how
    slices, padding, broadcasting and reductions act on stacks of frames. *)
From Coq Require Import List Arith ZArith Lia Bool Wf_nat.
From Verif Require Import Num NdArray.
Import ListNotations.
Ltac Zify.zify_post_hook ::= Z.div_mod_to_equations.

Section Basic.
Context {A : Type} {N : Num A}.

Lemma in_indices s ix : In ix (indices s) <-> inb s ix.
Proof.
  unfold inb; revert ix; induction s as [|d s IH]; intros ix; cbn [indices].
  - split; [intros [<-|[]]; constructor | intros H; inversion H; left; reflexivity].
  - rewrite in_flat_map. split.
    + intros (r & Hr & Hi). apply in_map_iff in Hi as (i & <- & Hi).
      apply in_seq in Hi. constructor; [lia | now apply IH].
    + intros H; inversion H as [|i d' r s' Hi Hr]; subst.
      exists r; split; [now apply IH|]. apply in_map_iff.
      exists i; split; [reflexivity|]. apply in_seq; lia.
Qed.

Lemma flat_map_len {B C} (f : B -> list C) (d : nat) (l : list B) :
  (forall x, length (f x) = d) -> length (flat_map f l) = d * length l.
Proof.
  intros H; induction l as [|x l IH]; cbn [flat_map length]; [lia|].
  rewrite app_length, H, IH; lia.
Qed.

Lemma length_indices s : length (indices s) = size s.
Proof.
  induction s as [|d s IH]; cbn [indices size fold_right]; [reflexivity|].
  rewrite (flat_map_len _ d); [rewrite IH; reflexivity|].
  intros x; now rewrite map_length, seq_length.
Qed.

Lemma nth_flat_map {B C} (f : B -> list C) (d i q : nat) (l : list B) x :
  (forall y, length (f y) = d) -> i < d -> nth_error l q = Some x ->
  nth_error (flat_map f l) (i + d * q) = nth_error (f x) i.
Proof.
  intros Hd Hi; revert q; induction l as [|y l IH]; intros q Hq.
  - destruct q; discriminate.
  - destruct q as [|q]; cbn [flat_map] in *.
    + injection Hq as ->. rewrite nth_error_app1; [f_equal; lia|rewrite Hd; lia].
    + cbn [nth_error] in Hq. rewrite nth_error_app2 by (rewrite Hd; lia).
      rewrite <- (IH q Hq). rewrite Hd. f_equal; lia.
Qed.

Lemma nth_indices s ix : inb s ix -> nth_error (indices s) (flat s ix) = Some ix.
Proof.
  unfold inb; revert ix; induction s as [|d s IH]; intros ix H.
  - inversion H; reflexivity.
  - inversion H as [|i d' r s' Hi Hr]; subst; cbn [indices flat].
    rewrite (nth_flat_map _ d i _ _ r); auto.
    + rewrite nth_error_map.
      replace (nth_error (seq 0 d) i) with (Some i); [reflexivity|].
      symmetry. rewrite (nth_error_nth' _ 0) by (rewrite seq_length; lia).
      rewrite seq_nth by lia; reflexivity.
    + intros y; now rewrite map_length, seq_length.
Qed.

Lemma flat_lt s ix : inb s ix -> flat s ix < size s.
Proof.
  intros H. rewrite <- length_indices. apply nth_error_Some.
  rewrite (nth_indices _ _ H). discriminate.
Qed.

Lemma get_build s (f : list nat -> A) ix : inb s ix -> get (build s f) ix = f ix.
Proof.
  intros H; unfold get, build; cbn [shape data].
  apply nth_error_nth. rewrite nth_error_map, (nth_indices _ _ H). reflexivity.
Qed.

Lemma build_ext {B} s (f g : list nat -> B) :
  (forall ix, inb s ix -> f ix = g ix) -> build s f = build s g.
Proof.
  intros H; unfold build; f_equal. apply map_ext_in.
  intros ix Hi; apply H, in_indices, Hi.
Qed.

Lemma build_inj {B} s (f g : list nat -> B) :
  build s f = build s g -> forall ix, inb s ix -> f ix = g ix.
Proof.
  intros H ix Hi. unfold build in H. injection H as H.
  assert (E : nth_error (map f (indices s)) (flat s ix) = nth_error (map g (indices s)) (flat s ix))
    by now rewrite H.
  rewrite !nth_error_map, (nth_indices _ _ Hi) in E. now injection E.
Qed.

Lemma wf_build {B} s (f : list nat -> B) : wf (build s f).
Proof. unfold wf, build; cbn [shape data]. now rewrite map_length, length_indices. Qed.

Lemma list_nth_ext {B} (d : B) (l m : list B) :
  length l = length m -> (forall k, k < length l -> nth k l d = nth k m d) -> l = m.
Proof.
  revert m; induction l as [|x l IH]; intros [|y m] Hl H; cbn in Hl; try lia; [reflexivity|].
  f_equal; [apply (H 0); cbn; lia|]. apply IH; [lia|].
  intros k Hk. apply (H (S k)); cbn; lia.
Qed.

Lemma nth_map_seq {B} (d : B) (f : nat -> B) n k :
  k < n -> nth k (map f (seq 0 n)) d = f k.
Proof.
  intros H. rewrite (nth_indep _ d (f 0)) by (rewrite map_length, seq_length; lia).
  rewrite map_nth. now rewrite seq_nth by lia.
Qed.

(** every position of the flat data is the image of one index *)
Lemma flat_indices s : map (flat s) (indices s) = seq 0 (size s).
Proof.
  induction s as [|d s IH]; [reflexivity|].
  cbn [indices size fold_right]. fold (size s).
  rewrite flat_map_concat_map, concat_map, map_map.
  replace (map _ (indices s)) with (map (fun q => map (fun i => i + d * q) (seq 0 d)) (map (flat s) (indices s))).
  2:{ rewrite map_map. apply map_ext. intros ix. rewrite map_map. reflexivity. }
  rewrite IH.
  clear IH. induction (size s) as [|m IHm]; [now rewrite Nat.mul_0_r|].
  rewrite seq_S, map_app, concat_app, IHm. cbn [map concat]. rewrite app_nil_r.
  replace (d * S m) with (d * m + d) by lia. rewrite seq_app. f_equal. cbn [Nat.add].
  apply (list_nth_ext 0); [now rewrite map_length, !seq_length|].
  intros k Hk. rewrite map_length, seq_length in Hk.
  rewrite nth_map_seq, seq_nth by lia. lia.
Qed.

Lemma wf_eta (a : arr A) : wf a -> a = build (shape a) (get a).
Proof.
  intros H. destruct a as [s l]. unfold build, get, wf in *; cbn [shape data] in *.
  f_equal.
  rewrite <- (map_map (flat s) (fun k => nth k l nzero)), flat_indices.
  apply (list_nth_ext nzero); [now rewrite map_length, seq_length|].
  intros k Hk. rewrite nth_map_seq by lia. reflexivity.
Qed.

(** two well-formed arrays with the same shape and entries are equal *)
Lemma arr_ext (a b : arr A) : wf a -> wf b -> shape a = shape b ->
  (forall ix, inb (shape a) ix -> get a ix = get b ix) -> a = b.
Proof.
  intros Ha Hb Hs H. rewrite (wf_eta a Ha), (wf_eta b Hb), <- Hs.
  now apply build_ext.
Qed.

Lemma inb_length s ix : inb s ix -> length ix = length s.
Proof. intros H; induction H; cbn; congruence. Qed.

Lemma inb_nth s ix k : inb s ix -> k < length s -> nth k ix 0 < nth k s 0.
Proof.
  intros H; revert k; induction H as [|i d ix s Hi H IH]; intros k Hk; cbn in Hk; [lia|].
  destruct k; cbn; [exact Hi|]. apply IH; lia.
Qed.

Lemma length_upd k f l : length (upd k f l) = length l.
Proof. revert k; induction l as [|x l IH]; intros [|k]; cbn; auto. Qed.

Lemma nth_upd k f l : k < length l -> nth k (upd k f l) 0 = f (nth k l 0).
Proof. revert k; induction l as [|x l IH]; intros [|k] H; cbn in *; try lia. apply IH; lia. Qed.

Lemma nth_upd_ne k m f l : m <> k -> nth m (upd k f l) 0 = nth m l 0.
Proof.
  revert k m; induction l as [|x l IH]; intros [|k] [|m] H; cbn; try reflexivity; try lia.
  apply IH; lia.
Qed.

Lemma inb_upd k f g s ix :
  inb (upd k f s) ix ->
  (forall i, i < f (nth k s 0) -> g i < nth k s 0) ->
  inb s (upd k g ix).
Proof.
  unfold inb; revert k ix; induction s as [|d s IH]; intros k ix H Hg.
  - destruct k; inversion H; constructor.
  - destruct k as [|k]; cbn [upd] in H; inversion H as [|i d' r s' Hi Hr]; subst; cbn [upd].
    + constructor; [apply Hg; exact Hi|exact Hr].
    + constructor; [exact Hi|]. apply IH; [exact Hr|exact Hg].
Qed.

Lemma slice_build k sl s (f : list nat -> A) :
  1 <= ps_step sl ->
  slice_pos k sl (build s f) =
  build (upd k (ps_len sl) s)
        (fun ix => f (upd k (fun i => ps_start sl (nth k s 0) + i * ps_step sl) ix)).
Proof.
  intros Hst. unfold slice_pos, dim. cbn [shape build].
  apply build_ext. intros ix Hi. apply (get_build s f).
  apply (inb_upd _ _ _ _ _ Hi). intros i H. unfold ps_len in H.
  assert (Hstop : ps_stop sl (nth k s 0) <= nth k s 0).
  { unfold ps_stop, clip. lia. }
  remember (ps_step sl) as st. remember (ps_stop sl (nth k s 0)) as hi.
  remember (ps_start sl (nth k s 0)) as lo.
  pose proof (Nat.mul_div_le (hi - lo + (st - 1)) st ltac:(lia)) as Hq.
  remember ((hi - lo + (st - 1)) / st) as q eqn:Eq. clear Eq.
  assert (st * (i + 1) <= st * q) by (apply Nat.mul_le_mono_l; lia).
  assert (i * st < hi - lo) by lia. lia.
Qed.

Lemma pidx_lt n z : 0 < n -> pidx n z < n.
Proof. intros H; unfold pidx. pose proof (Z.mod_pos_bound z (Z.of_nat n)); lia. Qed.

Lemma pidx_small n i : i < n -> pidx n (Z.of_nat i) = i.
Proof. intros H; unfold pidx. rewrite Z.mod_small; lia. Qed.

Lemma pidx_add n z k : 0 < n -> pidx n (Z.of_nat (pidx n z) + k) = pidx n (z + k).
Proof.
  intros H; unfold pidx. rewrite Z2Nat.id by (apply Z.mod_pos_bound; lia).
  now rewrite Zplus_mod_idemp_l.
Qed.

Lemma pidx_mod n z : 0 < n -> Z.of_nat (pidx n z) = (z mod Z.of_nat n)%Z.
Proof. intros H; unfold pidx. rewrite Z2Nat.id; [reflexivity|apply Z.mod_pos_bound; lia]. Qed.

Lemma pidx_eq n z z' : 0 < n -> (z mod Z.of_nat n = z' mod Z.of_nat n)%Z -> pidx n z = pidx n z'.
Proof. intros H E; unfold pidx; now rewrite E. Qed.

Lemma pidx_period n z : 0 < n -> pidx n (z + Z.of_nat n) = pidx n z.
Proof.
  intros H. apply pidx_eq; [exact H|].
  rewrite <- (Z_mod_plus_full z 1 (Z.of_nat n)). f_equal; lia.
Qed.

Lemma pad_build k b e s (f : list nat -> A) :
  0 < nth k s 0 ->
  pad_pos k b e (Ok (build s f)) =
  Ok (build (upd k (fun d => b + d + e) s)
        (fun ix => f (upd k (fun i => pidx (nth k s 0) (Z.of_nat i - Z.of_nat b)) ix))).
Proof.
  intros Hn. unfold pad_pos, bind, dim. cbn [shape build].
  destruct (Nat.eqb_spec (nth k s 0) 0) as [E|_]; [lia|]. cbn [andb].
  f_equal. apply build_ext. intros ix Hi. apply (get_build s f).
  apply (inb_upd _ _ _ _ _ Hi). intros i _. now apply pidx_lt.
Qed.

Lemma bshape_refl s : bshape s s = Some s.
Proof. induction s as [|d s IH]; cbn; [reflexivity|]. now rewrite IH, Nat.eqb_refl. Qed.

Lemma bidx_self s ix : inb s ix -> bidx s ix = ix.
Proof.
  intros H; induction H as [|i d ix s Hi H IH]; cbn; [reflexivity|].
  rewrite IH. destruct (Nat.eqb_spec d 1); f_equal; lia.
Qed.

Lemma lift2_build op s (f g : list nat -> A) :
  lift2 op (Ok (build s f)) (Ok (build s g)) = Ok (build s (fun ix => op (f ix) (g ix))).
Proof.
  unfold lift2, bind, bc2. cbn [shape build]. rewrite bshape_refl. f_equal.
  apply build_ext. intros ix H. rewrite (bidx_self _ _ H).
  now rewrite !(get_build s) by exact H.
Qed.

Lemma lift2_scl op s c (g : list nat -> A) :
  lift2 op (sc c) (Ok (build s g)) = Ok (build s (fun ix => op c (g ix))).
Proof.
  unfold lift2, sc, bind, bc2. cbn [shape build bshape]. f_equal.
  apply build_ext. intros ix H. rewrite (bidx_self _ _ H).
  now rewrite (get_build s) by exact H.
Qed.

Lemma lift2_scr op s c (g : list nat -> A) :
  lift2 op (Ok (build s g)) (sc c) = Ok (build s (fun ix => op (g ix) c)).
Proof.
  unfold lift2, sc, bind, bc2. cbn [shape build].
  replace (bshape s []) with (Some s) by (destruct s; reflexivity). f_equal.
  apply build_ext. intros ix H. rewrite (bidx_self _ _ H).
  now rewrite (get_build s) by exact H.
Qed.

Lemma map1_build (f : A -> A) s g : map1 f (Ok (build s g)) = Ok (build s (fun ix => f (g ix))).
Proof. unfold map1, bind, build; cbn [shape data]. now rewrite map_map. Qed.

Lemma iadd_build s (f g : list nat -> A) :
  iadd (Ok (build s f)) (Ok (build s g)) = Ok (build s (fun ix => nadd (f ix) (g ix))).
Proof.
  pose proof (lift2_build nadd s f g) as H. unfold lift2, bind in H.
  unfold iadd, bind. rewrite H. cbn [shape build].
  destruct (list_eq_dec Nat.eq_dec s s); [reflexivity|congruence].
Qed.

Lemma build_inj_res s (f g : list nat -> A) :
  @Ok (arr A) (build s f) = Ok (build s g) -> forall ix, inb s ix -> f ix = g ix.
Proof. intros H. apply build_inj. congruence. Qed.

End Basic.

(** ** Stacks of frames *)
Section Stack.
Context {A : Type} {N : Num A}.

Lemma inb_stack rest ny nx ix : inb (nx :: ny :: rest) ix ->
  exists i j r, ix = j :: i :: r /\ j < nx /\ i < ny /\ inb rest r.
Proof.
  unfold inb; intros H. inversion H as [|j ? ix' ? Hj H']; subst.
  inversion H' as [|i ? r ? Hi Hr]; subst. now exists i, j, r.
Qed.

Lemma stack_ext rest ny nx (F G : list nat -> nat -> nat -> A) :
  (forall r i j, inb rest r -> i < ny -> j < nx -> F r i j = G r i j) ->
  stack rest ny nx F = stack rest ny nx G.
Proof.
  intros H; unfold stack. apply build_ext. intros ix Hi.
  apply inb_stack in Hi as (i & j & r & -> & Hj & Hi & Hr). now apply H.
Qed.

Lemma stack_inj rest ny nx (F G : list nat -> nat -> nat -> A) :
  stack rest ny nx F = stack rest ny nx G ->
  forall r i j, inb rest r -> i < ny -> j < nx -> F r i j = G r i j.
Proof.
  intros H r i j Hr Hi Hj. unfold stack in H.
  assert (I : inb (nx :: ny :: rest) (j :: i :: r)) by (repeat constructor; assumption).
  exact (build_inj _ _ _ H _ I).
Qed.

Lemma get_stack rest ny nx (F : list nat -> nat -> nat -> A) r i j :
  inb rest r -> i < ny -> j < nx -> get (stack rest ny nx F) (j :: i :: r) = F r i j.
Proof.
  intros Hr Hi Hj. unfold stack.
  now rewrite get_build by (repeat constructor; assumption).
Qed.

Lemma at2_grid ny nx (f : nat -> nat -> A) i j :
  i < ny -> j < nx -> at2 (grid ny nx f) i j = f i j.
Proof. intros; unfold at2, grid. apply get_stack; auto. constructor. Qed.

Lemma grid_ext ny nx (f g : nat -> nat -> A) :
  (forall i j, i < ny -> j < nx -> f i j = g i j) -> grid ny nx f = grid ny nx g.
Proof. intros H; apply stack_ext; intros; now apply H. Qed.

Lemma grid_inj ny nx (f g : nat -> nat -> A) :
  grid ny nx f = grid ny nx g -> forall i j, i < ny -> j < nx -> f i j = g i j.
Proof. intros H i j Hi Hj. apply (stack_inj _ _ _ _ _ H []); auto. constructor. Qed.

(** every well-formed 2-D array is a grid, every (n>=2)-D array a stack *)
Lemma wf_stack (a : arr A) nx ny rest : wf a -> shape a = nx :: ny :: rest ->
  a = stack rest ny nx (fun r i j => get a (j :: i :: r)).
Proof.
  intros H Hs. rewrite (wf_eta a H) at 1. rewrite Hs. apply build_ext.
  intros ix Hi. apply inb_stack in Hi as (i & j & r & -> & _). reflexivity.
Qed.

Lemma wf_grid (a : arr A) nx ny : wf a -> shape a = [nx; ny] -> a = grid ny nx (at2 a).
Proof.
  intros H Hs. unfold grid. rewrite (wf_stack a nx ny [] H Hs) at 1.
  apply stack_ext. intros r i j Hr _ _. inversion Hr; reflexivity.
Qed.

Definition sidx (s : pslice) (n i : nat) : nat := ps_start s n + i * ps_step s.

Lemma sl2_stack sy sx rest ny nx (F : list nat -> nat -> nat -> A) :
  1 <= ps_step sy -> 1 <= ps_step sx ->
  sl2 sy sx (Ok (stack rest ny nx F)) =
  Ok (stack rest (ps_len sy ny) (ps_len sx nx) (fun r i j => F r (sidx sy ny i) (sidx sx nx j))).
Proof.
  intros Hy Hx. unfold sl2, bind, stack. cbn [shape build length Nat.ltb Nat.leb].
  rewrite slice_build, slice_build by assumption. cbn [upd nth].
  f_equal. apply build_ext. intros ix Hi.
  apply inb_stack in Hi as (i & j & r & -> & _). reflexivity.
Qed.

Lemma slf2_grid sy sx ny nx (f : nat -> nat -> A) :
  1 <= ps_step sy -> 1 <= ps_step sx ->
  slf2 sy sx (Ok (grid ny nx f)) =
  Ok (grid (ps_len sy ny) (ps_len sx nx) (fun i j => f (sidx sy ny i) (sidx sx nx j))).
Proof. intros Hy Hx. exact (sl2_stack sy sx [] ny nx (fun _ => f) Hy Hx). Qed.

Ltac slice_arith :=
  unfold sidx, ps_len, ps_stop, ps_start, clip, s_mid, s_lo, s_hi, s_all;
  cbn [ps_lo ps_hi ps_step]; rewrite ?Nat.div_1_r;
  repeat match goal with |- context [(?a <? 0)%Z] => destruct (Z.ltb_spec a 0) end;
  lia.

Lemma s_mid_len n : ps_len s_mid (1 + n + 1) = n.
Proof. slice_arith. Qed.
Lemma s_lo_len n : ps_len s_lo (1 + n + 1) = n.
Proof. slice_arith. Qed.
Lemma s_hi_len n : ps_len s_hi (1 + n + 1) = n.
Proof. slice_arith. Qed.
Lemma s_all_len n : ps_len s_all n = n.
Proof. slice_arith. Qed.
Lemma s_mid_idx n i : sidx s_mid (1 + n + 1) i = i + 1.
Proof. slice_arith. Qed.
Lemma s_lo_idx n i : sidx s_lo (1 + n + 1) i = i.
Proof. slice_arith. Qed.
Lemma s_hi_idx n i : sidx s_hi (1 + n + 1) i = i + 2.
Proof. slice_arith. Qed.
Lemma s_all_idx n i : sidx s_all n i = i.
Proof. slice_arith. Qed.

(** index read by cell i of an axis padded with w cells on each side *)
Definition wrap (n w i : nat) : nat := pidx n (Z.of_nat i - Z.of_nat w).

Lemma pad01_stack w rest ny nx (F : list nat -> nat -> nat -> A) :
  0 < ny -> 0 < nx ->
  pad_axes [0; 1] w (Ok (stack rest ny nx F)) =
  Ok (stack rest (w + ny + w) (w + nx + w) (fun r i j => F r (wrap ny w i) (wrap nx w j))).
Proof.
  intros Hy Hx. cbn [pad_axes]. unfold stack.
  rewrite pad_build, pad_build by (cbn; lia). cbn [upd nth].
  f_equal. apply build_ext. intros ix Hi.
  apply inb_stack in Hi as (i & j & r & -> & _). reflexivity.
Qed.

Lemma pad_last2_stack rest ny nx (F : list nat -> nat -> nat -> A) :
  0 < ny -> 0 < nx ->
  pad_last2 (Ok (stack rest ny nx F)) =
  Ok (stack rest (1 + ny + 1) (1 + nx + 1) (fun r i j => F r (wrap ny 1 i) (wrap nx 1 j))).
Proof. intros Hy Hx. exact (pad01_stack 1 rest ny nx F Hy Hx). Qed.

Lemma pad_all_grid w ny nx (f : nat -> nat -> A) :
  0 < ny -> 0 < nx ->
  pad_all w (Ok (grid ny nx f)) =
  Ok (grid (w + ny + w) (w + nx + w) (fun i j => f (wrap ny w i) (wrap nx w j))).
Proof. intros Hy Hx. exact (pad01_stack w [] ny nx (fun _ => f) Hy Hx). Qed.

Lemma lift2_stack op rest ny nx (F G : list nat -> nat -> nat -> A) :
  lift2 op (Ok (stack rest ny nx F)) (Ok (stack rest ny nx G)) =
  Ok (stack rest ny nx (fun r i j => op (F r i j) (G r i j))).
Proof. unfold stack. now rewrite lift2_build. Qed.

Lemma lift2_stack_scl op rest ny nx c (G : list nat -> nat -> nat -> A) :
  lift2 op (sc c) (Ok (stack rest ny nx G)) =
  Ok (stack rest ny nx (fun r i j => op c (G r i j))).
Proof. unfold stack. now rewrite lift2_scl. Qed.

Lemma lift2_stack_scr op rest ny nx c (F : list nat -> nat -> nat -> A) :
  lift2 op (Ok (stack rest ny nx F)) (sc c) =
  Ok (stack rest ny nx (fun r i j => op (F r i j) c)).
Proof. unfold stack. now rewrite lift2_scr. Qed.

Lemma map1_stack op rest ny nx (F : list nat -> nat -> nat -> A) :
  map1 op (Ok (stack rest ny nx F)) = Ok (stack rest ny nx (fun r i j => op (F r i j))).
Proof. unfold stack. now rewrite map1_build. Qed.

Lemma iadd_stack rest ny nx (F G : list nat -> nat -> nat -> A) :
  iadd (Ok (stack rest ny nx F)) (Ok (stack rest ny nx G)) =
  Ok (stack rest ny nx (fun r i j => nadd (F r i j) (G r i j))).
Proof. unfold stack. now rewrite iadd_build. Qed.

Lemma mean_last2_stack rest ny nx (F : list nat -> nat -> nat -> A) :
  mean_last2 (Ok (stack rest ny nx F)) =
  Ok (build rest (fun r =>
    ndiv (nsum ny (fun i => nsum nx (fun j => get (stack rest ny nx F) (j :: i :: r))))
         (nofZ (Z.of_nat (ny * nx))))).
Proof. reflexivity. Qed.

Lemma nsum_ext n (f g : nat -> A) : (forall i, i < n -> f i = g i) -> nsum n f = nsum n g.
Proof.
  induction n as [|n IH]; intros H; cbn [nsum]; [reflexivity|].
  rewrite IH, H; auto.
Qed.

Lemma mean_last2_eq rest ny nx (F : list nat -> nat -> nat -> A) :
  mean_last2 (Ok (stack rest ny nx F)) =
  Ok (build rest (fun r =>
    ndiv (nsum ny (fun i => nsum nx (fun j => F r i j))) (nofZ (Z.of_nat (ny * nx))))).
Proof.
  rewrite mean_last2_stack. f_equal. apply build_ext. intros r Hr. f_equal.
  apply nsum_ext; intros i Hi. apply nsum_ext; intros j Hj. now apply get_stack.
Qed.

Lemma mean_last2_keep_eq rest ny nx (F : list nat -> nat -> nat -> A) :
  mean_last2_keep (Ok (stack rest ny nx F)) =
  Ok (stack rest 1 1 (fun r _ _ =>
    ndiv (nsum ny (fun i => nsum nx (fun j => F r i j))) (nofZ (Z.of_nat (ny * nx))))).
Proof.
  unfold mean_last2_keep, bind. cbn [shape build stack]. f_equal. unfold stack at 2.
  apply build_ext. intros ix Hi. apply inb_stack in Hi as (i0 & j0 & r & -> & _ & _ & Hr).
  cbn [skipn]. f_equal.
  apply nsum_ext; intros i Hi. apply nsum_ext; intros j Hj. now apply get_stack.
Qed.

Lemma mean_y_keep_eq rest ny nx (F : list nat -> nat -> nat -> A) :
  mean_y_keep (Ok (stack rest ny nx F)) =
  Ok (stack rest 1 nx (fun r _ j =>
    ndiv (nsum ny (fun i => F r i j)) (nofZ (Z.of_nat ny)))).
Proof.
  unfold mean_y_keep, bind. cbn [shape build stack]. f_equal. unfold stack at 2.
  apply build_ext. intros ix Hi. apply inb_stack in Hi as (i0 & j0 & r & -> & Hj & _ & Hr).
  cbn [skipn nth]. f_equal.
  apply nsum_ext; intros i Hi. now apply get_stack.
Qed.

(** subtracting a y-average (shape (..,1,nx)) from a stack *)
Lemma lift2_stack_y op rest ny nx (F G : list nat -> nat -> nat -> A) :
  lift2 op (Ok (stack rest ny nx F)) (Ok (stack rest 1 nx G)) =
  Ok (stack rest ny nx (fun r i j => op (F r i j) (G r 0 j))).
Proof.
  unfold lift2, bind, bc2. cbn [shape build stack bshape].
  rewrite bshape_refl. 
  assert (E : (if ny =? 1 then Some (ny :: rest) else if ny =? 1 then Some (1 :: rest)
          else if 1 =? 1 then Some (ny :: rest) else None) = Some (ny :: rest)).
  { destruct (Nat.eqb_spec ny 1); reflexivity. }
  rewrite E, Nat.eqb_refl. f_equal. unfold stack at 3. apply build_ext. intros ix Hi.
  pose proof Hi as Hi0.
  apply inb_stack in Hi as (i & j & r & -> & Hj & Hi & Hr).
  rewrite (bidx_self _ _ Hi0). cbn [bidx Nat.eqb].
  rewrite (bidx_self _ _ Hr). cbn [skipn nth].
  rewrite (get_stack rest ny nx F r i j Hr Hi Hj).
  replace (if nx =? 1 then 0 else j) with j by (destruct (Nat.eqb_spec nx 1); lia).
  now rewrite (get_stack rest 1 nx G r 0 j) by (auto; lia).
Qed.

Lemma lift2_stack_11 op rest ny nx (F G : list nat -> nat -> nat -> A) :
  lift2 op (Ok (stack rest ny nx F)) (Ok (stack rest 1 1 G)) =
  Ok (stack rest ny nx (fun r i j => op (F r i j) (G r 0 0))).
Proof.
  unfold lift2, bind, bc2. cbn [shape build stack bshape].
  rewrite bshape_refl.
  assert (E : forall n u, (if n =? 1 then Some (n :: u) else if n =? 1 then Some (1 :: u)
          else if 1 =? 1 then Some (n :: u) else None) = Some (n :: u)).
  { intros n u; destruct (Nat.eqb_spec n 1); reflexivity. }
  rewrite !E. f_equal. unfold stack at 3. apply build_ext. intros ix Hi.
  pose proof Hi as Hi0.
  apply inb_stack in Hi as (i & j & r & -> & Hj & Hi & Hr).
  rewrite (bidx_self _ _ Hi0). cbn [bidx Nat.eqb].
  rewrite (bidx_self _ _ Hr). cbn [skipn nth].
  rewrite (get_stack rest ny nx F r i j Hr Hi Hj).
  now rewrite (get_stack rest 1 1 G r 0 0) by (auto; lia).
Qed.

Lemma lift2_grid op ny nx (f g : nat -> nat -> A) :
  lift2 op (Ok (grid ny nx f)) (Ok (grid ny nx g)) = Ok (grid ny nx (fun i j => op (f i j) (g i j))).
Proof. exact (lift2_stack op [] ny nx (fun _ => f) (fun _ => g)). Qed.

Lemma lift2_grid_scl op ny nx c (g : nat -> nat -> A) :
  lift2 op (sc c) (Ok (grid ny nx g)) = Ok (grid ny nx (fun i j => op c (g i j))).
Proof. exact (lift2_stack_scl op [] ny nx c (fun _ => g)). Qed.

Lemma lift2_grid_scr op ny nx c (f : nat -> nat -> A) :
  lift2 op (Ok (grid ny nx f)) (sc c) = Ok (grid ny nx (fun i j => op (f i j) c)).
Proof. exact (lift2_stack_scr op [] ny nx c (fun _ => f)). Qed.

Lemma map1_grid op ny nx (f : nat -> nat -> A) :
  map1 op (Ok (grid ny nx f)) = Ok (grid ny nx (fun i j => op (f i j))).
Proof. exact (map1_stack op [] ny nx (fun _ => f)). Qed.

Lemma iadd_grid ny nx (f g : nat -> nat -> A) :
  iadd (Ok (grid ny nx f)) (Ok (grid ny nx g)) = Ok (grid ny nx (fun i j => nadd (f i j) (g i j))).
Proof. exact (iadd_stack [] ny nx (fun _ => f) (fun _ => g)). Qed.

Lemma stack_grid ny nx (f : nat -> nat -> A) : stack [] ny nx (fun _ => f) = grid ny nx f.
Proof. reflexivity. Qed.

End Stack.
