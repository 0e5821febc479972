(** Pair means and strided slices, for arrays of every rank. *)
From Coq Require Import List Arith ZArith Reals Lra Lia Bool.
From Verif Require Import Num NdArray NdFacts Spec SumFacts ModelDownsample SpecDownsample DsFacts.
Import ListNotations.

Section G.
Context {A : Type} {NA : Num A}.

Lemma nth_mid {B} (p q : list B) d x : nth (length p) (p ++ x :: q) d = x.
Proof. rewrite app_nth2, Nat.sub_diag by lia. reflexivity. Qed.
Lemma upd_mid (p q : list nat) f x : upd (length p) f (p ++ x :: q) = p ++ f x :: q.
Proof. induction p as [|y p IH]; cbn; [reflexivity|]. now rewrite IH. Qed.
Lemma upd_mid_n n (p q : list nat) f x : length p = n -> upd n f (p ++ x :: q) = p ++ f x :: q.
Proof. intros <-. apply upd_mid. Qed.

Fixpoint iterp (j : nat) (f : list nat -> A) : list nat -> A :=
  match j with O => f | S j' => iterp j' (pairs j' f) end.

Lemma mean_loop_even pre post (f : list nat -> A) rank : rank = length pre + length post ->
  mean_ds_loop rank (seq (rank - length pre) (length pre)) (build (map (Nat.mul 2) pre ++ post) f)
  = Ok (build (pre ++ post) (iterp (length pre) f)).
Proof.
  revert post f. induction pre as [|d p IH] using rev_ind; intros post f E.
  - reflexivity.
  - rewrite app_length in *. cbn [length] in *. rewrite Nat.add_1_r in *. cbn [seq].
    assert (P : rank - 1 - (rank - S (length p)) = length p) by lia.
    replace (map (Nat.mul 2) (p ++ [d]) ++ post) with (map (Nat.mul 2) p ++ (2 * d) :: post)
      by (rewrite map_app, <- app_assoc; reflexivity).
    rewrite (mean_step rank _ _ _ f d); rewrite P.
    + rewrite (upd_mid_n (length p)) by apply map_length.
      replace (S (rank - S (length p))) with (rank - length p) by lia.
      rewrite IH by (cbn [length]; lia). rewrite <- app_assoc. reflexivity.
    + rewrite <- (map_length (Nat.mul 2) p). apply nth_mid.
    + rewrite app_length, map_length. cbn. lia.
Qed.

Lemma mean_even ms n0 (f : list nat -> A) :
  mean_downsample2x (Ok (build (map (Nat.mul 2) ms ++ [n0]) f)) = Ok (build (ms ++ [n0]) (iterp (length ms) f)).
Proof.
  unfold mean_downsample2x. cbn [bind shape build]. rewrite app_length, map_length. cbn [length].
  pose proof (mean_loop_even ms [n0] f (length ms + 1) eq_refl) as M.
  replace (length ms + 1 - length ms) with 1 in M by lia. replace (length ms + 1 - 1) with (length ms) by lia. exact M.
Qed.

(** three axes, entry by entry *)
Definition quad (F : list nat -> nat -> nat -> A) (r : list nat) (i j : nat) : A :=
  let p j := ndiv (nadd (F r (2 * i) j) (F r (2 * i + 1) j)) (nofZ 2) in
  ndiv (nadd (p (2 * j)) (p (2 * j + 1))) (nofZ 2).
Lemma mean_stack nt a b (F : list nat -> nat -> nat -> A) :
  mean_downsample2x (Ok (stack [nt] (2 * a) (2 * b) F)) = Ok (stack [nt] a b (quad F)).
Proof.
  unfold stack. pose proof (mean_even [b; a] nt (fun ix => F (skipn 2 ix) (nth 1 ix 0) (nth 0 ix 0))) as M.
  cbn [map app length] in M. rewrite M. f_equal. apply build_ext. intros ix Hi.
  inversion Hi as [|x0 d0 ix1 s1 H0 Hi1]; subst. inversion Hi1 as [|x1 d1 ix2 s2 H1 Hi2]; subst.
  cbn [iterp]. unfold pairs, quad. cbn [upd skipn nth]. reflexivity.
Qed.
Lemma mean_two_axes a b (f : nat -> nat -> A) :
  mean_downsample2x (Ok (grid a (2 * b) f))
  = Ok (grid a b (fun i j => ndiv (nadd (f i (2 * j)) (f i (2 * j + 1))) (nofZ 2))).
Proof.
  unfold grid, stack. pose proof (mean_even [b] a (fun ix => f (nth 1 ix 0) (nth 0 ix 0))) as M.
  cbn [map app length] in M. rewrite M. f_equal. apply build_ext. intros ix Hi.
  inversion Hi as [|x0 d0 ix1 s1 H0 Hi1]; subst. inversion Hi1 as [|x1 d1 ix2 s2 H1 Hi2]; subst.
  cbn [iterp]. unfold pairs. cbn [upd skipn nth]. reflexivity.
Qed.
Lemma mean_odd_y nt m nx (F : list nat -> nat -> nat -> A) : 2 <= m ->
  mean_downsample2x (Ok (stack [nt] (2 * m + 1) nx F)) = Exn ValueError.
Proof.
  intros M. unfold mean_downsample2x, stack. cbn [bind shape build length].
  change (3 - 1) with 2. change (seq 1 2) with [1; 2]. cbn [mean_ds_loop]. change (3 - 1 - 1) with 1.
  unfold dim. cbn [shape build nth]. destruct (Nat.eqb_spec (2 * m + 1) 1); [lia|].
  match goal with |- context [slice_pos 1 s_evens ?x] => change x with (build [nx; 2 * m + 1; nt] (fun ix : list nat => F (skipn 2 ix) (nth 1 ix 0) (nth 0 ix 0))) end.
  rewrite (pair_step_odd 1 _ _ m); cbn; auto; lia.
Qed.
Lemma mean_odd_x nt a m (F : list nat -> nat -> nat -> A) : 2 <= m ->
  mean_downsample2x (Ok (stack [nt] (2 * a) (2 * m + 1) F)) = Exn ValueError.
Proof.
  intros M. unfold mean_downsample2x, stack. cbn [bind shape build length].
  change (3 - 1) with 2. change (seq 1 2) with [1; 2].
  change (mkArr [2 * m + 1; 2 * a; nt] ?d) with (mkArr [2 * m + 1; 2 * a; nt] d).
  match goal with |- context [mean_ds_loop 3 _ ?x] => change x with (build [2 * m + 1; 2 * a; nt] (fun ix : list nat => F (skipn 2 ix) (nth 1 ix 0) (nth 0 ix 0))) end.
  rewrite (mean_step 3 1 [2] _ _ a) by (cbn; lia). cbn [mean_ds_loop]. change (3 - 1 - 2) with 0. change (3 - 1 - 1) with 1.
  unfold dim. cbn [shape build nth upd]. destruct (Nat.eqb_spec (2 * m + 1) 1); [lia|].
  match goal with |- context [slice_pos 0 s_evens ?x] => change x with (build [2 * m + 1; a; nt] (pairs 1 (fun ix : list nat => F (skipn 2 ix) (nth 1 ix 0) (nth 0 ix 0)))) end.
  rewrite (pair_step_odd 0 _ _ m); cbn; auto; lia.
Qed.
(** the loop stops at an axis of one entry: nothing happens to x then *)
Lemma mean_one_y nt nx (F : list nat -> nat -> nat -> A) :
  mean_downsample2x (Ok (stack [nt] 1 nx F)) = Ok (stack [nt] 1 nx F).
Proof. reflexivity. Qed.

(** *** strided slices *)
Lemma step_len s n : 1 <= s -> ps_len (PS None None s) n = ceil_div n s.
Proof.
  intros S. unfold ps_len, ps_stop, ps_start, clip, ceil_div; cbn [ps_lo ps_hi ps_step].
  destruct (Z.ltb_spec (Z.of_nat n) 0); [lia|]. change (0 <? 0)%Z with false. cbv iota.
  rewrite Z.min_id, Z.max_r, Nat2Z.id by lia. rewrite Z.min_r, Z.max_id by lia. cbn [Z.to_nat]. f_equal. lia.
Qed.
Lemma step_start s n : ps_start (PS None None s) n = 0.
Proof. unfold ps_start, clip; cbn [ps_lo]. change (0 <? 0)%Z with false. cbv iota. lia. Qed.
Lemma ceil_div_lt n s i : 1 <= s -> i < ceil_div n s -> s * i < n.
Proof.
  unfold ceil_div. intros S L. pose proof (Nat.div_mod_eq (n + (s - 1)) s).
  assert ((n + (s - 1)) mod s < s) by (apply Nat.mod_upper_bound; lia). nia.
Qed.
Lemma ceil_div_ge n s i : 1 <= s -> s * i < n -> i < ceil_div n s.
Proof. unfold ceil_div. intros S L. apply Nat.div_le_lower_bound; [lia|]. nia. Qed.

Lemma slice_step_build k s (m : nat) (f : list nat -> A) : 1 <= m -> k < length s ->
  slice_step k (Z.of_nat m) (build s f)
  = build (upd k (fun n => ceil_div n m) s) (fun ix => f (upd k (fun i => m * i) ix)).
Proof.
  intros M L. unfold slice_step. destruct (Z.ltb_spec 0 (Z.of_nat m)); [|lia]. rewrite Nat2Z.id.
  unfold slice_pos. cbn [shape build].
  rewrite (upd_ext_at k (ps_len _) (fun n => ceil_div n m) s L) by (now rewrite step_len).
  apply build_ext. intros ix Hi. unfold dim. cbn [shape build]. rewrite step_start.
  rewrite (upd_ext_at k _ (fun i => m * i) ix); cbn [ps_step].
  - apply get_build. apply (inb_lt_upd s ix k _ _ Hi). intros _ i. apply ceil_div_lt. exact M.
  - rewrite (inb_length _ _ Hi), length_upd. exact L.
  - lia.
Qed.
Lemma skip_stack nt ny nx (F : list nat -> nat -> nat -> A) m : 1 <= m ->
  skip_downsampleNx (Ok (stack [nt] ny nx F)) (Z.of_nat m)
  = Ok (stack [nt] (ceil_div ny m) (ceil_div nx m) (fun r i j => F r (m * i) (m * j))).
Proof.
  intros M. unfold skip_downsampleNx, stack. cbn [bind shape build length Nat.eqb].
  destruct (Z.eqb_spec (Z.of_nat m) 0); [lia|]. cbn [andb]. change (seq 0 (3 - 1)) with [0; 1]. cbn [fold_left].
  match goal with |- context [slice_step 0 _ ?x] => change x with (build [nx; ny; nt] (fun ix : list nat => F (skipn 2 ix) (nth 1 ix 0) (nth 0 ix 0))) end.
  rewrite slice_step_build by (cbn; lia). cbn [upd]. rewrite slice_step_build by (cbn; lia). cbn [upd].
  f_equal. apply build_ext. intros ix Hi.
  inversion Hi as [|x0 d0 ix1 s1 H0 Hi1]; subst. inversion Hi1 as [|x1 d1 ix2 s2 H1 Hi2]; subst. reflexivity.
Qed.
Lemma skip_zero nt ny nx (F : list nat -> nat -> nat -> A) :
  skip_downsampleNx (Ok (stack [nt] ny nx F)) 0 = Exn ValueError.
Proof. reflexivity. Qed.
(** a negative factor mirrors the frame as well *)
Lemma skip_negative_one nt ny nx (F : list nat -> nat -> nat -> A) :
  skip_downsampleNx (Ok (stack [nt] ny nx F)) (-1)
  = Ok (stack [nt] ny nx (fun r i j => F r (ny - 1 - i) (nx - 1 - j))).
Proof.
  unfold skip_downsampleNx, stack. cbn [bind shape build length Nat.eqb].
  change (-1 =? 0)%Z with false. cbn [andb]. change (seq 0 (3 - 1)) with [0; 1]. cbn [fold_left].
  match goal with |- context [slice_step 0 _ ?x] => change x with (build [nx; ny; nt] (fun ix : list nat => F (skipn 2 ix) (nth 1 ix 0) (nth 0 ix 0))) end.
  f_equal. unfold slice_step at 2. change (0 <? -1)%Z with false. cbv iota. change (Z.to_nat (- -1)) with 1.
  unfold dim. cbn [shape build nth upd]. rewrite Nat.div_1_r, Nat.add_0_r.
  match goal with |- slice_step 1 _ (build ?s ?g) = _ => assert (E : build s g = build s (fun ix => F (skipn 2 ix) (nth 1 ix 0) (nx - 1 - nth 0 ix 0))) end.
  { apply build_ext. intros ix Hi. inversion Hi as [|x0 d0 ix1 s1 H0 Hi1]; subst. inversion Hi1 as [|x1 d1 ix2 s2 H1 Hi2]; subst.
    cbn [upd nth skipn]. rewrite get_build; [cbn [nth skipn]; do 2 f_equal; lia|]. constructor; [lia|]. now constructor. }
  rewrite E. unfold slice_step. change (0 <? -1)%Z with false. cbv iota. change (Z.to_nat (- -1)) with 1.
  unfold dim. cbn [shape build nth upd]. rewrite Nat.div_1_r, Nat.add_0_r.
  apply build_ext. intros ix Hi. inversion Hi as [|x0 d0 ix1 s1 H0 Hi1]; subst. inversion Hi1 as [|x1 d1 ix2 s2 H1 Hi2]; subst.
  cbn [upd nth skipn].
  match goal with |- get ?x _ = _ => change x with (build [nx; ny; nt] (fun ix : list nat => F (skipn 2 ix) (nth 1 ix 0) (nx - 1 - nth 0 ix 0))) end.
  rewrite get_build; [cbn [nth skipn]; f_equal; lia|]. constructor; [lia|]. constructor; [lia|assumption].
Qed.

(** *** the median variant *)
Lemma differing_refl s : differing_axes s s = [].
Proof.
  unfold differing_axes. induction (seq 0 (length s)) as [|i l IH]; [reflexivity|]. cbn [filter].
  rewrite Nat.eqb_refl. exact IH.
Qed.
Lemma median_identity (median : nat -> arr A -> nd A) a m : shape a <> [] ->
  median_downsampleNx median (Ok a) m = Ok a.
Proof.
  intros N. unfold median_downsampleNx. cbn [bind]. destruct (rev (shape a)) as [|d ds] eqn:E.
  - exfalso. apply N. rewrite <- (rev_involutive (shape a)), E. reflexivity.
  - rewrite differing_refl. cbn [fold_left snd]. rewrite <- E, rev_involutive. destruct a. reflexivity.
Qed.
End G.

Local Open Scope R_scope.
Lemma isum_ext s f g : (forall ix, length ix = length s -> f ix = g ix) -> isum s f = isum s g.
Proof.
  revert f g. induction s as [|d s IH]; intros f g E; cbn [isum]; [apply E; reflexivity|].
  apply rsum_ext. intros i _. apply IH. intros ix L. apply E. cbn. now rewrite L.
Qed.
Lemma isum_scal s c f : isum s (fun ix => f ix * c) = isum s f * c.
Proof.
  revert f. induction s as [|d s IH]; intros f; cbn [isum]; [reflexivity|].
  rewrite <- rsum_scal_r. apply rsum_ext. intros i _. apply (IH (fun ix => f (i :: ix))).
Qed.
Lemma isum_add s f g : isum s (fun ix => f ix + g ix) = isum s f + isum s g.
Proof.
  revert f g. induction s as [|d s IH]; intros f g; cbn [isum]; [reflexivity|].
  rewrite <- rsum_add. apply rsum_ext. intros i _. apply (IH (fun ix => f (i :: ix)) (fun ix => g (i :: ix))).
Qed.
Lemma isum_snoc s d f : isum (s ++ [d]) f = rsum d (fun i => isum s (fun ix => f (ix ++ [i])%list)).
Proof.
  revert f. induction s as [|e s IH]; intros f; cbn [isum app]; [reflexivity|].
  rewrite rsum_swap. apply rsum_ext. intros i _. rewrite IH. reflexivity.
Qed.
Lemma rsum_pairs m f : rsum (2 * m) f = rsum m (fun i => f (2 * i)%nat + f (2 * i + 1)%nat).
Proof.
  induction m as [|m IH]; [reflexivity|]. replace (2 * S m)%nat with (S (S (2 * m))) by lia. cbn [rsum]. rewrite IH.
  replace (2 * m + 1)%nat with (S (2 * m)) by lia. lra.
Qed.
Lemma iterp_isum pre (f : list nat -> R) q :
  isum pre (fun ix => iterp (length pre) f (ix ++ q)) = isum (map (Nat.mul 2) pre) (fun ix => f (ix ++ q)%list) / 2 ^ length pre.
Proof.
  revert f q. induction pre as [|d p IH] using rev_ind; intros f q.
  - cbn. lra.
  - rewrite app_length, map_app. cbn [length map]. rewrite Nat.add_1_r. rewrite !isum_snoc. cbn [iterp].
    rewrite rsum_pairs. unfold Rdiv. rewrite <- rsum_scal_r. apply rsum_ext. intros i _.
    rewrite (isum_ext p _ (fun ix => iterp (length p) (pairs (length p) f) (ix ++ (i :: q)))) by (intros; rewrite <- app_assoc; reflexivity).
    rewrite IH.
    rewrite (isum_ext (map (Nat.mul 2) p) (fun ix => f ((ix ++ [(2 * i)%nat]) ++ q)%list) (fun ix => f (ix ++ (2 * i)%nat :: q)%list)) by (intros; rewrite <- app_assoc; reflexivity).
    rewrite (isum_ext (map (Nat.mul 2) p) (fun ix => f ((ix ++ [(2 * i + 1)%nat]) ++ q)%list) (fun ix => f (ix ++ (2 * i + 1)%nat :: q)%list)) by (intros; rewrite <- app_assoc; reflexivity).
    rewrite (isum_ext _ (fun ix => pairs (length p) f (ix ++ i :: q)%list) (fun ix => (f (ix ++ (2 * i)%nat :: q)%list + f (ix ++ (2 * i + 1)%nat :: q)%list) * / 2)).
    + rewrite isum_scal, isum_add. cbn [pow]. field. apply pow_nonzero. lra.
    + intros ix L. rewrite map_length in L. unfold pairs. cbn [ndiv nadd nofZ NumR]. rewrite !(upd_mid_n (length p)) by exact L. reflexivity.
Qed.
Lemma size_double ms : INR (fold_right Nat.mul 1%nat (map (Nat.mul 2) ms)) = 2 ^ length ms * INR (fold_right Nat.mul 1%nat ms).
Proof.
  induction ms as [|m ms IH]; [cbn; lra|]. cbn [map fold_right length pow]. rewrite !mult_INR, IH. cbn [INR]. lra.
Qed.
Lemma mean_preserved ms n0 (f : list nat -> R) :
  exists g, mean_downsample2x (Ok (build (map (Nat.mul 2) ms ++ [n0]) f)) = Ok (build (ms ++ [n0]) g)
  /\ forall t, (t < n0)%nat -> imean ms (fun ix => g (ix ++ [t])%list) = imean (map (Nat.mul 2) ms) (fun ix => f (ix ++ [t])%list).
Proof.
  exists (iterp (length ms) f). split; [apply mean_even|]. intros t _. unfold imean. rewrite iterp_isum, size_double.
  destruct (Req_dec (INR (fold_right Nat.mul 1%nat ms)) 0) as [E|E].
  - apply (INR_eq _ 0) in E. rewrite E. cbn [INR]. rewrite Rmult_0_r. unfold Rdiv.
    assert (Z : forall s f, fold_right Nat.mul 1%nat s = 0%nat -> isum s f = 0).
    { clear. induction s as [|d s IH]; intros f E; [discriminate|]. cbn [fold_right] in E. cbn [isum].
      destruct d as [|d]; [reflexivity|]. rewrite <- (rsum_zero (S d)). apply rsum_ext. intros i _. apply IH. nia. }
    rewrite Z; [lra|]. apply INR_eq. rewrite size_double, E. cbn [INR]. lra.
  - field. split; [exact E|apply pow_nonzero; lra].
Qed.
Lemma quad_mean a b (F : list nat -> nat -> nat -> R) r : gmean a b (quad F r) = gmean (2 * a) (2 * b) (F r).
Proof.
  unfold gmean, gsum. rewrite rsum_pairs, !mult_INR. cbn [INR].
  replace (rsum a (fun i => rsum b (quad F r i)))
    with (rsum a (fun i => rsum (2 * b) (fun j => F r (2 * i)%nat j) + rsum (2 * b) (fun j => F r (2 * i + 1)%nat j)) * / 4).
  2:{ rewrite <- rsum_scal_r. apply rsum_ext. intros i _. rewrite <- rsum_add, rsum_pairs, <- rsum_scal_r. apply rsum_ext. intros j _.
      unfold quad. cbn [ndiv nadd nofZ NumR]. field. }
  destruct a as [|a]; [cbn [rsum INR]; unfold Rdiv; lra|].
  destruct b as [|b].
  { replace (2 * 0)%nat with 0%nat by lia. cbn [rsum]. rewrite !(rsum_ext _ _ (fun _ => 0)) by (intros; lra). rewrite rsum_zero. unfold Rdiv. lra. }
  match goal with |- ?s * _ / _ = _ => generalize s end. intro s. assert (INR (S a) <> 0) by (apply not_0_INR; lia). assert (INR (S b) <> 0) by (apply not_0_INR; lia).
  field. split; assumption.
Qed.
(** an axis of three entries is accepted, but its mean changes *)
Lemma mean_three {A} {NA : Num A} (F : list nat -> nat -> nat -> A) :
  mean_downsample2x (Ok (stack [1%nat] 3 2 F)) = Ok (stack [1%nat] 2 1 (fun r i j =>
    let p j := ndiv (nadd (F r (2 * i)%nat j) (F r 1%nat j)) (nofZ 2) in
    ndiv (nadd (p (2 * j)%nat) (p (2 * j + 1)%nat)) (nofZ 2))).
Proof. vm_compute. reflexivity. Qed.
Lemma mean_three_refuted : exists F G : list nat -> nat -> nat -> R,
  mean_downsample2x (Ok (stack [1%nat] 3 2 F)) = Ok (stack [1%nat] 2 1 G) /\ gmean 2 1 (G [0%nat]) <> gmean 3 2 (F [0%nat]).
Proof.
  exists (fun _ i _ => if (i =? 1)%nat then 1 else 0). eexists. split; [apply mean_three|].
  unfold gmean, gsum. cbn. lra.
Qed.
