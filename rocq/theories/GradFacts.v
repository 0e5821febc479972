(** The gradient models compute the periodic stencils of [Spec], for every
    arithmetic. *)
From Coq Require Import List Arith ZArith Lia Bool.
From Verif Require Import Num NdArray NdFacts ModelGradients Spec.
Import ListNotations.
Ltac Zify.zify_post_hook ::= Z.div_mod_to_equations.

Lemma wrap1_0 n i : wrap n 1 i = sh n i (-1).
Proof. unfold wrap, sh. f_equal. Qed.
Lemma wrap1_1 n i : i < n -> wrap n 1 (i + 1) = i.
Proof. intros H. unfold wrap. replace (Z.of_nat (i + 1) - Z.of_nat 1)%Z with (Z.of_nat i) by lia. now apply pidx_small. Qed.
Lemma wrap1_2 n i : wrap n 1 (i + 2) = sh n i 1.
Proof. unfold wrap, sh. f_equal. lia. Qed.
Lemma sh_lt n i k : 0 < n -> sh n i k < n.
Proof. intros; now apply pidx_lt. Qed.
Lemma sh_0 n i : i < n -> sh n i 0 = i.
Proof. intros; unfold sh. rewrite Z.add_0_r. now apply pidx_small. Qed.
Lemma sh_sh n i a b : 0 < n -> sh n (sh n i a) b = sh n i (a + b).
Proof. intros; unfold sh. rewrite pidx_add by assumption. f_equal; lia. Qed.

Section G.
Context {A : Type} {N : Num A}.
Implicit Types F : list nat -> nat -> nat -> A.
Implicit Types f : nat -> nat -> A.

(** laplace applied to anything padded by one *)
Lemma np_laplace_stack rest ny nx dx F :
  np_laplace (Ok (stack rest (1 + ny + 1) (1 + nx + 1) F)) dx =
  Ok (stack rest ny nx (fun r i j =>
    ndiv (nadd (nadd (nsub (nadd (F r i (j + 1)) (F r (i + 1) j))
                           (nmul (nofZ 4) (F r (i + 1) (j + 1))))
                     (F r (i + 1) (j + 2)))
               (F r (i + 2) (j + 1))) (npow dx 2))).
Proof.
  unfold np_laplace, add_, sub_, mul_, div_.
  rewrite !sl2_stack by (cbn; lia).
  rewrite !s_lo_len, !s_hi_len, !s_mid_len.
  rewrite ?lift2_stack_scl, ?lift2_stack, ?lift2_stack_scr.
  rewrite ?lift2_stack, ?lift2_stack_scr.
  f_equal. apply stack_ext. intros r i j _ _ _.
  now rewrite !s_lo_idx, !s_hi_idx, !s_mid_idx.
Qed.

Lemma nb_laplace_grid ny nx dx f :
  nb_laplace (Ok (grid (1 + ny + 1) (1 + nx + 1) f)) dx =
  Ok (grid ny nx (fun i j =>
    ndiv (nadd (nadd (nsub (nadd (f i (j + 1)) (f (i + 1) j))
                           (nmul (nofZ 4) (f (i + 1) (j + 1))))
                     (f (i + 1) (j + 2)))
               (f (i + 2) (j + 1))) (npow dx 2))).
Proof. exact (np_laplace_stack [] ny nx dx (fun _ => f)). Qed.

Lemma np_pad_stack rest ny nx F : 0 < ny -> 0 < nx ->
  np_pad_by_rank (Ok (stack rest ny nx F)) =
  Ok (stack rest (1 + ny + 1) (1 + nx + 1) (fun r i j => F r (wrap ny 1 i) (wrap nx 1 j))).
Proof.
  intros Hy Hx. unfold np_pad_by_rank. cbn [bind stack build shape length].
  destruct rest as [|d rest].
  - cbn [length Nat.ltb Nat.leb].
    change (pad_all 1 (Ok (stack [] ny nx F)) = Ok (stack [] (1+ny+1) (1+nx+1) (fun r i j => F r (wrap ny 1 i) (wrap nx 1 j)))).
    exact (pad01_stack 1 [] ny nx F Hy Hx).
  - destruct (Nat.ltb_spec 2 (S (S (length (d :: rest))))) as [_|H]; [|cbn in H; lia].
    exact (pad_last2_stack (d :: rest) ny nx F Hy Hx).
Qed.

Lemma np_periodic_laplace_stack rest ny nx dx F : 0 < ny -> 0 < nx ->
  np_periodic_laplace (Ok (stack rest ny nx F)) dx =
  Ok (stack rest ny nx (fun r => lap5 ny nx dx (F r))).
Proof.
  intros Hy Hx. unfold np_periodic_laplace. rewrite np_pad_stack by assumption.
  rewrite np_laplace_stack. f_equal. apply stack_ext. intros r i j _ Hi Hj. unfold lap5.
  now rewrite !wrap1_1, !wrap1_2, !wrap1_0 by assumption.
Qed.

Lemma np_periodic_laplace_grid ny nx dx f : 0 < ny -> 0 < nx ->
  np_periodic_laplace (Ok (grid ny nx f)) dx = Ok (grid ny nx (lap5 ny nx dx f)).
Proof. intros Hy Hx. exact (np_periodic_laplace_stack [] ny nx dx (fun _ => f) Hy Hx). Qed.

Lemma nb_periodic_laplace_grid ny nx dx f : 0 < ny -> 0 < nx ->
  nb_periodic_laplace (Ok (grid ny nx f)) dx = Ok (grid ny nx (lap5 ny nx dx f)).
Proof.
  intros Hy Hx. unfold nb_periodic_laplace. rewrite pad_all_grid by assumption.
  rewrite nb_laplace_grid. f_equal. apply grid_ext. intros i j Hi Hj. unfold lap5.
  now rewrite !wrap1_1, !wrap1_2, !wrap1_0 by assumption.
Qed.

Lemma lap5_ext ny nx dx f g i j : 0 < ny -> 0 < nx -> i < ny -> j < nx ->
  (forall i j, i < ny -> j < nx -> f i j = g i j) ->
  lap5 ny nx dx f i j = lap5 ny nx dx g i j.
Proof.
  intros Hy Hx Hi Hj H; unfold lap5.
  rewrite !H by (try assumption; apply sh_lt; assumption). reflexivity.
Qed.

Lemma lap_iter_S_r m ny nx dx f : lap_iter (S m) ny nx dx f = lap_iter m ny nx dx (lap5 ny nx dx f).
Proof.
  induction m as [|m IH]; [reflexivity|].
  cbn [lap_iter] in *. now rewrite <- IH.
Qed.

Lemma loop_S_r {B} n (g : B -> B) x : loop (S n) g x = g (loop n g x).
Proof. revert x; induction n as [|n IH]; intros x; [reflexivity|]. cbn [loop] in *. now rewrite IH. Qed.

Lemma np_loop_stack rest ny nx dx n F : 0 < ny -> 0 < nx ->
  loop n (fun a => np_periodic_laplace a dx) (Ok (stack rest ny nx F)) =
  Ok (stack rest ny nx (fun r => lap_iter n ny nx dx (F r))).
Proof.
  intros Hy Hx. induction n as [|n IH]; [reflexivity|].
  rewrite loop_S_r, IH, np_periodic_laplace_stack by assumption. reflexivity.
Qed.

Lemma np_periodic_laplace_N_stack rest ny nx dx n F : 0 < ny -> 0 < nx ->
  np_periodic_laplace_N (Ok (stack rest ny nx F)) dx n =
  Ok (stack rest ny nx (fun r => lap_iter (Z.to_nat n) ny nx dx (F r))).
Proof. intros; now apply np_loop_stack. Qed.

Lemma np_periodic_laplace_N_grid ny nx dx n f : 0 < ny -> 0 < nx ->
  np_periodic_laplace_N (Ok (grid ny nx f)) dx n =
  Ok (grid ny nx (lap_iter (Z.to_nat n) ny nx dx f)).
Proof. intros Hy Hx. exact (np_periodic_laplace_N_stack [] ny nx dx n (fun _ => f) Hy Hx). Qed.

Lemma wrap_S n m i : 0 < n -> wrap n (S m) i = sh n (wrap n m i) (-1).
Proof.
  intros Hn. unfold wrap, sh. rewrite pidx_add by assumption. f_equal. lia.
Qed.
Lemma wrap_S1 n m i : wrap n (S m) (i + 1) = wrap n m i.
Proof. unfold wrap. f_equal. lia. Qed.
Lemma wrap_S2 n m i : 0 < n -> wrap n (S m) (i + 2) = sh n (wrap n m i) 1.
Proof.
  intros Hn. unfold wrap, sh. rewrite pidx_add by assumption. f_equal. lia.
Qed.
Lemma wrap_lt n m i : 0 < n -> wrap n m i < n.
Proof. intros; now apply pidx_lt. Qed.
Lemma wrap_0 n i : i < n -> wrap n 0 i = i.
Proof. intros; unfold wrap. rewrite Z.sub_0_r. now apply pidx_small. Qed.

(** one shrink step of the accelerated version *)
Lemma nb_shrink ny nx dx m f : 0 < ny -> 0 < nx ->
  nb_laplace (Ok (grid (S m + ny + S m) (S m + nx + S m) (fun i j => f (wrap ny (S m) i) (wrap nx (S m) j)))) dx =
  Ok (grid (m + ny + m) (m + nx + m) (fun i j => lap5 ny nx dx f (wrap ny m i) (wrap nx m j))).
Proof.
  intros Hy Hx.
  replace (S m + ny + S m) with (1 + (m + ny + m) + 1) by lia.
  replace (S m + nx + S m) with (1 + (m + nx + m) + 1) by lia.
  rewrite nb_laplace_grid. f_equal. apply grid_ext. intros i j Hi Hj. unfold lap5.
  now rewrite !wrap_S1, !wrap_S2, !wrap_S by assumption.
Qed.

Lemma nb_loop ny nx dx m f : 0 < ny -> 0 < nx ->
  loop m (fun a => nb_laplace a dx) (Ok (grid (m + ny + m) (m + nx + m) (fun i j => f (wrap ny m i) (wrap nx m j)))) =
  Ok (grid ny nx (lap_iter m ny nx dx f)).
Proof.
  intros Hy Hx. revert f; induction m as [|m IH]; intros f.
  - cbn [loop]. rewrite Nat.add_0_r, Nat.add_0_r. cbn [Nat.add lap_iter].
    f_equal. apply grid_ext. intros i j Hi Hj. now rewrite !wrap_0 by assumption.
  - cbn [loop]. rewrite nb_shrink by assumption. rewrite IH. f_equal.
    now rewrite lap_iter_S_r.
Qed.

Lemma nb_periodic_laplace_N_grid ny nx dx n f : 0 < ny -> 0 < nx -> (0 <= n)%Z ->
  nb_periodic_laplace_N (Ok (grid ny nx f)) dx n =
  Ok (grid ny nx (lap_iter (Z.to_nat n) ny nx dx f)).
Proof.
  intros Hy Hx Hn. unfold nb_periodic_laplace_N. cbn [bind].
  destruct (Z.ltb_spec n 0) as [H|_]; [lia|].
  rewrite pad_all_grid by assumption. unfold nb_laplace_N. now apply nb_loop.
Qed.

(** empty axes: np.pad refuses, on both paths *)
Lemma lift2_exn_l op (e : exn) (y : nd A) : lift2 op (Exn e) y = Exn e.
Proof. reflexivity. Qed.
Lemma np_laplace_exn e dx : np_laplace (@Exn (arr A) e) dx = Exn e.
Proof. reflexivity. Qed.
Lemma nb_laplace_exn e dx : nb_laplace (@Exn (arr A) e) dx = Exn e.
Proof. reflexivity. Qed.
Lemma np_loop_exn e dx n : loop n (fun a => np_periodic_laplace a dx) (@Exn (arr A) e) = Exn e.
Proof. induction n as [|n IH]; [reflexivity|]. cbn [loop]. exact IH. Qed.
Lemma nb_loop_exn e dx n : loop n (fun a => nb_laplace a dx) (@Exn (arr A) e) = Exn e.
Proof. induction n as [|n IH]; [reflexivity|]. cbn [loop]. exact IH. Qed.

Lemma pad_axes_exn ks w e : pad_axes ks w (@Exn (arr A) e) = Exn e.
Proof. induction ks as [|k ks IH]; [reflexivity|]. cbn [pad_axes]. exact IH. Qed.

Lemma pad_all_empty w ny nx f : (ny = 0 \/ nx = 0) -> 0 < w ->
  pad_all w (Ok (grid ny nx f)) = Exn ValueError.
Proof.
  intros H Hw. unfold pad_all, grid, stack. cbn [bind shape build length seq pad_axes].
  destruct (Nat.eq_dec nx 0) as [->|Hx].
  - assert (E : pad_pos 0 w w (Ok (build [0; ny] (fun ix => f (nth 1 ix 0) (nth 0 ix 0)))) = Exn ValueError).
    { unfold pad_pos, bind, dim. cbn [shape build nth Nat.eqb andb].
      destruct (Nat.eqb_spec (w + w) 0); [lia|reflexivity]. }
    rewrite E. reflexivity.
  - rewrite pad_build by (cbn; lia). cbn [upd nth].
    destruct H as [->|]; [|lia].
    unfold pad_pos, bind, dim. cbn [shape build nth Nat.eqb andb].
    destruct (Nat.eqb_spec (w + w) 0); [lia|reflexivity].
Qed.

Lemma upd_id k g l : (forall x, nth_error l k = Some x -> g x = x) -> upd k g l = l.
Proof.
  revert k; induction l as [|x l IH]; intros [|k] H; cbn [upd]; try reflexivity.
  - f_equal. now apply H.
  - f_equal. apply IH. intros y Hy. now apply H.
Qed.

Lemma pad_pos_0 k (a : arr A) : wf a -> pad_pos k 0 0 (Ok a) = Ok a.
Proof.
  intros Hw. unfold pad_pos. cbn [bind]. cbn [Nat.add Nat.eqb negb]. rewrite Bool.andb_false_r.
  f_equal. transitivity (build (shape a) (get a)); [|symmetry; now apply wf_eta].
  replace (upd k (fun d => d + 0) (shape a)) with (shape a)
    by (symmetry; apply upd_id; intros; lia).
  apply build_ext. intros ix Hi. f_equal. apply upd_id. intros x Hx.
  rewrite Z.sub_0_r. apply pidx_small. unfold dim.
  pose proof (inb_length _ _ Hi) as Hl.
  assert (Hk : k < length ix) by (apply nth_error_Some; congruence).
  pose proof (inb_nth _ _ k Hi ltac:(lia)) as Hn.
  now rewrite (nth_error_nth _ _ 0 Hx) in Hn.
Qed.

Lemma pad_all_0 (a : arr A) : wf a -> pad_all 0 (Ok a) = Ok a.
Proof.
  intros Hw. unfold pad_all. cbn [bind].
  induction (seq 0 (length (shape a))) as [|k ks IH]; [reflexivity|].
  cbn [pad_axes]. now rewrite pad_pos_0.
Qed.

(** ** C01 *)
Lemma laplace_N_agree (a : arr A) (dx : A) (n : Z) :
  wf a -> length (shape a) = 2 -> (0 <= n)%Z ->
  nb_periodic_laplace_N (Ok a) dx n = np_periodic_laplace_N (Ok a) dx n.
Proof.
  intros Hw Hl Hn. destruct (shape a) as [|nx [|ny [|? ?]]] eqn:Hs; cbn in Hl; try lia.
  destruct (Z.eq_dec n 0) as [->|Hn0].
  - unfold nb_periodic_laplace_N, np_periodic_laplace_N, nb_laplace_N. cbn [bind Z.ltb Z.compare Z.to_nat loop].
    now apply pad_all_0.
  - destruct (Nat.eq_dec ny 0) as [Hy|Hy]; [|destruct (Nat.eq_dec nx 0) as [Hx|Hx]].
    3:{ rewrite (wf_grid a nx ny Hw Hs).
        rewrite nb_periodic_laplace_N_grid, np_periodic_laplace_N_grid by lia. reflexivity. }
    all: rewrite (wf_grid a nx ny Hw Hs);
      unfold nb_periodic_laplace_N, np_periodic_laplace_N, nb_laplace_N; cbn [bind];
      (destruct (Z.ltb_spec n 0) as [|_]; [lia|]);
      rewrite pad_all_empty by lia; rewrite nb_loop_exn;
      replace (Z.to_nat n) with (S (Z.to_nat (n - 1))) by lia;
      cbn [loop];
      replace (np_periodic_laplace (Ok (grid ny nx (at2 a))) dx) with (@Exn (arr A) ValueError);
      [symmetry; apply np_loop_exn|];
      symmetry; unfold np_periodic_laplace, np_pad_by_rank; cbn [bind grid stack shape build length Nat.ltb Nat.leb];
      change (build [nx; ny] (fun ix => at2 a (nth 1 ix 0) (nth 0 ix 0))) with (grid ny nx (at2 a));
      rewrite pad_all_empty by lia; reflexivity.
Qed.

Lemma laplace_N_negative (a : arr A) (dx : A) (n : Z) : (n < 0)%Z ->
  nb_periodic_laplace_N (Ok a) dx n = Exn ValueError /\
  np_periodic_laplace_N (Ok a) dx n = Ok a.
Proof.
  intros H. unfold nb_periodic_laplace_N, np_periodic_laplace_N. cbn [bind].
  destruct (Z.ltb_spec n 0) as [_|]; [|lia]. split; [reflexivity|].
  replace (Z.to_nat n) with 0 by lia. reflexivity.
Qed.

(** ** C02 *)
Ltac grad_tac :=
  unfold add_, sub_, mul_, div_;
  rewrite !sl2_stack by (cbn; lia);
  rewrite !s_lo_len, !s_hi_len, !s_mid_len;
  rewrite ?lift2_stack_scl, ?lift2_stack, ?lift2_stack_scr;
  rewrite ?lift2_stack, ?lift2_stack_scr; cbn [bind]; f_equal; f_equal; apply stack_ext;
  intros r i j _ Hi Hj; unfold cdx, cdy;
  now rewrite ?s_lo_idx, ?s_hi_idx, ?s_mid_idx, ?wrap1_1, ?wrap1_2, ?wrap1_0 by assumption.

Lemma np_grad_m2 rest ny nx dx F : 0 < ny -> 0 < nx ->
  np_periodic_gradient (Ok (stack rest ny nx F)) dx (-2) =
  Ok (Some (stack rest ny nx (fun r => cdy ny dx (F r)))).
Proof.
  intros Hy Hx. unfold np_periodic_gradient, np_gradient. cbn [Z.ltb Z.compare Z.eqb].
  rewrite pad_last2_stack by assumption. cbn [bind Pos.eqb]. grad_tac.
Qed.

Lemma np_grad_m1 rest ny nx dx F : 0 < ny -> 0 < nx ->
  np_periodic_gradient (Ok (stack rest ny nx F)) dx (-1) =
  Ok (Some (stack rest ny nx (fun r => cdx nx dx (F r)))).
Proof.
  intros Hy Hx. unfold np_periodic_gradient, np_gradient. cbn [Z.ltb Z.compare Z.eqb].
  rewrite pad_last2_stack by assumption. cbn [bind Pos.eqb]. grad_tac.
Qed.

Lemma np_grad_pos ny nx dx f ax : 0 < ny -> 0 < nx -> (ax = 0 \/ ax = 1)%Z ->
  np_periodic_gradient (Ok (grid ny nx f)) dx ax =
  Ok (Some (grid ny nx (if (ax =? 0)%Z then cdy ny dx f else cdx nx dx f))).
Proof.
  intros Hy Hx H. unfold np_periodic_gradient.
  replace (ax <? 0)%Z with false by (symmetry; apply Z.ltb_ge; lia).
  rewrite pad_all_grid by assumption. cbn [bind]. unfold np_gradient.
  destruct H as [-> | ->]; cbn [Z.eqb Pos.eqb].
  - change (slf2 s_hi s_mid) with (@slf2 A N s_hi s_mid). 
    change (@slf2 A N s_hi s_mid) with (fun x => @slf2 A N s_hi s_mid x).
    unfold add_, sub_, mul_, div_. rewrite !slf2_grid by (cbn; lia).
    rewrite !s_lo_len, !s_hi_len, !s_mid_len. unfold grid.
    rewrite lift2_stack, lift2_stack_scr. cbn [bind]. do 2 f_equal. apply stack_ext.
    intros r i j _ Hi Hj; unfold cdy.
    now rewrite ?s_lo_idx, ?s_hi_idx, ?s_mid_idx, ?wrap1_1, ?wrap1_2, ?wrap1_0 by assumption.
  - unfold add_, sub_, mul_, div_. rewrite !slf2_grid by (cbn; lia).
    rewrite !s_lo_len, !s_hi_len, !s_mid_len. unfold grid.
    rewrite lift2_stack, lift2_stack_scr. cbn [bind]. do 2 f_equal. apply stack_ext.
    intros r i j _ Hi Hj; unfold cdx.
    now rewrite ?s_lo_idx, ?s_hi_idx, ?s_mid_idx, ?wrap1_1, ?wrap1_2, ?wrap1_0 by assumption.
Qed.

Lemma nb_np_grad (a : arr A) dx ax : (ax = 0 \/ ax = 1)%Z ->
  nb_periodic_gradient (Ok a) dx ax = np_periodic_gradient (Ok a) dx ax.
Proof.
  intros H. unfold nb_periodic_gradient, np_periodic_gradient.
  destruct H as [-> | ->]; reflexivity.
Qed.

Lemma pad_last2_2d (a : arr A) : length (shape a) = 2 -> pad_last2 (Ok a) = pad_all 1 (Ok a).
Proof.
  intros H. unfold pad_last2, pad_all. cbn [bind]. rewrite H. reflexivity.
Qed.

Lemma sl_slf (x : arr A) sy sx : length (shape x) = 2 -> sl2 sy sx (Ok x) = slf2 sy sx (Ok x).
Proof. intros H. unfold sl2, slf2. cbn [bind]. rewrite H. reflexivity. Qed.

Lemma pad_pos_rank k b e (a p : arr A) : pad_pos k b e (Ok a) = Ok p -> length (shape p) = length (shape a).
Proof.
  unfold pad_pos. cbn [bind]. destruct (_ && _); [discriminate|].
  intros H. injection H as <-. cbn [shape build]. apply length_upd.
Qed.

Lemma pad_axes_rank ks w (a p : arr A) : pad_axes ks w (Ok a) = Ok p -> length (shape p) = length (shape a).
Proof.
  revert a; induction ks as [|k ks IH]; intros a; cbn [pad_axes]; [intros H; injection H as <-; reflexivity|].
  destruct (pad_pos k w w (Ok a)) as [q|e] eqn:E.
  - intros H. rewrite (IH _ H). now apply (pad_pos_rank k w w).
  - rewrite pad_axes_exn. discriminate.
Qed.

Lemma np_grad_negative_axes (a : arr A) dx : length (shape a) = 2 ->
  np_periodic_gradient (Ok a) dx (-2) = np_periodic_gradient (Ok a) dx 0 /\
  np_periodic_gradient (Ok a) dx (-1) = np_periodic_gradient (Ok a) dx 1.
Proof.
  intros H. unfold np_periodic_gradient. cbn [Z.ltb Z.compare].
  rewrite (pad_last2_2d _ H).
  destruct (pad_all 1 (Ok a)) as [p|e] eqn:E; [|split; reflexivity].
  cbn [bind]. unfold np_gradient. cbn [Z.eqb Pos.eqb].
  assert (Hp : length (shape p) = 2).
  { unfold pad_all in E. cbn [bind] in E. rewrite (pad_axes_rank _ _ _ _ E). exact H. }
  rewrite !sl_slf by exact Hp. split; reflexivity.
Qed.

Lemma np_grad_other_axis (a : arr A) dx ax :
  wf a -> shape a <> [] -> Forall (fun d => 0 < d) (shape a) -> length (shape a) = 2 ->
  (2 <= ax \/ ax <= -3)%Z ->
  np_periodic_gradient (Ok a) dx ax = Ok None.
Proof.
  intros Hw _ Hpos Hl H.
  destruct (shape a) as [|nx [|ny [|? ?]]] eqn:Hs; cbn in Hl; try lia.
  inversion Hpos as [|? ? Hx Hpos']; subst. inversion Hpos' as [|? ? Hy _]; subst.
  unfold np_periodic_gradient. rewrite pad_last2_2d by now rewrite Hs.
  replace (if (ax <? 0)%Z then pad_all 1 (Ok a) else pad_all 1 (Ok a)) with (pad_all 1 (Ok a))
    by (destruct (ax <? 0)%Z; reflexivity).
  rewrite (wf_grid a nx ny Hw Hs). rewrite pad_all_grid by assumption. cbn [bind].
  unfold np_gradient.
  destruct (Z.eqb_spec ax 0); [lia|]. destruct (Z.eqb_spec ax 1); [lia|].
  destruct (Z.eqb_spec ax (-2)); [lia|]. destruct (Z.eqb_spec ax (-1)); [lia|]. reflexivity.
Qed.

Lemma nb_grad_other_axis (a : arr A) dx ax :
  wf a -> Forall (fun d => 0 < d) (shape a) -> length (shape a) = 2 ->
  (ax <> 0 /\ ax <> 1)%Z ->
  nb_periodic_gradient (Ok a) dx ax = Ok None.
Proof.
  intros Hw Hpos Hl H.
  destruct (shape a) as [|nx [|ny [|? ?]]] eqn:Hs; cbn in Hl; try lia.
  inversion Hpos as [|? ? Hx Hpos']; subst. inversion Hpos' as [|? ? Hy _]; subst.
  unfold nb_periodic_gradient.
  rewrite (wf_grid a nx ny Hw Hs). rewrite pad_all_grid by assumption. cbn [bind].
  unfold nb_gradient.
  destruct (Z.eqb_spec ax 0); [lia|]. destruct (Z.eqb_spec ax 1); [lia|]. reflexivity.
Qed.

End G.
