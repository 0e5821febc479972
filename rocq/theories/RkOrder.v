(** Accuracy of rk4_step and euler_step (C20). *)
From Coq Require Import List Arith ZArith Lia Bool Reals Lra Psatz String FunctionalExtensionality Permutation.
From Verif Require Import Num NdArray NdFacts ModelGradients Spec GradFacts SumFacts LapFacts GradProps
  ModelArakawa ArakawaFacts Cplx DftFacts SpecFourier ModelPoisson PoissonFacts PoissonProps
  ModelProperties ModelHW ModelBackend SpecHW SpecPlasma HWFacts StepFacts RhsFacts SymFacts HWProps OdeFacts.
Import ListNotations.
Local Open Scope R_scope.

(** *** linear maps on a finite index set are bounded *)
Section Bd.
Variables (J : Type) (ix : list J) (dec : forall a b : J, {a = b} + {a <> b}).
Hypothesis Hnd : NoDup ix.
Notation V := (J -> R).
Local Notation nrm := (nrm J ix).
Definition unit_v (j : J) : V := fun k => if dec j k then 1 else 0.
Fixpoint proj (l : list J) (u : V) : V :=
  match l with [] => vzero J | j :: l' => vadd J (vscale J (u j) (unit_v j)) (proj l' u) end.
Lemma proj_out l u k : ~ In k l -> proj l u k = 0.
Proof.
  induction l as [|j l IH]; cbn; [reflexivity|]. intros H. unfold vadd, vscale, unit_v.
  destruct (dec j k) as [->|]; [tauto|]. rewrite IH by tauto. ring.
Qed.
Lemma proj_in l u k : NoDup l -> In k l -> proj l u k = u k.
Proof.
  induction l as [|j l IH]; cbn; [tauto|]. intros Hn. inversion Hn; subst. unfold vadd, vscale, unit_v.
  destruct (dec j k) as [->|Hne].
  - intros _. rewrite proj_out by assumption. ring.
  - intros [->|H]; [congruence|]. rewrite IH by assumption. ring.
Qed.
Definition rsum_l (f : J -> R) (l : list J) : R := fold_right (fun j s => f j + s) 0 l.
Lemma rsum_l_pos f l : (forall j, 0 <= f j) -> 0 <= rsum_l f l.
Proof. intros H. unfold rsum_l. induction l as [|j l IH]; cbn; [lra|]. pose proof (H j). lra. Qed.
Variable A : V -> V.
Hypothesis A_add : forall u v, A (vadd J u v) = vadd J (A u) (A v).
Hypothesis A_scale : forall c u, A (vscale J c u) = vscale J c (A u).
Hypothesis A_ext : forall u v, (forall j, In j ix -> u j = v j) -> forall j, In j ix -> A u j = A v j.
Lemma lin_bd u : nrm (A u) <= rsum_l (fun j => nrm (A (unit_v j))) ix * nrm u.
Proof.
  rewrite (nrm_ext J ix (A u) (A (proj ix u))).
  2:{ apply A_ext. intros j Hj. now rewrite proj_in. }
  assert (G : forall l, (forall j, In j l -> In j ix) -> nrm (A (proj l u)) <= rsum_l (fun j => nrm (A (unit_v j))) l * nrm u).
  { induction l as [|j l IH]; intros Hl; cbn [proj rsum_l fold_right].
    - replace (A (vzero J)) with (vzero J); [rewrite nrm_zero; lra|].
      replace (vzero J) with (vscale J 0 (vzero J)) by (extensionality k; unfold vscale, vzero; ring).
      rewrite A_scale. extensionality k. unfold vscale. ring.
    - rewrite A_add, A_scale. eapply Rle_trans; [apply nrm_add|].
      specialize (IH (fun k Hk => Hl k (or_intror Hk))). unfold rsum_l in IH.
      pose proof (nrm_scale J ix (u j) (A (unit_v j))) as S1.
      pose proof (nrm_ub J ix u j (Hl j (or_introl eq_refl))) as U1. pose proof (nrm_pos J ix (A (unit_v j))).
      pose proof (nrm_pos J ix u). pose proof (Rabs_pos (u j)).
      assert (Rabs (u j) * nrm (A (unit_v j)) <= nrm u * nrm (A (unit_v j))) by (apply Rmult_le_compat_r; assumption). lra. }
  now apply G.
Qed.
End Bd.
Arguments rsum_l {J} f l.

Lemma bilin_bd J (ix : list J) (dec : forall a b : J, {a = b} + {a <> b}) (B : (J -> R) -> (J -> R) -> (J -> R)) : NoDup ix ->
  (forall u v w, B (vadd J u v) w = vadd J (B u w) (B v w)) ->
  (forall u v w, B w (vadd J u v) = vadd J (B w u) (B w v)) ->
  (forall c u w, B (vscale J c u) w = vscale J c (B u w)) ->
  (forall c u w, B w (vscale J c u) = vscale J c (B w u)) ->
  (forall u v u' v', (forall j, In j ix -> u j = v j) -> (forall j, In j ix -> u' j = v' j) ->
     forall j, In j ix -> B u u' j = B v v' j) ->
  exists C, 0 <= C /\ forall u v, nrm J ix (B u v) <= C * nrm J ix u * nrm J ix v.
Proof.
  intros Hnd B1 B2 B3 B4 Be.
  set (C := rsum_l (fun a => rsum_l (fun b => nrm J ix (B (unit_v J dec a) (unit_v J dec b))) ix) ix).
  exists C. split.
  { apply rsum_l_pos. intros a. apply rsum_l_pos. intros. apply nrm_pos. }
  intros u v.
  eapply Rle_trans; [apply (lin_bd J ix dec Hnd (fun u => B u v))|].
  - intros. apply B1.
  - intros. apply B3.
  - intros u1 v1 H. apply Be; auto.
  - replace (C * nrm J ix u * nrm J ix v) with ((C * nrm J ix v) * nrm J ix u) by ring.
    apply Rmult_le_compat_r; [apply nrm_pos|]. unfold C.
    assert (G : forall l, rsum_l (fun j => nrm J ix (B (unit_v J dec j) v)) l <=
      rsum_l (fun a => rsum_l (fun b => nrm J ix (B (unit_v J dec a) (unit_v J dec b))) ix) l * nrm J ix v).
    { induction l as [|a l IH]; cbn [rsum_l fold_right]; [lra|]. unfold rsum_l at 1 in IH.
      pose proof (lin_bd J ix dec Hnd (fun v => B (unit_v J dec a) v) ltac:(intros; apply B2) ltac:(intros; apply B4)
        ltac:(intros u1 v1 H; apply Be; auto) v) as L1. cbv beta in L1. unfold rsum_l in *. lra. }
    apply G.
Qed.

(** *** states as vectors *)
Notation IX := (bool * (nat * nat))%type.
Definition enc (s : state) : IX -> R := fun '(b, (i, j)) => if b then fst s i j else snd s i j.
Definition dec_ (v : IX -> R) : state := (fun i j => v (true, (i, j)), fun i j => v (false, (i, j))).
Lemma dec_enc s : dec_ (enc s) = s. Proof. now destruct s. Qed.
Lemma enc_dec v : enc (dec_ v) = v. Proof. extensionality k. destruct k as [[] [i j]]; reflexivity. Qed.
Definition IXdec (a b : IX) : {a = b} + {a <> b}.
Proof. decide equality; [decide equality; apply Nat.eq_dec|apply bool_dec]. Defined.
Definition gridix (ny nx : nat) : list IX :=
  list_prod [true; false] (list_prod (seq 0 ny) (seq 0 nx)).
Lemma in_gridix ny nx b i j : In (b, (i, j)) (gridix ny nx) <-> (i < ny)%nat /\ (j < nx)%nat.
Proof.
  unfold gridix. rewrite !in_prod_iff, !in_seq. split; [lia|]. intros H. split; [destruct b; cbn; tauto|lia].
Qed.
Lemma nodup_app {X} (l m : list X) : NoDup l -> NoDup m -> (forall x, In x l -> ~ In x m) -> NoDup (l ++ m).
Proof.
  intros Hl Hm H. induction Hl as [|x l Hx Hl IH]; cbn; [assumption|]. constructor.
  - rewrite in_app_iff. intros [K|K]; [tauto|]. apply (H x); [now left|assumption].
  - apply IH. intros; apply H. now right.
Qed.
Lemma NoDup_prod {X Y} (l : list X) (m : list Y) : NoDup l -> NoDup m -> NoDup (list_prod l m).
Proof.
  intros Hl Hm. induction Hl as [|x l Hx Hl IH]; cbn; [constructor|].
  apply nodup_app; [apply FinFun.Injective_map_NoDup; [intros a b E; now injection E|assumption]|exact IH|].
  intros [a b] H1 H2. apply in_map_iff in H1 as (b' & E & _). injection E as <- <-. apply in_prod_iff in H2. tauto.
Qed.
Lemma gridix_nodup ny nx : NoDup (gridix ny nx).
Proof.
  apply NoDup_prod; [repeat constructor; cbn; intuition discriminate|]. apply NoDup_prod; apply seq_NoDup.
Qed.
Lemma enc_add s t : enc (sadd s t) = vadd IX (enc s) (enc t).
Proof. extensionality k. destruct k as [[] [i j]]; reflexivity. Qed.
Lemma enc_scale c s : enc (sscale c s) = vscale IX c (enc s).
Proof. extensionality k. destruct k as [[] [i j]]; reflexivity. Qed.
Lemma dec_add u v : dec_ (vadd IX u v) = sadd (dec_ u) (dec_ v). Proof. reflexivity. Qed.
Lemma dec_scale c u : dec_ (vscale IX c u) = sscale c (dec_ u). Proof. reflexivity. Qed.
Lemma enc_ssum n f : enc (ssum n f) = vsum IX n (fun k => enc (f k)).
Proof. induction n as [|n IH]; cbn [ssum vsum]; [extensionality k; destruct k as [[] [i j]]; reflexivity|]. now rewrite enc_add, IH. Qed.

Lemma state_eq (s t : state) : (forall i j, fst s i j = fst t i j) -> (forall i j, snd s i j = snd t i j) -> s = t.
Proof. destruct s, t. cbn. intros H1 H2. f_equal; extensionality i; extensionality j; auto. Qed.

Section O.
Variables (p : par) (ny nx : nat) (dx : R).
Hypothesis Hy : (0 < ny)%nat.
Hypothesis Hx : (0 < nx)%nat.
Hypothesis Hd : dx <> 0.
Local Notation Fs := (hw_rhs p ny nx dx).
Local Notation As := (hw_lin p ny nx dx).
Local Notation Bs := (hw_quad p ny nx dx).

Lemma hw_split y : Fs y = sadd (As y) (Bs y y).
Proof.
  apply state_eq; intros i j; cbn [hw_rhs hw_lin hw_quad sadd fst snd fadd];
    unfold rhs_n, rhs_o, hyper, coupling, fadd, fscale; cbn [pN pc1 pnu ppb pkap pzon]; ring.
Qed.
Lemma As_comb a b x y : As (sadd (sscale a x) (sscale b y)) = sadd (sscale a (As x)) (sscale b (As y)).
Proof.
  assert (E : invlap ny nx dx (fadd (fscale a (snd x)) (fscale b (snd y))) =
              fadd (fscale a (invlap ny nx dx (snd x))) (fscale b (invlap ny nx dx (snd y)))).
  { extensionality i. extensionality j. now rewrite invlap_lin by assumption. }
  unfold hw_lin. apply state_eq; intros i j; cbn [hw_rhs sadd sscale fst snd]; rewrite E; unfold rhs_n, rhs_o;
    rewrite !hyper_lin, ?cdy_lin; unfold coupling; cbn [pzon pc1 ppb pkap]; destruct (pzon p);
    rewrite ?ydev_lin; unfold fadd, fscale; try ring.
Qed.
Lemma Bs_comb_l a b x y z : Bs (sadd (sscale a x) (sscale b y)) z = sadd (sscale a (Bs x z)) (sscale b (Bs y z)).
Proof.
  assert (E : invlap ny nx dx (fadd (fscale a (snd x)) (fscale b (snd y))) =
              fadd (fscale a (invlap ny nx dx (snd x))) (fscale b (invlap ny nx dx (snd y)))).
  { extensionality i. extensionality j. now rewrite invlap_lin by assumption. }
  unfold hw_quad. apply state_eq; intros i j; cbn [sadd sscale fst snd]; rewrite E; unfold fadd at 1 2, fscale at 1;
    fold (fadd (fscale a (invlap ny nx dx (snd x))) (fscale b (invlap ny nx dx (snd y))));
    rewrite jac_lin_l by assumption; unfold fadd, fscale; ring.
Qed.
Lemma Bs_comb_r a b x y z : Bs z (sadd (sscale a x) (sscale b y)) = sadd (sscale a (Bs z x)) (sscale b (Bs z y)).
Proof.
  unfold hw_quad. apply state_eq; intros i j; cbn [sadd sscale fst snd].
  - transitivity (- ppb p * jacobian ny nx dx (invlap ny nx dx (snd z)) (fadd (fscale a (fst x)) (fscale b (fst y))) i j); [reflexivity|].
    rewrite jac_lin_r by assumption. unfold fadd, fscale. ring.
  - transitivity (- ppb p * jacobian ny nx dx (invlap ny nx dx (snd z)) (fadd (fscale a (snd x)) (fscale b (snd y))) i j); [reflexivity|].
    rewrite jac_lin_r by assumption. unfold fadd, fscale. ring.
Qed.
Lemma sadd_comb x y : sadd x y = sadd (sscale 1 x) (sscale 1 y).
Proof. apply state_eq; intros i j; cbn; unfold fadd, fscale; ring. Qed.
Lemma sscale_comb c x : sscale c x = sadd (sscale c x) (sscale 0 x).
Proof. apply state_eq; intros i j; cbn; unfold fadd, fscale; ring. Qed.

Definition Av (u : IX -> R) : IX -> R := enc (As (dec_ u)).
Definition Bv (u v : IX -> R) : IX -> R := enc (Bs (dec_ u) (dec_ v)).
Lemma Av_add u v : Av (vadd IX u v) = vadd IX (Av u) (Av v).
Proof. unfold Av. rewrite dec_add, sadd_comb, As_comb, <- sadd_comb, enc_add. reflexivity. Qed.
Lemma Av_scale c u : Av (vscale IX c u) = vscale IX c (Av u).
Proof. unfold Av. rewrite dec_scale, sscale_comb, As_comb, <- sscale_comb, enc_scale. reflexivity. Qed.
Lemma Bv_add_l u v w : Bv (vadd IX u v) w = vadd IX (Bv u w) (Bv v w).
Proof. unfold Bv. rewrite dec_add, sadd_comb, Bs_comb_l, <- sadd_comb, enc_add. reflexivity. Qed.
Lemma Bv_add_r u v w : Bv w (vadd IX u v) = vadd IX (Bv w u) (Bv w v).
Proof. unfold Bv. rewrite dec_add, sadd_comb, Bs_comb_r, <- sadd_comb, enc_add. reflexivity. Qed.
Lemma Bv_scale_l c u w : Bv (vscale IX c u) w = vscale IX c (Bv u w).
Proof. unfold Bv. rewrite dec_scale, sscale_comb, Bs_comb_l, <- sscale_comb, enc_scale. reflexivity. Qed.
Lemma Bv_scale_r c u w : Bv w (vscale IX c u) = vscale IX c (Bv w u).
Proof. unfold Bv. rewrite dec_scale, sscale_comb, Bs_comb_r, <- sscale_comb, enc_scale. reflexivity. Qed.
Lemma enc_F s : enc (Fs s) = F IX Av Bv (enc s).
Proof. unfold F, Av, Bv. rewrite hw_split, enc_add, dec_enc. reflexivity. Qed.
Lemma enc_rk4 dt s : enc (rk4 Fs dt s) = vrk4 IX Av Bv dt (enc s).
Proof. unfold rk4, rk4_from, vrk4. rewrite !enc_add, !enc_scale, !enc_add, !enc_scale, !enc_F, !enc_add, !enc_scale, !enc_F, !enc_add, !enc_scale, !enc_F, !enc_add, !enc_scale, !enc_F. reflexivity. Qed.
Lemma enc_euler dt s : enc (euler Fs dt s) = veuler IX Av Bv dt (enc s).
Proof. unfold euler, veuler. now rewrite enc_add, enc_scale, enc_F. Qed.
Lemma enc_iter (st : state -> state) (f : (IX -> R) -> (IX -> R)) : (forall s, enc (st s) = f (enc s)) ->
  forall k s, enc (iter_step st k s) = viter IX f k (enc s).
Proof. intros H. induction k as [|k IH]; intros s; cbn; [reflexivity|]. now rewrite IH, H. Qed.

(** Taylor coefficients *)
Lemma rk4_taylor y c : hw_taylor p ny nx dx c y ->
  exists q : list state, (forall k, (k <= 4)%nat -> nth k q szero = c k) /\
    forall dt, rk4 Fs dt y = ssum (List.length q) (fun k => sscale (dt ^ k) (nth k q szero)).
Proof.
  intros [H0 H]. set (qv := qrk IX Av Bv (enc y)). exists (map dec_ qv).
  assert (Dz : szero = dec_ (vzero IX)) by reflexivity.
  split.
  - intros k Hk. rewrite Dz, map_nth.
    rewrite (qrk_taylor IX Av Bv Av_add Av_scale Bv_add_l Bv_add_r Bv_scale_l Bv_scale_r (fun k => enc (c k)) (enc y)); [apply dec_enc| |exact Hk].
    split; [now rewrite H0|]. intros m. rewrite <- enc_scale, H, enc_add, enc_ssum.
    unfold Av, Bv. rewrite dec_enc. f_equal.
  - intros dt. rewrite <- (dec_enc (rk4 Fs dt y)), enc_rk4,
      (vrk4_poly IX Av Bv Av_add Av_scale Bv_add_l Bv_add_r Bv_scale_l Bv_scale_r). fold qv.
    rewrite (peval_split IX (List.length qv) qv dt), skipn_all. cbn [peval]. rewrite map_length.
    rewrite <- (dec_enc (ssum _ _)). f_equal. rewrite enc_ssum.
    rewrite vz_scale. transitivity (vsum IX (List.length qv) (fun i => vscale IX (dt ^ i) (nth i qv (vzero IX)))).
    + extensionality k. unfold vadd, vzero. ring.
    + f_equal. extensionality k. rewrite enc_scale, Dz, map_nth, enc_dec. reflexivity.
Qed.
(** Taylor coefficients exist *)
Fixpoint tcs (y : state) (k : nat) : list state :=
  match k with
  | O => [y]
  | S k' => let l := tcs y k' in
    l ++ [sscale (/ (INR k' + 1)) (sadd (As (nth k' l szero)) (ssum k (fun i => Bs (nth i l szero) (nth (k' - i) l szero))))]
  end.
Lemma tcs_len y k : List.length (tcs y k) = S k.
Proof. clear Hy Hx Hd. induction k as [|k IH]; [reflexivity|]. cbn [tcs]. rewrite app_length, IH. cbn. lia. Qed.
Lemma tcs_nth y k m : (m <= k)%nat -> nth m (tcs y k) szero = nth m (tcs y m) szero.
Proof. clear Hy Hx Hd.
  induction k as [|k IH]; intros H; [now replace m with 0%nat by lia|].
  destruct (Nat.eq_dec m (S k)) as [->|]; [reflexivity|]. cbn [tcs]. rewrite app_nth1 by (rewrite tcs_len; lia). apply IH. lia.
Qed.
Lemma ssum_ext n f g : (forall k, (k < n)%nat -> f k = g k) -> ssum n f = ssum n g.
Proof. clear Hy Hx Hd. intros H. induction n as [|n IH]; [reflexivity|]. cbn [ssum]. rewrite IH by (intros; apply H; lia). now rewrite H by lia. Qed.
Lemma taylor_exists y : hw_taylor p ny nx dx (fun k => nth k (tcs y k) szero) y.
Proof. clear Hy Hx Hd.
  split; [reflexivity|]. intros k. cbn [tcs]. rewrite app_nth2 by (rewrite tcs_len; lia). rewrite tcs_len, Nat.sub_diag. cbn [nth].
  rewrite (ssum_ext (S k) (fun i => Bs (nth i (tcs y k) szero) (nth (k - i) (tcs y k) szero))
     (fun i => Bs (nth i (tcs y i) szero) (nth (k - i) (tcs y (k - i)) szero))).
  2:{ intros i Hi. rewrite (tcs_nth y k i), (tcs_nth y k (k - i)) by lia. reflexivity. }
  assert (INR k + 1 <> 0) by (pose proof (pos_INR k); lra).
  apply state_eq; intros i j; cbn [sscale fst snd]; unfold fscale; rewrite <- Rmult_assoc, Rinv_r by assumption; apply Rmult_1_l.
Qed.

Lemma rk4_linear y dt : ppb p = 0 ->
  rk4 Fs dt y = ssum 5 (fun k => sscale (dt ^ k / INR (fact k)) (Nat.iter k Fs y)).
Proof.
  intros Hp. rewrite <- (dec_enc (rk4 Fs dt y)), enc_rk4.
  assert (Bz : forall u v, Bv u v = vzero IX).
  { intros u v. unfold Bv, hw_quad. extensionality k. destruct k as [[] [i j]]; cbn; unfold fscale; rewrite Hp; unfold vzero; ring. }
  rewrite (vrk4_linear IX Av Bv Av_add Av_scale (enc y) dt Bz).
  rewrite <- (dec_enc (ssum _ _)). f_equal. rewrite enc_ssum. f_equal. extensionality k. rewrite enc_scale. f_equal.
  induction k as [|k IH]; [reflexivity|]. cbn [Apow]. change (Nat.iter (S k) Fs y) with (Fs (Nat.iter k Fs y)). rewrite IH, enc_F. unfold F. rewrite Bz.
  extensionality m. unfold vadd, vzero. ring.
Qed.

(** bounds *)
Lemma dec_agree u v : (forall k, In k (gridix ny nx) -> u k = v k) -> sagree ny nx (dec_ u) (dec_ v).
Proof. intros H. split; intros i j Hi Hj; apply H, in_gridix; auto. Qed.
Lemma agree_enc s t : sagree ny nx s t -> forall k, In k (gridix ny nx) -> enc s k = enc t k.
Proof. intros [H1 H2] [b [i j]] Hk. apply in_gridix in Hk as [Hi Hj]. destruct b; cbn; auto. Qed.
Lemma A_bound : exists C, 0 <= C /\ forall u, nrm IX (gridix ny nx) (Av u) <= C * nrm IX (gridix ny nx) u.
Proof.
  eexists. split; [|intros u; apply (lin_bd IX (gridix ny nx) IXdec (gridix_nodup ny nx) Av Av_add Av_scale)].
  - apply rsum_l_pos. intros. apply nrm_pos.
  - intros u' v H. apply agree_enc. unfold hw_lin. apply hw_rhs_ext; auto. now apply dec_agree.
Qed.
Lemma B_bound : exists C, 0 <= C /\ forall u v, nrm IX (gridix ny nx) (Bv u v) <= C * nrm IX (gridix ny nx) u * nrm IX (gridix ny nx) v.
Proof.
  apply (bilin_bd IX (gridix ny nx) IXdec Bv (gridix_nodup ny nx) Bv_add_l Bv_add_r Bv_scale_l Bv_scale_r).
  intros u v u' v' H H'. apply agree_enc. apply dec_agree in H as [_ Ho]. apply dec_agree in H' as [Hn' Ho'].
  assert (Hp : agree ny nx (invlap ny nx dx (snd (dec_ u))) (invlap ny nx dx (snd (dec_ v)))) by (intros i j _ _; now apply invlap_ext).
  split; intros i j Hi Hj; cbn [hw_quad fst snd]; unfold fscale; f_equal; now apply jac_ext.
Qed.
Lemma enc_solves Y T : hw_solution p ny nx dx Y T -> solves IX (gridix ny nx) Av Bv (fun t => enc (Y t)) T.
Proof.
  intros H t [b [i j]] Ht Hk. apply in_gridix in Hk as [Hi Hj]. rewrite <- enc_F. destruct (H t i j Ht Hi Hj) as [H1 H2].
  destruct b; [exact H1|exact H2].
Qed.
Lemma within_nrm e s t : nrm IX (gridix ny nx) (vsub IX (enc s) (enc t)) <= e -> within ny nx e s t.
Proof.
  intros H i j Hi Hj.
  split; (eapply Rle_trans; [|exact H]).
  - apply (nrm_ub IX (gridix ny nx) (vsub IX (enc s) (enc t)) (true, (i, j))). now apply in_gridix.
  - apply (nrm_ub IX (gridix ny nx) (vsub IX (enc s) (enc t)) (false, (i, j))). now apply in_gridix.
Qed.

Lemma rk4_local_hw Y T : 0 <= T -> hw_solution p ny nx dx Y T ->
  exists C, 0 <= C /\ forall dt, 0 <= dt <= T -> dt <= 1 -> within ny nx (C * dt ^ 5) (rk4 Fs dt (Y 0)) (Y dt).
Proof.
  intros HT HY. destruct A_bound as (CA & HA & Ab), B_bound as (CB & HB & Bb).
  pose proof (enc_solves Y T HY) as HS.
  destruct (solves_bounded IX (gridix ny nx) Av Bv (fun t => enc (Y t)) T HT HS) as (M & HM & Hb).
  destruct (rk4_local IX (gridix ny nx) Av Bv Av_add Av_scale Bv_add_l Bv_add_r Bv_scale_l Bv_scale_r CA CB HA HB Ab Bb M HM) as (C & HC & HL).
  exists C. split; [exact HC|]. intros dt Hdt H1. apply within_nrm. rewrite enc_rk4.
  apply (HL (fun t => enc (Y t)) (Rmin 1 T)); [apply Rmin_l| | |].
  - intros t j Ht Hj. apply HS; [|exact Hj]. split; [lra|]. eapply Rle_trans; [apply Ht|apply Rmin_r].
  - intros t Ht. apply Hb. split; [lra|]. eapply Rle_trans; [apply Ht|apply Rmin_r].
  - split; [lra|]. apply Rmin_glb; lra.
Qed.
Lemma rk4_global_hw Y T : 0 <= T -> hw_solution p ny nx dx Y T ->
  exists C h0, 0 <= C /\ 0 < h0 /\ forall dt k, 0 < dt <= h0 -> INR k * dt <= T ->
    within ny nx (C * dt ^ 4) (iter_step (rk4 Fs dt) k (Y 0)) (Y (INR k * dt)).
Proof.
  intros HT HY. destruct A_bound as (CA & HA & Ab), B_bound as (CB & HB & Bb).
  destruct (rk4_global IX (gridix ny nx) Av Bv Av_add Av_scale Bv_add_l Bv_add_r Bv_scale_l Bv_scale_r CA CB HA HB Ab Bb
    (fun t => enc (Y t)) T HT (enc_solves Y T HY)) as (C & h0 & HC & Hh & HG).
  exists C, h0. split; [exact HC|]. split; [exact Hh|]. intros dt k Hdt Hk. apply within_nrm.
  rewrite (enc_iter (rk4 Fs dt) (vrk4 IX Av Bv dt)) by (intros; apply enc_rk4). now apply HG.
Qed.
Lemma euler_global_hw Y T : 0 <= T -> hw_solution p ny nx dx Y T ->
  exists C h0, 0 <= C /\ 0 < h0 /\ forall dt k, 0 < dt <= h0 -> INR k * dt <= T ->
    within ny nx (C * dt) (iter_step (euler Fs dt) k (Y 0)) (Y (INR k * dt)).
Proof.
  intros HT HY. destruct A_bound as (CA & HA & Ab), B_bound as (CB & HB & Bb).
  destruct (euler_global IX (gridix ny nx) Av Bv Av_add Av_scale Bv_add_l Bv_add_r Bv_scale_l Bv_scale_r CA CB HA HB Ab Bb
    (fun t => enc (Y t)) T HT (enc_solves Y T HY)) as (C & h0 & HC & Hh & HG).
  exists C, h0. split; [exact HC|]. split; [exact Hh|]. intros dt k Hdt Hk. apply within_nrm.
  rewrite (enc_iter (euler Fs dt) (veuler IX Av Bv dt)) by (intros; apply enc_euler).
  specialize (HG dt k Hdt Hk). now rewrite pow_1 in HG.
Qed.
End O.
