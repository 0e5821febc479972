(** Evaluation of euler_step and rk4_step on grids. *)
From Coq Require Import List Arith ZArith Lia Bool Reals Lra Psatz String Permutation.
From Verif Require Import Num NdArray NdFacts ModelGradients Spec GradFacts SumFacts LapFacts GradProps
  ModelArakawa ArakawaFacts Cplx DftFacts SpecFourier ModelPoisson PoissonFacts PoissonProps
  ModelProperties ModelHW ModelBackend SpecHW SpecPlasma HWFacts.
Import ListNotations.
Local Open Scope R_scope.

Section Step.
Variables (b : backend R) (p : par) (dx0 : R) (test : bool) (ny nx : nat) (dx : R).
Hypothesis Hy : (0 < ny)%nat.
Hypothesis Hx : (0 < nx)%nat.
Hypothesis Hb : acts b ny nx dx (pN p).
Local Notation h := (hw_of b p dx0 test).
Local Notation V := (V ny nx).
Local Notation F := (hw_rhs p ny nx dx).

Record keys_ok (ks : list string) : Prop := {
  ko_nodup : NoDup ks;
  ko_n : In "density"%string ks;
  ko_o : In "omega"%string ks;
  ko_a : In "age"%string ks;
  ko_sub : forall k, In k ks -> In k (gkeys test true) }.

Lemma gkeys_in k : In k (gkeys test true) <->
  In k ["density"; "omega"; "age"]%string \/ (test = true /\ In k ["dE"; "dU"]%string).
Proof. unfold gkeys. destruct test; cbn; intuition congruence. Qed.

Lemma reserved_out ks c k : keys_ok ks -> In k reserved -> ns_has (nsmap (A:=R) ks c) k = false.
Proof.
  intros Hk Hr. apply not_true_is_false. rewrite ns_has_in. intros Hi.
  apply (ko_sub _ Hk), gkeys_in in Hi. unfold reserved in Hr.
  assert (Hi' : In k ["density"; "omega"; "age"; "dE"; "dU"]%string) by (cbn in *; tauto).
  clear - Hr Hi'. cbn in Hr, Hi'.
  repeat (destruct Hi' as [<-|Hi']; [repeat (destruct Hr as [Hr|Hr]; [discriminate|]); exact Hr|]). exact Hi'.
Qed.

Lemma V_density n o s : V n o s "density" = grid ny nx n.
Proof. reflexivity. Qed.
Lemma V_omega n o s : V n o s "omega" = grid ny nx o.
Proof. reflexivity. Qed.
Lemma V_age n o s : V n o s "age" = scal (s "age"%string).
Proof. reflexivity. Qed.

Lemma gradient_2d_grid ks n o s phi dt : keys_ok ks ->
  gradient_2d h (nsmap ks (V n o s)) (Some (grid ny nx phi)) dt dx =
  (grad_log p test, Ok (nsmap (gkeys test true)
     (V (rhs_n p ny nx dx phi n) (rhs_o p ny nx dx phi n o)
        (gvals p dx0 ny nx dx phi n o (s "age"%string + dt))))).
Proof.
  intros Hk. unfold gradient_2d.
  assert (E : existsb (fun k => ns_has (nsmap ks (V n o s)) k) reserved = false).
  { apply not_true_is_false. intros H. apply existsb_exists in H as (k & Hr & Hh).
    now rewrite reserved_out in Hh. }
  rewrite E.
  assert (E' : ns_has (nsmap ks (V n o s)) "debug" = false).
  { apply not_true_is_false. rewrite ns_has_in. intros Hi. apply (ko_sub _ Hk), gkeys_in in Hi. cbn in Hi.
    repeat destruct Hi as [Hi|Hi]; try discriminate; try tauto. destruct Hi as [_ [Hi|[Hi|Hi]]]; try discriminate; tauto. }
  rewrite E'. rewrite !ns_get_in by apply Hk. rewrite V_density, V_omega, V_age.
  exact (hw2d_gradient_grid b p dx0 test ny nx dx Hy Hx Hb n o phi dt (Some (s "age"%string))).
Qed.

Lemma V_ext ks n o s n' o' s' : agree ny nx n n' -> agree ny nx o o' -> (forall k, s k = s' k) ->
  nsmap ks (V n o s) = nsmap ks (V n' o' s').
Proof.
  intros Hn Ho Hs. apply nsmap_ext. intros k _. unfold HWFacts.V.
  rewrite (grid_ext ny nx n n' Hn), (grid_ext ny nx o o' Ho), Hs. reflexivity.
Qed.
Lemma V_scale ks n o s c : ns_scale (nsmap ks (V n o s)) c =
  Ok (nsmap ks (V (fscale c n) (fscale c o) (fun k => c * s k))).
Proof.
  unfold ns_scale. apply ns_map_nsmap. intros k _. unfold HWFacts.V, mul_.
  destruct (String.eqb k "density"); [apply lift2_grid_scl|].
  destruct (String.eqb k "omega"); [apply lift2_grid_scl|]. rewrite sc_scal. apply lift2_scal.
Qed.
Lemma V_add ks ks' n o s n' o' s' : (forall k, In k ks -> In k ks') ->
  ns_add (nsmap ks (V n o s)) (nsmap ks' (V n' o' s')) =
  Ok (nsmap ks (V (fadd n' n) (fadd o' o) (fun k => s' k + s k))).
Proof.
  intros Hs. unfold ns_add. apply ns_map_nsmap. intros k Hk. rewrite ns_get_in by auto. cbn [bind].
  unfold HWFacts.V, add_.
  destruct (String.eqb k "density"); [rewrite lift2_grid; reflexivity|].
  destruct (String.eqb k "omega"); [rewrite lift2_grid; reflexivity|]. apply lift2_scal.
Qed.

(** one stage: k = dt * F(y) *)
Lemma stage_grid ks y s phi dtk dt : keys_ok ks -> agree ny nx phi (invlap ny nx dx (snd y)) ->
  exists s', stage h (nsmap ks (V (fst y) (snd y) s)) (grid ny nx phi) dtk dt dx =
    (grad_log p test, Ok (nsmap (gkeys test true) (V (fst (sscale dt (F y))) (snd (sscale dt (F y))) s'))).
Proof.
  intros Hk Hp. eexists. unfold stage. rewrite (grid_ext ny nx _ _ Hp), gradient_2d_grid by assumption.
  rewrite mbind_ok. unfold mscale. rewrite V_scale. unfold mlift. rewrite tell_pair, app_nil_r. reflexivity.
Qed.

Lemma stage_grid_phi ks y s phi dtk dt : keys_ok ks ->
  exists s', stage h (nsmap ks (V (fst y) (snd y) s)) (grid ny nx phi) dtk dt dx =
    (grad_log p test, Ok (nsmap (gkeys test true)
       (V (fst (sscale dt (rhs_n p ny nx dx phi (fst y), rhs_o p ny nx dx phi (fst y) (snd y))))
          (snd (sscale dt (rhs_n p ny nx dx phi (fst y), rhs_o p ny nx dx phi (fst y) (snd y)))) s'))).
Proof.
  intros Hk. eexists. unfold stage. rewrite gradient_2d_grid by assumption.
  rewrite mbind_ok. unfold mscale. rewrite V_scale. unfold mlift. rewrite tell_pair, app_nil_r. reflexivity.
Qed.

Lemma mscale_V ks y s c : mscale c (nsmap ks (V (fst y) (snd y) s)) =
  mlift (Ok (nsmap ks (V (fst (sscale c y)) (snd (sscale c y)) (fun k => c * s k)))).
Proof. unfold mscale. now rewrite V_scale. Qed.
Lemma madd_V ks ks' y z s s' : (forall k, In k ks -> In k ks') ->
  madd (nsmap ks (V (fst y) (snd y) s)) (nsmap ks' (V (fst z) (snd z) s')) =
  mlift (Ok (nsmap ks (V (fst (sadd y z)) (snd (sadd y z)) (fun k => s k + s' k)))).
Proof.
  intros Hs. unfold madd. rewrite V_add by assumption. do 2 f_equal. apply V_ext.
  - intros i j _ _. cbn. unfold fadd. ring.
  - intros i j _ _. cbn. unfold fadd. ring.
  - intros k. ring.
Qed.
Lemma mget_omega ks n o s : keys_ok ks -> mget (nsmap ks (V n o s)) "omega" = mlift (Ok (grid ny nx o)).
Proof. intros Hk. unfold mget. rewrite ns_get_in by apply Hk. reflexivity. Qed.

Lemma V_sext ks y z s : sagree ny nx y z ->
  nsmap ks (V (fst y) (snd y) s) = nsmap ks (V (fst z) (snd z) s).
Proof. intros [H1 H2]. apply V_ext; auto. Qed.

Lemma invlap_ext om om' i j :
  agree ny nx om om' -> invlap ny nx dx om i j = invlap ny nx dx om' i j.
Proof.
  intros H. unfold invlap. f_equal. apply idft2_ext. intros k l _ _.
  destruct ((k =? 0)%nat && (l =? 0)%nat)%bool; [reflexivity|]. f_equal. apply dft2_ext.
  intros a c Ha Hc. now rewrite H.
Qed.

(** the plasma without phi, in canonical form *)
Lemma plasma_canon pl n o phi a : plasma_ok test ny nx pl n o phi a ->
  exists s, keys_ok (ksrem "phi" (ns_keys pl)) /\ s "age"%string = a /\
    ns_without "phi" pl = nsmap (ksrem "phi" (ns_keys pl)) (V n o s).
Proof.
  intros H. exists (fun k => get (nsval pl k) []).
  assert (Hks : forall k, In k (ksrem "phi" (ns_keys pl)) ->
    In k ["density"; "omega"; "age"]%string \/ (test = true /\ In k ["dE"; "dU"]%string)).
  { intros k Hk. apply in_ksrem in Hk as [Hk Hne]. destruct (po_keys _ _ _ _ _ _ _ _ H k Hk) as [H1|H1]; [|now right].
    left. cbn in H1 |- *. intuition congruence. }
  split; [|split].
  - constructor.
    + apply NoDup_ksrem, H.
    + apply in_ksrem. split; [|discriminate]. eapply ns_get_keys, (po_n _ _ _ _ _ _ _ _ H).
    + apply in_ksrem. split; [|discriminate]. eapply ns_get_keys, (po_o _ _ _ _ _ _ _ _ H).
    + apply in_ksrem. split; [|discriminate]. eapply ns_get_keys, (po_a _ _ _ _ _ _ _ _ H).
    + intros k Hk. apply gkeys_in. auto.
  - unfold nsval. rewrite (po_a _ _ _ _ _ _ _ _ H). reflexivity.
  - rewrite (nsmap_canon pl) at 1 by apply H. rewrite ns_without_nsmap. apply nsmap_ext. intros k Hk.
    unfold HWFacts.V.
    destruct (String.eqb_spec k "density") as [->|Hn1]; [unfold nsval; now rewrite (po_n _ _ _ _ _ _ _ _ H)|].
    destruct (String.eqb_spec k "omega") as [->|Hn2]; [unfold nsval; now rewrite (po_o _ _ _ _ _ _ _ _ H)|].
    assert (exists e, nsval pl k = scal e) as [e E].
    { apply in_ksrem in Hk as Hk'. destruct Hk' as [Hk' _]. apply ns_get_keys_ex in Hk' as [v Hv]. unfold nsval. rewrite Hv.
      destruct (Hks k Hk) as [Hi|[_ Hi]].
      - cbn in Hi. destruct Hi as [<-|[<-|[<-|[]]]]; try tauto.
        rewrite (po_a _ _ _ _ _ _ _ _ H) in Hv. injection Hv as <-. eauto.
      - now apply (po_s _ _ _ _ _ _ _ _ H k). }
    rewrite E. reflexivity.
Qed.

(** what the last lines of a step build *)
Lemma plasma_final (pl : ns R) ks n' o' s phi' a' : keys_ok ks -> ks = ksrem "phi" (ns_keys pl) -> In "phi"%string (ns_keys pl) ->
  NoDup (ns_keys pl) ->
  plasma_ok test ny nx
    (ns_set (ns_set (nsmap ks (V n' o' s)) "phi" (grid ny nx phi')) "age" (scal a')) n' o' phi' a' /\
  Permutation (ns_keys (ns_set (ns_set (nsmap ks (V n' o' s)) "phi" (grid ny nx phi')) "age" (scal a'))) (ns_keys pl).
Proof.
  intros Hk E Hp Hnd.
  assert (Hnp : ~ In "phi"%string ks) by (rewrite E, in_ksrem; tauto).
  rewrite ns_set_out by assumption.
  assert (Hnd2 : NoDup (ks ++ ["phi"%string])).
  { apply NoDup_Add with (a := "phi"%string) (l := ks).
    - rewrite <- (app_nil_r ks) at 1. apply Add_app.
    - split; [apply Hk|assumption]. }
  rewrite ns_set_in by (try assumption; apply in_or_app; left; apply Hk).
  split.
  - constructor.
    + now rewrite ns_keys_nsmap.
    + rewrite ns_keys_nsmap. intros k Hi. apply in_app_or in Hi as [Hi|[<-|[]]]; [|cbn; tauto].
      apply (ko_sub _ Hk), gkeys_in in Hi. cbn in Hi |- *. tauto.
    + rewrite ns_get_in by (apply in_or_app; left; apply Hk). reflexivity.
    + rewrite ns_get_in by (apply in_or_app; left; apply Hk). reflexivity.
    + rewrite ns_get_in by (apply in_or_app; right; now left). reflexivity.
    + rewrite ns_get_in by (apply in_or_app; left; apply Hk). reflexivity.
    + intros k v Hi Hg. destruct (in_dec string_dec k (ks ++ ["phi"%string])) as [Hin|Hin].
      * rewrite ns_get_in in Hg by assumption. injection Hg as <-.
        cbn in Hi. destruct Hi as [<-|[<-|[]]]; eexists; reflexivity.
      * rewrite ns_get_out in Hg by assumption. discriminate.
  - rewrite ns_keys_nsmap, E. clear - Hp Hnd. apply NoDup_Permutation.
    + apply NoDup_Add with (a := "phi"%string) (l := ksrem "phi" (ns_keys pl)).
      * rewrite <- (app_nil_r (ksrem "phi" (ns_keys pl))) at 1. apply Add_app.
      * split; [now apply NoDup_ksrem|rewrite in_ksrem; tauto].
    + assumption.
    + intros k. rewrite in_app_iff, in_ksrem. cbn. destruct (string_dec k "phi"); subst; intuition congruence.
Qed.

Definition rk4_log : list string :=
  (grad_log p test ++ ["get_phi"%string] ++ grad_log p test ++ ["get_phi"%string] ++ grad_log p test
   ++ ["get_phi"%string] ++ grad_log p test ++ ["get_phi"; "full_step"]%string)%list.

Lemma keys_in ks : keys_ok ks -> forall k, In k ks -> In k (gkeys test true).
Proof. intros Hk. apply Hk. Qed.

Lemma rk4_comb (y k1 k2 k3 k4 : state) dt : sagree ny nx
  (sadd y (sscale (ndiv (nofZ 1) (nofZ 6))
     (sadd (sadd (sadd (sscale dt k1) (sscale (nofZ 2) (sscale dt k2))) (sscale (nofZ 2) (sscale dt k3))) (sscale dt k4))))
  (sadd y (sscale (dt / 6) (sadd (sadd (sadd k1 (sscale 2 k2)) (sscale 2 k3)) k4))).
Proof. split; intros i j _ _; cbn; unfold fadd, fscale; cbn; field. Qed.

Lemma rk4_step_grid_phi pl n o phi a dt : plasma_ok test ny nx pl n o phi a ->
  let y' := rk4_from F (rhs_n p ny nx dx phi n, rhs_o p ny nx dx phi n o) dt (n, o) in
  exists pl', rk4_step h pl dt dx = (rk4_log, Ok pl') /\
    plasma_ok test ny nx pl' (fst y') (snd y') (invlap ny nx dx (snd y')) (a + dt) /\
    Permutation (ns_keys pl') (ns_keys pl).
Proof.
  intros Hpl y'. destruct (plasma_canon _ _ _ _ _ Hpl) as (s & Hk & Ha & Ey).
  set (ks := ksrem "phi" (ns_keys pl)) in *. set (y := (n, o) : state).
  assert (Hin : In "phi"%string (ns_keys pl)) by (eapply ns_get_keys, Hpl).
  unfold rk4_step. rewrite Ey. unfold mget at 1. rewrite (po_p _ _ _ _ _ _ _ _ Hpl). rewrite mbind_lift.
  change (V n o s) with (V (fst y) (snd y) s).
  (* stage 1 *)
  destruct (stage_grid_phi ks y s phi (nofZ 0) dt Hk) as [s1 E1]. rewrite E1, mbind_ok. clear E1.
  rewrite mscale_V, mbind_lift, madd_V, mbind_lift by now apply keys_in.
  set (k1 := (rhs_n p ny nx dx phi n, rhs_o p ny nx dx phi n o) : state). change (rhs_n p ny nx dx phi (fst y), rhs_o p ny nx dx phi (fst y) (snd y)) with k1.
  rewrite (V_sext ks (sadd y (sscale half (sscale dt k1))) (sadd y (sscale (dt / 2) k1))).
  2:{ split; intros i j _ _; cbn; unfold fadd, fscale, half; cbn; field. }
  rewrite mget_omega, mbind_lift by assumption.
  rewrite (hw_get_phi_grid b p dx0 test ny nx dx Hb), mbind_ok.
  set (y1 := sadd y (sscale (dt / 2) k1)).
  (* stage 2 *)
  match goal with |- context [stage h (nsmap ks (V (fst y1) (snd y1) ?s)) _ ?d] =>
    destruct (stage_grid ks y1 s (invlap ny nx dx (snd y1)) d dt Hk (fun i j _ _ => eq_refl)) as [s2 E2] end.
  rewrite E2, mbind_ok. clear E2.
  rewrite mscale_V, mbind_lift, madd_V, mbind_lift by now apply keys_in.
  set (k2 := F y1).
  rewrite (V_sext ks (sadd y (sscale half (sscale dt k2))) (sadd y (sscale (dt / 2) k2))).
  2:{ split; intros i j _ _; cbn; unfold fadd, fscale, half; cbn; field. }
  rewrite mget_omega, mbind_lift by assumption.
  rewrite (hw_get_phi_grid b p dx0 test ny nx dx Hb), mbind_ok.
  set (y2 := sadd y (sscale (dt / 2) k2)).
  (* stage 3 *)
  match goal with |- context [stage h (nsmap ks (V (fst y2) (snd y2) ?s)) _ ?d] =>
    destruct (stage_grid ks y2 s (invlap ny nx dx (snd y2)) d dt Hk (fun i j _ _ => eq_refl)) as [s3 E3] end.
  rewrite E3, mbind_ok. clear E3.
  rewrite madd_V, mbind_lift by now apply keys_in.
  set (k3 := F y2).
  rewrite mget_omega, mbind_lift by assumption.
  rewrite (hw_get_phi_grid b p dx0 test ny nx dx Hb), mbind_ok.
  set (y3 := sadd y (sscale dt k3)).
  (* stage 4 *)
  match goal with |- context [stage h (nsmap ks (V (fst y3) (snd y3) ?s)) _ ?d] =>
    destruct (stage_grid ks y3 s (invlap ny nx dx (snd y3)) d dt Hk (fun i j _ _ => eq_refl)) as [s4 E4] end.
  rewrite E4, mbind_ok. clear E4.
  set (k4 := F y3).
  rewrite mscale_V, mbind_lift, madd_V, mbind_lift by auto.
  rewrite mscale_V, mbind_lift, madd_V, mbind_lift by auto.
  rewrite madd_V, mbind_lift by auto.
  rewrite mscale_V, mbind_lift, madd_V, mbind_lift by now apply keys_in.
  match goal with |- context [nsmap ks (V (fst ?z) (snd ?z) _)] => rewrite (V_sext ks z y') end.
  2:{ apply rk4_comb. }
  rewrite mget_omega, mbind_lift by assumption.
  rewrite (hw_get_phi_grid b p dx0 test ny nx dx Hb), mbind_ok.
  unfold mget. rewrite (po_a _ _ _ _ _ _ _ _ Hpl), mbind_lift. rewrite sc_scal. unfold add_. rewrite lift2_scal, mbind_lift, mbind_log.
  eexists. split.
  - rewrite !tell_tell, tell_ret. f_equal. unfold rk4_log. rewrite <- !app_assoc. reflexivity.
  - apply plasma_final; auto. apply Hpl.
Qed.

Lemma rk4_step_grid pl n o phi a dt : plasma_ok test ny nx pl n o phi a ->
  agree ny nx phi (invlap ny nx dx o) ->
  let y' := rk4 F dt (n, o) in
  exists pl', rk4_step h pl dt dx = (rk4_log, Ok pl') /\
    plasma_ok test ny nx pl' (fst y') (snd y') (invlap ny nx dx (snd y')) (a + dt) /\
    Permutation (ns_keys pl') (ns_keys pl).
Proof.
  intros Hpl Hphi. apply (rk4_step_grid_phi pl n o (invlap ny nx dx o) a dt).
  destruct Hpl. constructor; auto. rewrite <- (grid_ext ny nx _ _ Hphi). assumption.
Qed.

Definition euler_log : list string := (grad_log p test ++ ["get_phi"; "full_step"]%string)%list.
Lemma euler_step_grid_phi pl n o phi a dt : plasma_ok test ny nx pl n o phi a ->
  let y' := sadd (n, o) (sscale dt (rhs_n p ny nx dx phi n, rhs_o p ny nx dx phi n o)) in
  exists pl', euler_step h pl dt dx = (euler_log, Ok pl') /\
    plasma_ok test ny nx pl' (fst y') (snd y') (invlap ny nx dx (snd y')) (a + dt) /\
    Permutation (ns_keys pl') (ns_keys pl).
Proof.
  intros Hpl y'. destruct (plasma_canon _ _ _ _ _ Hpl) as (s & Hk & Ha & Ey).
  set (ks := ksrem "phi" (ns_keys pl)) in *. set (y := (n, o) : state).
  assert (Hin : In "phi"%string (ns_keys pl)) by (eapply ns_get_keys, Hpl).
  unfold euler_step. rewrite Ey. rewrite (po_p _ _ _ _ _ _ _ _ Hpl).
  rewrite gradient_2d_grid, mbind_ok by assumption.
  set (k1 := (rhs_n p ny nx dx phi n, rhs_o p ny nx dx phi n o) : state) in *.
  change (rhs_n p ny nx dx phi n) with (fst k1).
  change (rhs_o p ny nx dx phi n o) with (snd k1).
  rewrite mscale_V, mbind_lift.
  change (V n o s) with (V (fst y) (snd y) s).
  rewrite madd_V, mbind_lift by now apply keys_in.
  change (sadd y (sscale dt k1)) with y'.
  rewrite mget_omega, mbind_lift by assumption.
  rewrite (hw_get_phi_grid b p dx0 test ny nx dx Hb), mbind_ok.
  unfold mget. rewrite (po_a _ _ _ _ _ _ _ _ Hpl), mbind_lift. rewrite sc_scal. unfold add_. rewrite lift2_scal, mbind_lift, mbind_log.
  eexists. split.
  - rewrite !tell_tell, tell_ret. f_equal. unfold euler_log. rewrite <- !app_assoc. reflexivity.
  - apply plasma_final; auto. apply Hpl.
Qed.
Lemma euler_step_grid pl n o phi a dt : plasma_ok test ny nx pl n o phi a ->
  agree ny nx phi (invlap ny nx dx o) ->
  let y' := euler F dt (n, o) in
  exists pl', euler_step h pl dt dx = (euler_log, Ok pl') /\
    plasma_ok test ny nx pl' (fst y') (snd y') (invlap ny nx dx (snd y')) (a + dt) /\
    Permutation (ns_keys pl') (ns_keys pl).
Proof.
  intros Hpl Hphi. apply (euler_step_grid_phi pl n o (invlap ny nx dx o) a dt).
  destruct Hpl. constructor; auto. rewrite <- (grid_ext ny nx _ _ Hphi). assumption.
Qed.

(** any number of steps *)
Fixpoint rep (k : nat) (l : list string) : list string :=
  match k with O => [] | S k' => (l ++ rep k' l)%list end.
Lemma steps_grid (step : ns R -> M (ns R)) (Step : state -> state) lg dt pl n o phi a k :
  (forall pl n o phi a, plasma_ok test ny nx pl n o phi a -> agree ny nx phi (invlap ny nx dx o) ->
    exists pl', step pl = (lg, Ok pl') /\
      plasma_ok test ny nx pl' (fst (Step (n, o))) (snd (Step (n, o))) (invlap ny nx dx (snd (Step (n, o)))) (a + dt) /\
      Permutation (ns_keys pl') (ns_keys pl)) ->
  plasma_ok test ny nx pl n o phi a -> agree ny nx phi (invlap ny nx dx o) ->
  let y' := iter_step Step k (n, o) in
  exists pl' phi', steps step k pl = (rep k lg, Ok pl') /\
    plasma_ok test ny nx pl' (fst y') (snd y') phi' (a + INR k * dt) /\
    agree ny nx phi' (invlap ny nx dx (snd y')) /\
    Permutation (ns_keys pl') (ns_keys pl).
Proof.
  intros Hstep. revert pl n o phi a. induction k as [|k IH]; intros pl n o phi a Hpl Hphi y'.
  - exists pl, phi. cbn. rewrite Rmult_0_l, Rplus_0_r. repeat split; auto; apply Hpl.
  - destruct (Hstep _ _ _ _ _ Hpl Hphi) as (pl1 & E1 & H1 & P1).
    destruct (IH _ _ _ _ _ H1 (fun i j _ _ => eq_refl)) as (pl2 & phi2 & E2 & H2 & A2 & P2).
    rewrite <- surjective_pairing in *.
    exists pl2, phi2. cbn [steps]. rewrite E1, mbind_ok, E2, tell_pair. cbn [rep iter_step] in *.
    split; [reflexivity|]. split; [|split].
    + replace (a + INR (S k) * dt) with (a + dt + INR k * dt) by (rewrite S_INR; ring). exact H2.
    + exact A2.
    + now transitivity (ns_keys pl1).
Qed.
End Step.
