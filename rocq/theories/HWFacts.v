(** Evaluation of the HW model on grids, in exact real arithmetic. *)
From Coq Require Import List Arith ZArith Lia Bool Reals Lra Psatz String.
From Verif Require Import Num NdArray NdFacts ModelGradients Spec GradFacts SumFacts LapFacts GradProps
  ModelArakawa ArakawaFacts Cplx DftFacts SpecFourier ModelPoisson PoissonFacts PoissonProps
  ModelProperties ModelHW ModelBackend SpecHW SpecPlasma.
Import ListNotations.
Local Open Scope nat_scope.

(** ** Namespaces as (keys, valuation) *)
Section NS.
Context {A : Type} {Nm : Num A}.

Definition nsmap (ks : list string) (c : string -> arr A) : ns A := map (fun k => (k, c k)) ks.

Lemma ns_get_in ks c k : In k ks -> ns_get (nsmap ks c) k = Ok (c k).
Proof.
  induction ks as [|k' ks IH]; intros H; [destruct H|]. cbn.
  destruct (String.eqb_spec k k') as [->|Hne]; [reflexivity|].
  apply IH. destruct H; [congruence|assumption].
Qed.
Lemma ns_get_out ks c k : ~ In k ks -> ns_get (nsmap ks c) k = Exn KeyError.
Proof.
  induction ks as [|k' ks IH]; intros H; [reflexivity|]. cbn.
  destruct (String.eqb_spec k k') as [->|Hne]; [exfalso; apply H; now left|].
  apply IH. intros Hi. apply H. now right.
Qed.
Lemma ns_keys_nsmap ks c : ns_keys (nsmap ks c) = ks.
Proof. unfold ns_keys, nsmap. rewrite map_map. cbn. apply map_id. Qed.
Lemma ns_get_keys (d : ns A) k v : ns_get d k = Ok v -> In k (ns_keys d).
Proof.
  induction d as [|[k' v'] d IH]; cbn; [discriminate|].
  destruct (String.eqb_spec k k') as [->|Hne]; [now left|]. intros H. right. auto.
Qed.
Lemma ns_get_keys_ex (d : ns A) k : In k (ns_keys d) -> exists v, ns_get d k = Ok v.
Proof.
  induction d as [|[k' v'] d IH]; cbn; [intros []|].
  destruct (String.eqb_spec k k') as [->|Hne]; [eauto|]. intros [->|H]; [congruence|auto].
Qed.
Lemma ns_get_err (d : ns A) k e : ns_get d k = Exn e -> e = KeyError /\ ~ In k (ns_keys d).
Proof.
  induction d as [|[k' v'] d IH]; cbn; [intros H; injection H as <-; tauto|].
  destruct (String.eqb_spec k k') as [->|Hne]; [discriminate|]. intros H. destruct (IH H). split; [assumption|].
  intros [->|H']; tauto.
Qed.
Lemma nsmap_ext ks c c' : (forall k, In k ks -> c k = c' k) -> nsmap ks c = nsmap ks c'.
Proof. intros H. unfold nsmap. apply map_ext_in. intros k Hk. now rewrite H. Qed.
(** every duplicate-free namespace has this form *)
Definition nsval (d : ns A) (k : string) : arr A :=
  match ns_get d k with Ok v => v | Exn _ => scal nzero end.
Lemma nsmap_canon (d : ns A) : NoDup (ns_keys d) -> d = nsmap (ns_keys d) (nsval d).
Proof.
  induction d as [|[k v] d IH]; intros H; [reflexivity|]. cbn in H. inversion H as [|? ? Hn Hd]; subst.
  cbn [ns_keys map nsmap]. f_equal.
  - unfold nsval. cbn [fst ns_get]. now rewrite String.eqb_refl.
  - rewrite (IH Hd) at 1. apply nsmap_ext. intros k' Hk'. unfold nsval. cbn [ns_get].
    destruct (String.eqb_spec k' k) as [->|Hne]; [contradiction|reflexivity].
Qed.
Lemma ns_map_nsmap f ks c c' : (forall k, In k ks -> f k (c k) = Ok (c' k)) ->
  ns_map f (nsmap ks c) = Ok (nsmap ks c').
Proof.
  induction ks as [|k ks IH]; intros H; [reflexivity|]. cbn. rewrite H by now left. cbn.
  fold (nsmap ks c). rewrite IH by (intros; apply H; now right). reflexivity.
Qed.
Definition vupd (c : string -> arr A) (k : string) (v : arr A) : string -> arr A :=
  fun k' => if String.eqb k' k then v else c k'.
Lemma ns_set_in ks c k v : NoDup ks -> In k ks -> ns_set (nsmap ks c) k v = nsmap ks (vupd c k v).
Proof.
  induction ks as [|k' ks IH]; intros Hd H; [destruct H|]. inversion Hd as [|? ? Hn Hd']; subst. cbn.
  destruct (String.eqb_spec k k') as [->|Hne].
  - unfold vupd at 1. rewrite String.eqb_refl. f_equal. fold (nsmap ks (vupd c k' v)). apply nsmap_ext. intros k Hk.
    unfold vupd. destruct (String.eqb_spec k k') as [->|]; [contradiction|reflexivity].
  - f_equal.
    + unfold vupd. destruct (String.eqb_spec k' k); [congruence|reflexivity].
    + apply IH; [assumption|]. destruct H; [congruence|assumption].
Qed.
Lemma ns_set_out ks c k v : ~ In k ks -> ns_set (nsmap ks c) k v = nsmap (ks ++ [k]) (vupd c k v).
Proof.
  induction ks as [|k' ks IH]; intros H.
  - cbn. unfold vupd. now rewrite String.eqb_refl.
  - cbn. destruct (String.eqb_spec k k') as [->|Hne]; [exfalso; apply H; now left|].
    f_equal.
    + unfold vupd. destruct (String.eqb_spec k' k); [congruence|reflexivity].
    + apply IH. intros Hi. apply H. now right.
Qed.
Definition ksrem (key : string) (ks : list string) : list string := filter (fun k => negb (String.eqb k key)) ks.
Lemma ns_without_nsmap key ks c : ns_without key (nsmap ks c) = nsmap (ksrem key ks) c.
Proof.
  unfold ns_without, nsmap, ksrem. induction ks as [|k ks IH]; [reflexivity|]. cbn.
  destruct (String.eqb k key); cbn; [exact IH|]. f_equal. exact IH.
Qed.
Lemma in_ksrem key ks k : In k (ksrem key ks) <-> In k ks /\ k <> key.
Proof.
  unfold ksrem. rewrite filter_In, negb_true_iff. destruct (String.eqb_spec k key); intuition congruence.
Qed.
Lemma NoDup_ksrem key ks : NoDup ks -> NoDup (ksrem key ks).
Proof. intros. now apply NoDup_filter. Qed.

Lemma ns_has_in ks c k : ns_has (nsmap ks c) k = true <-> In k ks.
Proof.
  unfold ns_has. destruct (in_dec string_dec k ks) as [H|H].
  - rewrite ns_get_in by assumption. tauto.
  - rewrite ns_get_out by assumption. split; [discriminate|tauto].
Qed.

Lemma sc_scal (c : A) : sc c = Ok (scal c).
Proof. reflexivity. Qed.
Lemma lift2_scal op (a b : A) : lift2 op (Ok (scal a)) (Ok (scal b)) = Ok (scal (op a b)).
Proof. exact (lift2_scl op [] a (fun _ => b)). Qed.
Lemma map1_scal op (a : A) : map1 op (Ok (scal a)) = Ok (scal (op a)).
Proof. exact (map1_build op [] (fun _ => a)). Qed.
End NS.

(** ** sums and means *)
Local Open Scope R_scope.
Lemma nsum_R n (f : nat -> R) : nsum n f = rsum n f.
Proof. induction n as [|n IH]; [reflexivity|]. cbn [nsum rsum]. now rewrite IH. Qed.
Lemma rsum_ext' n f g : (forall i, (i < n)%nat -> f i = g i) -> rsum n f = rsum n g.
Proof. induction n as [|n IH]; intros H; [reflexivity|]. cbn [rsum]. rewrite IH, H; auto. Qed.
Lemma gsum_nsum ny nx f : nsum ny (fun i => nsum nx (fun j => f i j)) = gsum ny nx f.
Proof. rewrite nsum_R. unfold gsum. apply rsum_ext'. intros. apply nsum_R. Qed.
Lemma IZR_mul_nat a b : IZR (Z.of_nat (a * b)) = INR a * INR b.
Proof. rewrite <- INR_IZR_INZ, mult_INR. reflexivity. Qed.
Lemma mean2_stack rest ny nx (F : list nat -> nat -> nat -> R) :
  mean_last2 (Ok (stack rest ny nx F)) = Ok (build rest (fun r => gmean ny nx (F r))).
Proof.
  rewrite mean_last2_eq. f_equal. apply build_ext. intros r _. unfold gmean.
  cbn [ndiv nofZ NumR]. now rewrite gsum_nsum, IZR_mul_nat.
Qed.
Lemma mean2_grid ny nx (f : nat -> nat -> R) : mean_last2 (Ok (grid ny nx f)) = Ok (scal (gmean ny nx f)).
Proof. unfold grid. rewrite mean2_stack. reflexivity. Qed.
Lemma zonal_stack rest ny nx (F : list nat -> nat -> nat -> R) :
  zonal_transform (Ok (stack rest ny nx F)) = Ok (stack rest ny nx (fun r => ydev ny (F r))).
Proof.
  unfold zonal_transform. rewrite mean_y_keep_eq. unfold sub_. rewrite lift2_stack_y.
  f_equal. apply stack_ext. intros r i j _ _ _. unfold ydev, yavg. cbn [nsub ndiv nofZ NumR].
  now rewrite nsum_R, <- INR_IZR_INZ.
Qed.
Lemma zonal_grid ny nx f : zonal_transform (Ok (grid ny nx f)) = Ok (grid ny nx (ydev ny f)).
Proof. exact (zonal_stack [] ny nx (fun _ => f)). Qed.

Lemma truthy_R (x : R) : truthy x = true <-> x <> 0.
Proof. unfold truthy. cbn. destruct (Req_EM_T x 0); cbn; split; intros; congruence || tauto. Qed.
Lemma truthy_R_false (x : R) : truthy x = false <-> x = 0.
Proof. unfold truthy. cbn. destruct (Req_EM_T x 0); cbn; split; intros; congruence || tauto. Qed.

Lemma sign_pow_nat N : @sign_pow R NumR (Z.of_nat N + 1) = (-1) ^ (N + 1).
Proof.
  unfold sign_pow. replace (Z.of_nat N + 1)%Z with (Z.of_nat (N + 1)) by lia.
  rewrite <- (Nat2Z.id (N + 1)) at 2. generalize (N + 1)%nat as k. intros k. rewrite Nat2Z.id.
  destruct (Nat.Even_or_Odd k) as [[m ->]|[m ->]].
  - replace (Z.even (Z.of_nat (2 * m))) with true.
    + replace (2 * m)%nat with (m + m)%nat by lia. now rewrite pow_m1_even.
    + symmetry. apply Z.even_spec. exists (Z.of_nat m). lia.
  - replace (Z.even (Z.of_nat (2 * m + 1))) with false.
    + replace (2 * m + 1)%nat with (m + m + 1)%nat by lia. rewrite pow_add, pow_m1_even. cbn. lra.
    + symmetry. rewrite <- Z.negb_odd. apply negb_false_iff, Z.odd_spec. exists (Z.of_nat m). lia.
Qed.

(** ** spec functions vs the forms used in the lemma libraries *)
Lemma jacobian_ara ny nx dx f g i j : dx <> 0 -> jacobian ny nx dx f g i j = ara ny nx dx f g i j.
Proof.
  intros Hd. rewrite ara_R. unfold jacobian, jac_pp, jac_px, jac_xp, P. cbv zeta. field. exact Hd.
Qed.
Lemma invlap_rmult ny nx dx om i j : (0 < ny)%nat -> (0 < nx)%nat -> dx <> 0 ->
  invlap ny nx dx om i j = dx ^ 2 * rmult ny nx (inv_sym ny nx 0 1) om i j.
Proof.
  intros Hy Hx Hd. rewrite <- rmult_scale. unfold invlap, rmult, mult. f_equal.
  apply idft2_ext. intros k l Hk Hl. unfold inv_sym.
  change (is00 k l) with ((k =? 0)%nat && (l =? 0)%nat)%bool.
  destruct ((k =? 0)%nat && (l =? 0)%nat)%bool eqn:E.
  - apply C_eq; cbn; ring.
  - rewrite lam_symbol by assumption. fold (is00 k l) in E.
    assert (lam ny nx k l < 0) by (apply lam_neg; auto; now apply is00_false).
    apply f_equal2; [|reflexivity]. rewrite pow_1. field. split; [lra|assumption].
Qed.
Lemma invlap_centered ny nx dx om i j : (0 < ny)%nat -> (0 < nx)%nat -> dx <> 0 -> (i < ny)%nat -> (j < nx)%nat ->
  rmult ny nx (inv_sym ny nx 0 1) (centered ny nx om) i j * dx ^ 2 = invlap ny nx dx om i j.
Proof.
  intros Hy Hx Hd Hi Hj. rewrite invlap_rmult by assumption. rewrite Rmult_comm. f_equal.
  transitivity (rmult ny nx (inv_sym ny nx 0 1) (fadd (fscale 1 om) (fscale (- gmean ny nx om) (fconst 1))) i j).
  { apply rmult_ext; auto. intros. unfold centered, fadd, fscale, fconst. ring. }
  rewrite rmult_lin.
  assert (E : rmult ny nx (inv_sym ny nx 0 1) (fconst 1) i j = 0).
  { transitivity (rmult ny nx (inv_sym ny nx 0 1) (rmult ny nx (fun k l => if is00 k l then 1 else 0) (fconst 1)) i j).
    - apply rmult_ext; auto. intros k l Hk Hl. symmetry.
      rewrite (rmult_dc ny nx _ (fun _ _ => 0)); try assumption.
      + replace (rmult ny nx (fun _ _ => 0) (fconst 1) k l) with 0.
        * cbn. unfold gmean, fconst. rewrite gsum_const. field. split; apply not_0_INR; lia.
        * transitivity (rmult ny nx (fun k l => 0 * 0) (fconst 1) k l); [rewrite rmult_scale; ring|apply rmult_ext; auto; intros; ring].
      + intros a b Ha Hb Hne. destruct (is00 a b) eqn:E; [apply is00_true in E; lia|reflexivity].
    - rewrite rmult_rmult.
      + transitivity (rmult ny nx (fun k l => 0 * 0) (fconst 1) i j); [|rewrite rmult_scale; ring].
        apply rmult_ext; auto. intros k l _ _. unfold inv_sym. destruct (is00 k l); ring.
      + assumption. + assumption.
      + intros k l Hk Hl. rewrite is00_neg by assumption. reflexivity. }
  rewrite E. ring.
Qed.

(** ** The two backends on grids *)
Record acts (b : backend R) (ny nx : nat) (dx : R) (N : nat) : Prop := {
  act_phi : forall om, get_phi (poisson_solver b) (Ok (grid ny nx om)) dx = Ok (grid ny nx (invlap ny nx dx om));
  act_dif : forall f, diffuse_N b (Ok (grid ny nx f)) dx (Z.of_nat N) = Ok (grid ny nx (lap_iter N ny nx dx f));
  act_brk : forall f g, poisson_bracket b (Ok (grid ny nx f)) (Ok (grid ny nx g)) dx = Ok (grid ny nx (jacobian ny nx dx f g));
  act_grd : forall f, gradient_func b (Ok (grid ny nx f)) dx 0 = Ok (Some (grid ny nx (cdy ny dx f))) }.

Lemma backend_acts ny nx b dx N : (0 < ny)%nat -> (0 < nx)%nat -> dx <> 0 ->
  backend_ok ny nx b -> acts b ny nx dx N.
Proof.
  intros Hy Hx Hd Hb.
  assert (Hnp : forall om, get_phi np_solve (Ok (grid ny nx om)) dx = Ok (grid ny nx (invlap ny nx dx om))).
  { intros om. rewrite get_phi_np by assumption. f_equal. apply grid_ext. intros i j Hi Hj.
    now apply invlap_centered. }
  assert (Hbr : forall f g, np_periodic_arakawa_vec (Ok (grid ny nx f)) (Ok (grid ny nx g)) dx =
     Ok (grid ny nx (jacobian ny nx dx f g))).
  { intros f g. rewrite np_periodic_arakawa_vec_grid by assumption. f_equal. apply grid_ext.
    intros i j _ _. symmetry. now apply jacobian_ara. }
  assert (Hgr : forall f, np_periodic_gradient (Ok (grid ny nx f)) dx 0 = Ok (Some (grid ny nx (cdy ny dx f)))).
  { intros f. rewrite np_grad_pos by (auto; lia). reflexivity. }
  destruct Hb as [->|(-> & By & Bx)]; constructor; cbn [np_backend nb_backend poisson_solver diffuse_N poisson_bracket gradient_func]; intros.
  - apply Hnp.
  - rewrite np_periodic_laplace_N_grid, Nat2Z.id by assumption. reflexivity.
  - apply Hbr.
  - apply Hgr.
  - rewrite <- Hnp. now apply get_phi_nb.
  - rewrite nb_periodic_laplace_N_grid, Nat2Z.id by (assumption || lia). reflexivity.
  - rewrite nb_periodic_arakawa_stencil_grid, <- np_periodic_arakawa_vec_grid by assumption. apply Hbr.
  - rewrite nb_np_grad by lia. apply Hgr.
Qed.

(** ** running the monad *)
Definition tell {X} (l : list string) (m : M X) : M X := ((l ++ fst m)%list, snd m).
Lemma mbind_ok {X Y} l (x : X) (f : X -> M Y) : mbind (l, Ok x) f = tell l (f x).
Proof. unfold mbind, tell. destruct (f x); reflexivity. Qed.
Lemma mbind_lift {X Y} (x : X) (f : X -> M Y) : mbind (mlift (Ok x)) f = f x.
Proof. unfold mbind, mlift. destruct (f x); reflexivity. Qed.
Lemma mbind_ret {X Y} (x : X) (f : X -> M Y) : mbind (mret x) f = f x.
Proof. unfold mbind, mret. destruct (f x); reflexivity. Qed.
Lemma mbind_log {Y} s (f : unit -> M Y) : mbind (mlog s) f = tell [s] (f tt).
Proof. unfold mbind, mlog, tell. destruct (f tt); reflexivity. Qed.
Lemma tell_tell {X} l l' (m : M X) : tell l (tell l' m) = tell (l ++ l') m.
Proof. unfold tell. cbn. now rewrite app_assoc. Qed.
Lemma tell_pair {X} l l' (r : res X) : tell l (l', r) = ((l ++ l')%list, r).
Proof. reflexivity. Qed.
Lemma tell_ret {X} l (x : X) : tell l (mret x) = (l, Ok x).
Proof. unfold tell, mret. cbn. now rewrite app_nil_r. Qed.
Lemma mbind_tell {X Y} l (m : M X) (f : X -> M Y) : mbind (tell l m) f = tell l (mbind m f).
Proof.
  destruct m as [l' [x|e]]; unfold tell, mbind; cbn; [|reflexivity].
  destruct (f x). cbn. now rewrite app_assoc.
Qed.

(** ** evaluating one gradient *)
Section Eval.
Variables (b : backend R) (p : par) (dx0 : R) (test : bool) (ny nx : nat) (dx : R).
Hypothesis Hy : (0 < ny)%nat.
Hypothesis Hx : (0 < nx)%nat.
Hypothesis Hb : acts b ny nx dx (pN p).
Local Notation h := (hw_of b p dx0 test).
Local Notation nu' := ((-1) ^ (pN p + 1) * pnu p).

Lemma hnu_of : hnu h = nu'.
Proof. cbn [hnu hw_of hw_init]. now rewrite sign_pow_nat. Qed.

Lemma hw_get_phi_grid om :
  hw_get_phi h (Ok (grid ny nx om)) dx = (["get_phi"%string], Ok (grid ny nx (invlap ny nx dx om))).
Proof.
  unfold hw_get_phi. pose proof (act_phi _ _ _ _ _ Hb om) as E. unfold get_phi in E.
  cbn [schemes hw_of hw_init]. rewrite E, mbind_lift, mbind_log. apply tell_ret.
Qed.
Lemma hw_diffuse_grid f :
  hw_diffuse h (Ok (grid ny nx f)) dx (hN h) = (["diffuse"%string], Ok (grid ny nx (lap_iter (pN p) ny nx dx f))).
Proof.
  unfold hw_diffuse. cbn [schemes hw_of hw_init hN]. rewrite (act_dif _ _ _ _ _ Hb), mbind_lift, mbind_log.
  apply tell_ret.
Qed.

Definition pb_log : list string := if truthy (ppb p) then ["poisson_bracket"%string] else [].
Definition nu_log : list string := if truthy nu' then ["diffuse"%string] else [].

Lemma blk_pb phi f o :
  (if truthy (hpb h) then
     do* a := mlift (mul_ (sc (nopp (hpb h))) (poisson_bracket (schemes h) (Ok (grid ny nx phi)) (Ok (grid ny nx f)) dx)) in
     do* _ := mlog "poisson_bracket" in
     mlift (iadd (Ok (grid ny nx o)) (Ok a))
   else mret (grid ny nx o)) =
  (pb_log, Ok (grid ny nx (fun i j => o i j - ppb p * jacobian ny nx dx phi f i j))).
Proof.
  unfold pb_log. cbn [hpb schemes hw_of hw_init]. rewrite (act_brk _ _ _ _ _ Hb).
  destruct (truthy (ppb p)) eqn:E.
  - unfold mul_. rewrite lift2_grid_scl, mbind_lift, mbind_log, iadd_grid. unfold mlift. rewrite tell_pair. cbn [app].
    do 2 f_equal. apply grid_ext. intros. cbn [nadd nmul nopp NumR]. ring.
  - apply truthy_R_false in E. rewrite E. unfold mret. do 2 f_equal. apply grid_ext. intros. ring.
Qed.

Lemma blk_nu f o :
  (if truthy (hnu h) then
     do* d := hw_diffuse h (Ok (grid ny nx f)) dx (hN h) in
     do* Do := mlift (mul_ (sc (hnu h)) (Ok d)) in
     mlift (iadd (Ok (grid ny nx o)) (Ok Do))
   else mret (grid ny nx o)) =
  (nu_log, Ok (grid ny nx (fun i j => o i j + hyper p ny nx dx f i j))).
Proof.
  unfold nu_log. rewrite hnu_of. destruct (truthy nu') eqn:E.
  - rewrite hw_diffuse_grid, mbind_ok. unfold mul_. rewrite lift2_grid_scl, mbind_lift, iadd_grid.
    unfold mlift. rewrite tell_pair. cbn [app].
    reflexivity.
  - apply truthy_R_false in E. unfold mret. do 2 f_equal. apply grid_ext. intros. unfold hyper. rewrite E. ring.
Qed.

(** Dn is either the hyper-diffusion or the number 0 *)
Definition Dn_val (f : field) : arr R :=
  if truthy nu' then grid ny nx (hyper p ny nx dx f) else scal 0.
Lemma blk_nu_n f o :
  (if truthy (hnu h) then
     do* d := hw_diffuse h (Ok (grid ny nx f)) dx (hN h) in
     do* Dn := mlift (mul_ (sc (hnu h)) (Ok d)) in
     do* n := mlift (iadd (Ok (grid ny nx o)) (Ok Dn)) in
     mret (n, Dn)
   else mret (grid ny nx o, scal (nofZ 0))) =
  (nu_log, Ok (grid ny nx (fun i j => o i j + hyper p ny nx dx f i j), Dn_val f)).
Proof.
  unfold nu_log, Dn_val. rewrite hnu_of. destruct (truthy nu') eqn:E.
  - rewrite hw_diffuse_grid, mbind_ok. unfold mul_. rewrite lift2_grid_scl, mbind_lift, iadd_grid.
    rewrite mbind_lift, tell_ret. reflexivity.
  - apply truthy_R_false in E. unfold mret. do 3 f_equal. apply grid_ext. intros. unfold hyper. rewrite E. ring.
Qed.
Lemma blk_kap phi o :
  (if truthy (hkappa h) then
     do* kap := mlift (mul_ (sc (nopp (hkappa h))) (force (Ok (Some (grid ny nx (cdy ny dx phi)))))) in
     mlift (iadd (Ok (grid ny nx o)) (Ok kap))
   else mret (grid ny nx o)) =
  ([], Ok (grid ny nx (fun i j => o i j - pkap p * cdy ny dx phi i j))).
Proof.
  cbn [hkappa hw_of hw_init]. destruct (truthy (pkap p)) eqn:E.
  - cbn [force bind]. unfold mul_. rewrite lift2_grid_scl, mbind_lift, iadd_grid. unfold mlift.
    do 2 f_equal. apply grid_ext. intros. cbn [nadd nmul nopp NumR]. ring.
  - apply truthy_R_false in E. rewrite E. unfold mret. do 2 f_equal. apply grid_ext. intros. ring.
Qed.
Lemma coupling_grid phi n :
  (if hzonal h then sub_ (zonal_transform (Ok (grid ny nx phi))) (zonal_transform (Ok (grid ny nx n)))
   else sub_ (Ok (grid ny nx phi)) (Ok (grid ny nx n))) = Ok (grid ny nx (coupling p ny phi n)).
Proof.
  cbn [hzonal hw_of hw_init]. unfold coupling. destruct (pzon p).
  - rewrite !zonal_grid. unfold sub_. now rewrite lift2_grid.
  - unfold sub_. now rewrite lift2_grid.
Qed.

(** diagnostics on one frame *)
Lemma gamma_n_grid n phi d : get_gamma_n (Ok (grid ny nx n)) (Ok (grid ny nx phi)) d None =
  Ok (scal (- gmean ny nx (fun i j => n i j * cdy ny d phi i j))).
Proof.
  unfold get_gamma_n. pose proof (np_grad_m2 [] ny nx d (fun _ => phi) Hy Hx) as E. fold (grid ny nx phi) in E.
  rewrite E. cbn [force bind]. unfold mul_. fold (grid ny nx (cdy ny d phi)). rewrite lift2_grid, mean2_grid. apply map1_scal.
Qed.
Lemma gamma_c_grid n phi c d : get_gamma_c (Ok (grid ny nx n)) (Ok (grid ny nx phi)) c d =
  Ok (scal (c * gmean ny nx (fun i j => (n i j - phi i j) ^ 2))).
Proof.
  unfold get_gamma_c, sub_, powk, mul_. rewrite lift2_grid, map1_grid, mean2_grid, sc_scal. apply lift2_scal.
Qed.
Lemma mul_Dn n f : mul_ (Ok (grid ny nx n)) (Ok (Dn_val f)) = Ok (grid ny nx (fun i j => n i j * hyper p ny nx dx f i j)).
Proof.
  unfold Dn_val, mul_. destruct (truthy nu') eqn:E; [apply lift2_grid|].
  apply truthy_R_false in E. rewrite <- sc_scal, lift2_grid_scr. f_equal. apply grid_ext. intros. unfold hyper. rewrite E.
  cbn. ring.
Qed.
Lemma sub_Dn f g : sub_ (Ok (Dn_val f)) (Ok (grid ny nx g)) = Ok (grid ny nx (fun i j => hyper p ny nx dx f i j - g i j)).
Proof.
  unfold Dn_val, sub_. destruct (truthy nu') eqn:E; [apply lift2_grid|].
  apply truthy_R_false in E. rewrite <- sc_scal, lift2_grid_scl. f_equal. apply grid_ext. intros. unfold hyper. rewrite E.
  cbn. ring.
Qed.

(** the reported rates *)
Definition rep_dE (phi n : field) : R :=
  - gmean ny nx (fun i j => n i j * cdy ny dx0 phi i j)
  - pc1 p * gmean ny nx (fun i j => (n i j - phi i j) ^ 2)
  - gmean ny nx (fun i j => n i j * hyper p ny nx dx n i j - phi i j * hyper p ny nx dx phi i j).
Definition rep_dU (phi n o : field) : R :=
  - gmean ny nx (fun i j => n i j * cdy ny dx0 phi i j)
  - - gmean ny nx (fun i j => (n i j - o i j) * (hyper p ny nx dx n i j - hyper p ny nx dx phi i j)).

Definition gkeys (age : bool) : list string :=
  (["density"%string; "omega"%string] ++ (if age then ["age"%string] else [])
    ++ (if test then ["dE"%string; "dU"%string] else []))%list.
(** valuation: fields at "density" and "omega", numbers elsewhere *)
Definition V (n o : field) (s : string -> R) (k : string) : arr R :=
  if String.eqb k "density" then grid ny nx n
  else if String.eqb k "omega" then grid ny nx o else scal (s k).
Definition gvals (phi n o : field) (age : R) (k : string) : R :=
  if String.eqb k "dE" then rep_dE phi n else if String.eqb k "dU" then rep_dU phi n o else age.

Definition grad_log : list string :=
  (["gradient_2d"%string] ++ pb_log ++ nu_log ++ pb_log ++ nu_log ++ (if test then ["diffuse"%string] else []))%list.

Lemma hw2d_gradient_grid n o phi dt (age : option R) :
  hw2d_gradient h (grid ny nx n) (grid ny nx o) dt dx (Some (grid ny nx phi)) (hzonal h)
    (match age with Some a => Some (scal a) | None => None end) =
  (grad_log, Ok (nsmap (gkeys (match age with Some _ => true | None => false end))
     (V (rhs_n p ny nx dx phi n) (rhs_o p ny nx dx phi n o)
        (gvals phi n o (match age with Some a => a + dt | None => 0 end))))).
Proof.
  unfold hw2d_gradient. rewrite mbind_ret. rewrite (act_grd _ _ _ _ _ Hb), mbind_lift, mbind_log.
  rewrite coupling_grid, mbind_lift.
  assert (E1 : mul_ (sc (hc1 h)) (Ok (grid ny nx (coupling p ny phi n))) =
               Ok (grid ny nx (fun i j => pc1 p * coupling p ny phi n i j))).
  { unfold mul_. rewrite lift2_grid_scl. reflexivity. }
  rewrite E1, mbind_lift, blk_pb, mbind_ok, blk_nu, mbind_ok.
  rewrite mbind_lift, blk_pb, mbind_ok, blk_kap, mbind_ok, blk_nu_n, mbind_ok. cbn [fst snd].
  assert (Ea : (match (match age with Some a => Some (scal a) | None => None end) with
    | Some a => let* a' := add_ (Ok a) (sc dt) in
                Ok [("density", grid ny nx (fun i j => pc1 p * coupling p ny phi n i j - ppb p * jacobian ny nx dx phi n i j
        - pkap p * cdy ny dx phi i j + hyper p ny nx dx n i j)); 
                    ("omega", grid ny nx (fun i j => pc1 p * coupling p ny phi n i j - ppb p * jacobian ny nx dx phi o i j + hyper p ny nx dx o i j)); ("age", a')]%string
    | None => Ok [("density", grid ny nx (fun i j => pc1 p * coupling p ny phi n i j - ppb p * jacobian ny nx dx phi n i j
        - pkap p * cdy ny dx phi i j + hyper p ny nx dx n i j)); ("omega", grid ny nx (fun i j => pc1 p * coupling p ny phi n i j - ppb p * jacobian ny nx dx phi o i j + hyper p ny nx dx o i j))]%string
    end) = Ok (nsmap (["density"%string; "omega"%string] ++ (match age with Some _ => ["age"%string] | None => [] end))%list
     (V (rhs_n p ny nx dx phi n) (rhs_o p ny nx dx phi n o)
        (gvals phi n o (match age with Some a => a + dt | None => 0 end))))).
  { destruct age as [a|]; [|reflexivity]. rewrite sc_scal. unfold add_. rewrite lift2_scal. reflexivity. }
  rewrite Ea, mbind_lift. clear Ea.
  cbn [htest hw_of hw_init]. unfold grad_log, gkeys.
  assert (E2 : mul_ (sc (hnu h)) (Ok (grid ny nx (lap_iter (pN p) ny nx dx phi))) =
               Ok (grid ny nx (hyper p ny nx dx phi))).
  { rewrite hnu_of. unfold mul_. rewrite lift2_grid_scl. reflexivity. }
  pose proof (hw_diffuse_grid phi) as E3.
  destruct test.
  - unfold hw_get_gammas. rewrite gamma_n_grid. cbn [bind]. rewrite gamma_c_grid. cbn [bind].
    rewrite mbind_lift, E3, mbind_ok. cbn [fst snd].
    rewrite E2, mbind_lift.
    unfold get_DE, get_DU, get_dE_dt, get_dU_dt. rewrite mul_Dn, sub_Dn.
    unfold mul_, sub_. rewrite !lift2_grid, !mean2_grid. unfold neg_. rewrite map1_scal, mbind_lift, mbind_lift.
    rewrite !lift2_scal, mbind_lift, mbind_lift.
    rewrite !tell_tell, tell_ret. f_equal.
    + cbn [app]; rewrite <- ?app_assoc; reflexivity.
    + f_equal. destruct age; cbn; reflexivity.
  - rewrite !tell_tell, tell_ret. f_equal.
    + cbn [app]. rewrite <- ?app_assoc, app_nil_r. reflexivity.
    + f_equal. destruct age; reflexivity.
Qed.
End Eval.
