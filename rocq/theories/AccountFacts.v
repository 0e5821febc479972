(** Steps with the keys dE and dU: what they add, and how it compares with the
    energy and the enstrophy of the fields (C114). *)
From Coq Require Import List Arith ZArith Lia Bool Reals Lra Psatz String FunctionalExtensionality Permutation.
From Verif Require Import Num NdArray NdFacts ModelGradients Spec GradFacts SumFacts LapFacts GradProps
  ModelArakawa ArakawaFacts Cplx DftFacts SpecFourier ModelPoisson PoissonFacts PoissonProps
  ModelProperties ModelHW ModelBackend SpecHW SpecPlasma HWFacts StepFacts RhsFacts SymFacts HWProps BalanceProps OdeFacts RkOrder
  SmoothFacts HwExist SpecConv SpecAccount.
Import ListNotations.
Local Open Scope R_scope.

Lemma ns_get_without (d : ns R) key k : k <> key -> ns_get (ns_without key d) k = ns_get d k.
Proof.
  intros H. induction d as [|[k' v] d IH]; [reflexivity|]. cbn [ns_without filter fst].
  destruct (String.eqb_spec k' key) as [->|Hn]; cbn [negb].
  - cbn [ns_get]. destruct (String.eqb_spec k key); [congruence|exact IH].
  - cbn [ns_get]. destruct (String.eqb k k'); [reflexivity|exact IH].
Qed.

Section Step.
Variables (b : backend R) (p : par) (test : bool) (ny nx : nat) (dx : R).
Hypothesis Hy : (0 < ny)%nat.
Hypothesis Hx : (0 < nx)%nat.
Hypothesis Hb : acts b ny nx dx (pN p).
Local Notation h := (hw_of b p dx test).
Local Notation V := (V ny nx).
Local Notation F := (hw_rhs p ny nx dx).
Local Notation keys_ok := (keys_ok test).

(** the rate reported for key k *)
Definition rate (k : string) (y : state) : R :=
  if String.eqb k "dE" then reported_dE p ny nx dx y else reported_dU p ny nx dx y.

Lemma gvals_rate k y age : In k ["dE"; "dU"]%string ->
  gvals p dx ny nx dx (invlap ny nx dx (snd y)) (fst y) (snd y) age k = rate k y.
Proof.
  intros [<-|[<-|[]]]; cbn; [reflexivity|]. unfold rep_dU, reported_dU. lra.
Qed.

Lemma stage_acc ks y s phi dtk dt : keys_ok ks -> agree ny nx phi (invlap ny nx dx (snd y)) ->
  exists s', (forall k, In k ["dE"; "dU"]%string -> s' k = dt * rate k y) /\
    stage h (nsmap ks (V (fst y) (snd y) s)) (grid ny nx phi) dtk dt dx =
    (grad_log p test, Ok (nsmap (gkeys test true) (V (fst (sscale dt (F y))) (snd (sscale dt (F y))) s'))).
Proof.
  intros Hk Hp. eexists. split; cycle 1.
  - unfold stage. rewrite (grid_ext ny nx _ _ Hp), (gradient_2d_grid b p dx test ny nx dx Hy Hx Hb) by assumption.
    rewrite mbind_ok. unfold mscale. rewrite V_scale. unfold mlift. rewrite tell_pair, app_nil_r. reflexivity.
  - intros k Hin. cbv beta. f_equal. now apply gvals_rate.
Qed.

Lemma canon_acc pl n o phi a : plasma_ok test ny nx pl n o phi a ->
  exists s, keys_ok (ksrem "phi" (ns_keys pl)) /\ s "age"%string = a /\
    (forall k e, In k ["dE"; "dU"]%string -> ns_get pl k = Ok (scal e) -> In k (ksrem "phi" (ns_keys pl)) /\ s k = e) /\
    ns_without "phi" pl = nsmap (ksrem "phi" (ns_keys pl)) (V n o s).
Proof.
  intros H. destruct (plasma_canon test ny nx _ _ _ _ _ H) as (s & Hk & Ha & E). exists s.
  split; [exact Hk|]. split; [exact Ha|]. split; [|exact E].
  intros k e Hi Hg. assert (Hne : k <> "phi"%string) by (destruct Hi as [<-|[<-|[]]]; discriminate).
  assert (Hin : In k (ksrem "phi" (ns_keys pl))) by (apply in_ksrem; split; [eapply ns_get_keys, Hg|exact Hne]).
  split; [exact Hin|]. pose proof (ns_get_without pl "phi" k Hne) as G. rewrite E, Hg, ns_get_in in G by exact Hin.
  unfold HWFacts.V in G. assert (SI : forall x z : R, Ok (scal x) = Ok (scal z) -> x = z) by (intros x z Hq; injection Hq as Hq; exact Hq).
  destruct Hi as [<-|[<-|[]]]; cbn in G; now apply SI.
Qed.

Lemma final_acc ks n' o' s phi' a' k : keys_ok ks -> ~ In "phi"%string ks -> In k ["dE"; "dU"]%string -> In k ks ->
  ns_get (ns_set (ns_set (nsmap ks (V n' o' s)) "phi" (grid ny nx phi')) "age" (scal a')) k = Ok (scal (s k)).
Proof.
  intros Hk Hnp Hi Hin. rewrite ns_set_out by assumption.
  assert (Hnd2 : NoDup (ks ++ ["phi"%string])).
  { apply NoDup_Add with (a := "phi"%string) (l := ks).
    - rewrite <- (app_nil_r ks) at 1. apply Add_app.
    - split; [apply Hk|assumption]. }
  rewrite ns_set_in by (try assumption; apply in_or_app; left; apply Hk).
  rewrite ns_get_in by (apply in_or_app; now left). f_equal. unfold vupd, HWFacts.V.
  destruct Hi as [<-|[<-|[]]]; reflexivity.
Qed.

Lemma rk4_acc pl n o phi a dt : plasma_ok test ny nx pl n o phi a -> agree ny nx phi (invlap ny nx dx o) ->
  exists lg pl', rk4_step h pl dt dx = (lg, Ok pl') /\
    forall k e, In k ["dE"; "dU"]%string -> ns_get pl k = Ok (scal e) ->
      ns_get pl' k = Ok (scal (e + rk4_gain F (rate k) dt (n, o))).
Proof.
  intros Hpl Hphi. destruct (canon_acc _ _ _ _ _ Hpl) as (s & Hk & Ha & Hs & Ey).
  set (ks := ksrem "phi" (ns_keys pl)) in *. set (y := (n, o) : state).
  unfold rk4_step. rewrite Ey. unfold mget at 1. rewrite (po_p _ _ _ _ _ _ _ _ Hpl). rewrite mbind_lift.
  change (V n o s) with (V (fst y) (snd y) s).
  destruct (stage_acc ks y s phi (nofZ 0) dt Hk Hphi) as (s1 & R1 & E1). rewrite E1, mbind_ok. clear E1.
  rewrite mscale_V, mbind_lift, (madd_V ny nx), mbind_lift by now apply keys_in.
  set (k1 := F y).
  rewrite (V_sext ny nx ks (sadd y (sscale half (sscale dt k1))) (sadd y (sscale (dt / 2) k1))).
  2:{ split; intros i j _ _; cbn; unfold fadd, fscale, half; cbn; field. }
  rewrite (mget_omega test ny nx), mbind_lift by assumption.
  rewrite (hw_get_phi_grid b p dx test ny nx dx Hb), mbind_ok.
  set (y1 := sadd y (sscale (dt / 2) k1)).
  match goal with |- context [stage h (nsmap ks (V (fst y1) (snd y1) ?s)) _ ?d] =>
    destruct (stage_acc ks y1 s (invlap ny nx dx (snd y1)) d dt Hk (fun i j _ _ => eq_refl)) as (s2 & R2 & E2) end.
  rewrite E2, mbind_ok. clear E2.
  rewrite mscale_V, mbind_lift, (madd_V ny nx), mbind_lift by now apply keys_in.
  set (k2 := F y1).
  rewrite (V_sext ny nx ks (sadd y (sscale half (sscale dt k2))) (sadd y (sscale (dt / 2) k2))).
  2:{ split; intros i j _ _; cbn; unfold fadd, fscale, half; cbn; field. }
  rewrite (mget_omega test ny nx), mbind_lift by assumption.
  rewrite (hw_get_phi_grid b p dx test ny nx dx Hb), mbind_ok.
  set (y2 := sadd y (sscale (dt / 2) k2)).
  match goal with |- context [stage h (nsmap ks (V (fst y2) (snd y2) ?s)) _ ?d] =>
    destruct (stage_acc ks y2 s (invlap ny nx dx (snd y2)) d dt Hk (fun i j _ _ => eq_refl)) as (s3 & R3 & E3) end.
  rewrite E3, mbind_ok. clear E3.
  rewrite (madd_V ny nx), mbind_lift by now apply keys_in.
  set (k3 := F y2).
  rewrite (mget_omega test ny nx), mbind_lift by assumption.
  rewrite (hw_get_phi_grid b p dx test ny nx dx Hb), mbind_ok.
  set (y3 := sadd y (sscale dt k3)).
  match goal with |- context [stage h (nsmap ks (V (fst y3) (snd y3) ?s)) _ ?d] =>
    destruct (stage_acc ks y3 s (invlap ny nx dx (snd y3)) d dt Hk (fun i j _ _ => eq_refl)) as (s4 & R4 & E4) end.
  rewrite E4, mbind_ok. clear E4.
  set (k4 := F y3).
  rewrite mscale_V, mbind_lift, (madd_V ny nx), mbind_lift by auto.
  rewrite mscale_V, mbind_lift, (madd_V ny nx), mbind_lift by auto.
  rewrite (madd_V ny nx), mbind_lift by auto.
  rewrite mscale_V, mbind_lift, (madd_V ny nx), mbind_lift by now apply keys_in.
  rewrite (mget_omega test ny nx), mbind_lift by assumption.
  rewrite (hw_get_phi_grid b p dx test ny nx dx Hb), mbind_ok.
  unfold mget. rewrite (po_a _ _ _ _ _ _ _ _ Hpl), mbind_lift. rewrite sc_scal. unfold add_. rewrite lift2_scal, mbind_lift, mbind_log.
  eexists _, _. split.
  - rewrite !tell_tell, tell_ret. reflexivity.
  - intros k e Hi Hg. destruct (Hs k e Hi Hg) as [Hin Hse].
    rewrite final_acc; [|exact Hk|unfold ks; rewrite in_ksrem; tauto|exact Hi|exact Hin].
    do 2 f_equal. rewrite Hse, (R1 k Hi), (R2 k Hi), (R3 k Hi), (R4 k Hi).
    unfold rk4_gain. fold k1. fold y1. fold k2. fold y2. fold k3. fold y3. fold y.
    cbn [nofZ ndiv NumR]. cbn -[rate y1 y2 y3]. field.
Qed.

Lemma euler_acc pl n o phi a dt : plasma_ok test ny nx pl n o phi a -> agree ny nx phi (invlap ny nx dx o) ->
  exists lg pl', euler_step h pl dt dx = (lg, Ok pl') /\
    forall k e, In k ["dE"; "dU"]%string -> ns_get pl k = Ok (scal e) ->
      ns_get pl' k = Ok (scal (e + euler_gain (rate k) dt (n, o))).
Proof.
  intros Hpl Hphi. destruct (canon_acc _ _ _ _ _ Hpl) as (s & Hk & Ha & Hs & Ey).
  set (ks := ksrem "phi" (ns_keys pl)) in *. set (y := (n, o) : state).
  unfold euler_step. rewrite Ey. rewrite (po_p _ _ _ _ _ _ _ _ Hpl), (grid_ext ny nx _ _ Hphi).
  rewrite (gradient_2d_grid b p dx test ny nx dx Hy Hx Hb), mbind_ok by assumption.
  change (rhs_n p ny nx dx (invlap ny nx dx o) n) with (fst (F y)).
  change (rhs_o p ny nx dx (invlap ny nx dx o) n o) with (snd (F y)).
  rewrite mscale_V, mbind_lift.
  change (V n o s) with (V (fst y) (snd y) s).
  rewrite (madd_V ny nx), mbind_lift by now apply keys_in.
  rewrite (mget_omega test ny nx), mbind_lift by assumption.
  rewrite (hw_get_phi_grid b p dx test ny nx dx Hb), mbind_ok.
  unfold mget. rewrite (po_a _ _ _ _ _ _ _ _ Hpl), mbind_lift. rewrite sc_scal. unfold add_. rewrite lift2_scal, mbind_lift, mbind_log.
  eexists _, _. split.
  - rewrite !tell_tell, tell_ret. reflexivity.
  - intros k e Hi Hg. destruct (Hs k e Hi Hg) as [Hin Hse].
    rewrite final_acc; [|exact Hk|unfold ks; rewrite in_ksrem; tauto|exact Hi|exact Hin].
    do 2 f_equal. rewrite Hse. change (gvals p dx ny nx dx (invlap ny nx dx o) n o) with (gvals p dx ny nx dx (invlap ny nx dx (snd y)) (fst y) (snd y)).
    rewrite gvals_rate by exact Hi. reflexivity.
Qed.
End Step.
