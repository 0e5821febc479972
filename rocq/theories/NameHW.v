(** Names of properties in HW simulations with run2. *)
From Coq Require Import Arith ZArith Bool Reals String List Lia Lra.
From Verif Require Import Num NdArray NdFacts Spec SpecHW SpecDiag SpecPlasma ModelProperties ModelHW ModelBackend DiagProps
  ModelIO ModelRun ModelRunHW ModelPropArgs SpecIO SpecRun SpecRunHW SpecNames IOFacts RunFiles RunHWFacts RunHWProps Run2Props PropArgFacts.
Import ListNotations.
Local Open Scope string_scope.
#[local] Existing Instance TimeR.

Lemma name_raises n e a b o dx c1 : name_error n e -> hw_prop n a b o dx c1 = Exn e.
Proof.
  intros [[H ->]|[H1 [H2 ->]]]; unfold hw_prop, property_fncs.
  - cbn in H. destruct H as [<-|[<-|[<-|[<-|[]]]]]; reflexivity.
  - unfold computable in H1.
    repeat match goal with |- context [String.eqb n ?k] => destruct (String.eqb_spec n k) as [E|_]; [exfalso; apply H1; subst; cbn; tauto|] end.
    fold uncallable. replace (existsb (String.eqb n) uncallable) with false; [reflexivity|].
    symmetry. destruct (existsb (String.eqb n) uncallable) eqn:E; [|reflexivity]. apply existsb_In in E. contradiction.
Qed.

Lemma computable_fits g k : Nat.even g = true -> In k computable -> prop_fits k g g.
Proof. intros E H. cbn in H. unfold prop_fits. cbn. intuition (subst; auto). Qed.
Lemma default_fit g k : Nat.even g = true -> In k default_props -> prop_fits k g g.
Proof. intros E H. now apply computable_fits. Qed.
Lemma first_bad l : (exists n, In n l /\ ~ In n computable) ->
  exists l1 n l2, l = (l1 ++ n :: l2)%list /\ (forall k, In k l1 -> In k computable) /\ ~ In n computable.
Proof.
  induction l as [|a l IH]; intros [n [H H']]; [destruct H|].
  destruct (in_dec string_dec a computable) as [Ha|Ha].
  - destruct IH as (l1 & m & l2 & -> & G & B); [exists n; split; [|exact H']; destruct H as [->|H]; [contradiction|exact H]|].
    exists (a :: l1), m, l2. split; [reflexivity|]. split; [|exact B]. intros k [<-|Hk]; auto.
  - exists [], a, l. split; [reflexivity|]. split; [intros k []|exact Ha].
Qed.
Lemma bad_error n : ~ In n computable -> exists e, name_error n e /\ (e = KeyError \/ e = TypeError).
Proof.
  intros H. destruct (in_dec string_dec n uncallable) as [U|U]; [exists TypeError|exists KeyError]; (split; [|tauto]).
  - left. tauto.
  - right. tauto.
Qed.

Section HW.
Variables (b : backend R) (rnd : R -> R) (g m : nat) (dsf : field -> field) (c : cfg (arr R) R).
Hypothesis Hg : (0 < g)%nat.
Hypothesis Hev : Nat.even g = true.
Hypothesis Hdx : (c_dx c <> 0)%R.
Hypothesis Hdown : forall f, down c (grid g g f) = Ok (grid m m (dsf f)).
Notation S_ := (hw_sim b rnd g g m m).
Lemma hw_downsampled n o ph a : exists ds, downsampled c ds (gp g g n o ph a).
Proof.
  exists (fun v => match down c v with Ok w => w | Exn _ => v end). unfold downsampled, gp. cbn [p_density p_omega p_phi].
  now rewrite !Hdown.
Qed.
Lemma hw_fullres l1 bad l2 e n o ph a : (forall k, In k l1 -> In k computable) -> name_error bad e ->
  fullres S_ c (l1 ++ bad :: l2) (gp g g n o ph a) = Exn e.
Proof.
  intros H B. apply fullres_bad.
  - intros k Hk. exists (prop_value k g g (c_dx c) (c_c1 c) n ph o). apply hw_prop_grid; auto. apply computable_fits; auto.
  - now apply name_raises.
Qed.
Lemma hw_bad_name l1 bad l2 e n o ph a fuel fs q :
  c_output c = true -> (fs = None \/ c_force c = true) -> (c_snaps c =? 0)%Z = false -> t_int (ndiv (c_end c) (c_step c)) = Ok q ->
  NoDup (keys (c_phys c)) -> truthy (c_rec c) = false ->
  c_props c = (l1 ++ bad :: l2)%list -> NoDup (c_props c) -> (forall k, In k l1 -> In k computable) -> name_error bad e ->
  exists f, result_of (run2 S_ c fuel (gp g g n o ph a)) fs = Exn e /\ disk_of (run2 S_ c fuel (gp g g n o ph a)) fs = Some f /\ empty_file S_ c f.
Proof.
  intros Ho Hfs Hs Hq HN Hr Ec HP Hl HB. destruct (hw_downsampled n o ph a) as [ds Hd].
  apply (run2_bad_first S_ c HP fuel _ ds fs q e Ho Hfs Hs Hq HN Hr Hd). rewrite Ec. now apply hw_fullres.
Qed.
End HW.

(** a call that adds a bad name to the shared default spoils the later ones *)
Lemma hw_poisoned b rnd g m dsf (c : cfg (arr R) R) calls bad show n o ph a fuel fs q :
  (0 < g)%nat -> Nat.even g = true -> (c_dx c <> 0)%R -> (forall f, down c (grid g g f) = Ok (grid m m (dsf f))) ->
  c_output c = true -> (fs = None \/ c_force c = true) -> (c_snaps c =? 0)%Z = false -> t_int (ndiv (c_end c) (c_step c)) = Ok q ->
  NoDup (keys (c_phys c)) -> truthy (c_rec c) = false ->
  In (None, bad) calls -> ~ In bad computable ->
  let S_ := hw_sim b rnd g g m m in
  let call := run2_call S_ c fuel (gp g g n o ph a) (default_after default_props calls) None show in
  exists f e l, result_of call fs = Exn e /\ (e = KeyError \/ e = TypeError) /\ disk_of call fs = Some f /\ empty_file S_ (with_props c l) f.
Proof.
  intros Hg Hev Hdx Hdown Ho Hfs Hs Hq HN Hr Hc Hb S_ call.
  set (d := default_after default_props calls).
  set (l := effective_props d show).
  assert (Hl : NoDup l /\ In bad l).
  { assert (N : NoDup d) by (apply default_nodup; repeat constructor; cbn; intuition discriminate).
    assert (I : In bad d) by (apply default_in; now right).
    split; [|unfold l, effective_props; destruct (existsb _ _); [exact I|apply in_app_iff; now left]].
    change l with (default_after d [(None, show)]). now apply default_nodup. }
  destruct Hl as [Nl Il]. destruct (first_bad l (ex_intro _ bad (conj Il Hb))) as (l1 & n' & l2 & El & G & B).
  destruct (bad_error n' B) as (e & Ne & Ke).
  destruct (hw_bad_name b rnd g m dsf (with_props c l) Hg Hev Hdx Hdown l1 n' l2 e n o ph a fuel fs q Ho Hfs Hs Hq HN Hr El Nl G Ne) as (f & R & D & Em).
  exists f, e, l.
  assert (EE : forall fs, call fs = run2 S_ (with_props c l) fuel (gp g g n o ph a) fs) by (intros; now apply (call_names S_ c fuel _ d None show l q)).
  unfold result_of, disk_of in *. rewrite EE. auto.
Qed.
