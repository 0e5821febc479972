(** Broken files are rejected and left as they are. *)
From Coq Require Import Arith ZArith Bool String List Lia.
From Verif Require Import Num NdArray ModelIO ModelRun SpecIO SpecRun IOFacts RunTop RunTop2 SpecCheck.
Import ListNotations.
Local Open Scope string_scope.

Section Check.
Context {V T : Type} {TN : TimeNum T}.
Variable s : sim V T.
Variable c : cfg V T.

Lemma continued_unique (f : h5 V T) k v v' : continued f k v -> continued f k v' -> v = v'.
Proof.
  intros [A|[A [l A']]] [B|[B [l' B']]]; try congruence.
  rewrite A' in B'. injection B' as E. apply app_inj_tail in E. destruct E as [_ E]. now injection E.
Qed.
Lemma check_broken (f : h5 V T) ld phys : continue_h5_file (Some f) = Ok (ld, phys) -> broken s f ->
  check_loaded s (mkPlasma (l_density ld) (l_omega ld) (l_phi ld) (l_age ld)) = Exn BaseException.
Proof.
  intros H B. destruct (top_continue_reads V T f ld phys H) as [[l Ht] Hf].
  assert (C1 : continued f "density" (l_density ld)) by (apply Hf; now left).
  assert (C2 : continued f "omega" (l_omega ld)) by (apply Hf; right; now left).
  assert (C3 : continued f "phi" (l_phi ld)) by (apply Hf; right; right; now left).
  assert (X : s_nan s (l_density ld) = true \/ s_zero s (l_density ld) = true \/ s_nan s (l_omega ld) = true \/ s_zero s (l_omega ld) = true
    \/ s_nan s (l_phi ld) = true \/ s_nanT s (l_age ld) = true).
  { destruct B as [(k & v & Hk & Hv & N)|[(k & v & Hk & Hv & N)|(l' & t & Hl & N)]].
    - destruct Hk as [<-|[<-|[<-|[]]]]; [rewrite (continued_unique _ _ _ _ C1 Hv)|rewrite (continued_unique _ _ _ _ C2 Hv)|rewrite (continued_unique _ _ _ _ C3 Hv)]; tauto.
    - destruct Hk as [<-|[<-|[]]]; [rewrite (continued_unique _ _ _ _ C1 Hv)|rewrite (continued_unique _ _ _ _ C2 Hv)]; tauto.
    - rewrite Ht in Hl. injection Hl as E. apply app_inj_tail in E. destruct E as [_ E]. injection E as E. rewrite E. tauto. }
  unfold check_loaded. cbn [p_density p_omega p_phi p_age].
  destruct (s_nan s (l_density ld)); [reflexivity|]. destruct (s_zero s (l_density ld)); [reflexivity|]. cbn [andb bind].
  destruct (s_nan s (l_omega ld)); [reflexivity|]. destruct (s_zero s (l_omega ld)); [reflexivity|]. cbn [andb bind].
  destruct (s_nan s (l_phi ld)); [reflexivity|]. cbn [andb bind].
  destruct (s_nanT s (l_age ld)); [reflexivity|]. exfalso. intuition discriminate.
Qed.
Lemma continue_broken buf (f : h5 V T) : c_continue c = true -> broken s f -> exists e, run_continue s c buf (Some f) = (([], Some f), Exn e).
Proof.
  intros Hc B. unfold run_continue. rewrite Hc, bind_get. unfold ibind, ilift.
  destruct (continue_h5_file (Some f)) as [[ld phys]|e] eqn:E; [|eauto].
  rewrite (check_broken f ld phys E B). eauto.
Qed.
Lemma run_broken pl0 (f : h5 V T) : c_force c = false -> c_continue c = true -> broken s f ->
  exists e, run s c pl0 (Some f) = (([], Some f), Exn e).
Proof.
  intros Hf Hc B. unfold run. destruct (negb (c_output c)); [eexists; reflexivity|].
  destruct (continue_broken (buffer0 s c) f Hc B) as [e E].
  assert (E' : run_files s c pl0 (Some f) = (([], Some f), Exn e)) by (unfold run_files; rewrite bind_get, Hf; exact E).
  exists e. unfold ibind. now rewrite E'.
Qed.
Lemma run2_broken fuel pl0 (f : h5 V T) : c_force c = false -> c_continue c = true -> broken s f ->
  exists e, run2 s c fuel pl0 (Some f) = (([], Some f), Exn e).
Proof.
  intros Hf Hc B. unfold run2. unfold ibind at 1, ilift at 1. destruct (t_int _) as [q|e]; [|eauto].
  destruct (_ =? _)%Z; [eexists; reflexivity|]. destruct (negb (c_output c)); [eexists; reflexivity|].
  destruct (continue_broken (buffer0_2 s c) f Hc B) as [e E].
  assert (E' : run2_files s c pl0 (Some f) = (([], Some f), Exn e)) by (unfold run2_files; rewrite bind_get, Hf; exact E).
  exists e. unfold ibind. now rewrite E'.
Qed.
(** a readable file gives BaseException *)
Lemma run_broken_base pl0 (f : h5 V T) ld phys : c_output c = true -> c_force c = false -> c_continue c = true -> broken s f ->
  continue_h5_file (Some f) = Ok (ld, phys) -> run s c pl0 (Some f) = (([], Some f), Exn BaseException).
Proof.
  intros Ho Hf Hc B E. unfold run. rewrite Ho. cbn [negb].
  assert (E' : run_files s c pl0 (Some f) = (([], Some f), Exn BaseException)).
  { unfold run_files. rewrite bind_get, Hf. unfold run_continue. rewrite Hc, bind_get. unfold ibind, ilift. rewrite E.
    now rewrite (check_broken f ld phys E B). }
  unfold ibind. now rewrite E'.
Qed.
(** a readable file that is not broken is continued from the values read *)
Lemma run_sound pl0 (f : h5 V T) ld phys : c_output c = true -> c_force c = false -> c_continue c = true ->
  ~ broken s f -> continue_h5_file (Some f) = Ok (ld, phys) ->
  run s c pl0 (Some f) = ibind (run_simulate s c (mkStart (mkPlasma (l_density ld) (l_omega ld) (l_phi ld) (l_age ld)) phys (l_age ld) (buffer0 s c) 0))
    (fun _ => run_properties_ s c) (Some f).
Proof.
  intros Ho Hf Hc NB E. destruct (top_continue_reads V T f ld phys E) as [[l Ht] R].
  assert (C1 : continued f "density" (l_density ld)) by (apply R; now left).
  assert (C2 : continued f "omega" (l_omega ld)) by (apply R; right; now left).
  assert (C3 : continued f "phi" (l_phi ld)) by (apply R; right; right; now left).
  assert (N : forall k v, In k ["density"; "omega"; "phi"] -> continued f k v -> s_nan s v = false).
  { intros k v Hk Hv. destruct (s_nan s v) eqn:X; [|reflexivity]. contradiction NB. left. eauto. }
  assert (Z : forall k v, In k ["density"; "omega"] -> continued f k v -> s_zero s v = false).
  { intros k v Hk Hv. destruct (s_zero s v) eqn:X; [|reflexivity]. contradiction NB. right. left. eauto. }
  assert (Ha : s_nanT s (l_age ld) = false).
  { destruct (s_nanT s (l_age ld)) eqn:X; [|reflexivity]. contradiction NB. right. right. eauto. }
  assert (N1 := N _ _ (or_introl eq_refl) C1). assert (N2 := N _ _ (or_intror (or_introl eq_refl)) C2).
  assert (N3 := N _ _ (or_intror (or_intror (or_introl eq_refl))) C3).
  assert (Z1 := Z _ _ (or_introl eq_refl) C1). assert (Z2 := Z _ _ (or_intror (or_introl eq_refl)) C2).
  unfold run. rewrite Ho. cbn [negb].
  assert (E' : run_files s c pl0 (Some f) = (([], Some f), Ok (Some (mkStart (mkPlasma (l_density ld) (l_omega ld) (l_phi ld) (l_age ld)) phys (l_age ld) (buffer0 s c) 0)))).
  { unfold run_files. rewrite bind_get, Hf. unfold run_continue. rewrite Hc, bind_get. unfold ibind, ilift. rewrite E.
    unfold check_loaded. cbn [p_density p_omega p_phi p_age]. rewrite N1, Z1, N2, Z2, N3, Ha. reflexivity. }
  unfold ibind at 1. rewrite E'. cbn [app]. destruct (ibind _ _ (Some f)) as [[tr d] r]. reflexivity.
Qed.
End Check.
