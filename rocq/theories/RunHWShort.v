(** A run that filled no buffer leaves a zero state and cannot be continued. *)
From Coq Require Import Arith ZArith Bool Reals String List Lia Lra Permutation.
Import List.
From Verif Require Import Num NdArray NdFacts Spec GradFacts SumFacts LapFacts Cplx DftFacts SpecFourier SpecHW SpecPlasma SpecDiag
  ModelGradients ModelPoisson ModelProperties ModelHW ModelBackend HWFacts StepFacts ModelSpectral DiagFacts DiagProps
  ModelIO ModelRun ModelRunHW SpecIO SpecRun SpecRunHW IOFacts PropsFacts RunFull Run2Props RunTop RunTop2 RunForce RunHWFacts RunHWProps RunHWCont RunHWSplit.
Import ListNotations.
Local Open Scope R_scope.
Local Open Scope string_scope.
#[local] Existing Instance TimeR.

Lemma all_zero_true ny nx : all_zero (grid ny nx (fconst 0)) = true.
Proof.
  unfold all_zero. apply forallb_forall. intros x Hx. unfold grid, stack, build in Hx. cbn [data] in Hx.
  apply in_map_iff in Hx. destruct Hx as (l & <- & _). unfold fconst. now destruct (Req_EM_T 0 0).
Qed.

Section Short.
Variables (b : backend R) (p : par) (ny nx ys xs : nat) (k0 : R) (dsf : field -> field) (c c' : cfg (arr R) R) (rnd : R -> R).
Hypothesis HS : hw_setup b p ny nx ys xs k0 dsf c.
Hypothesis Hla : add_last c = true.
Notation HW_ := (hw_sim b rnd ny nx ys xs).
Notation dx := (c_dx c).
Hypothesis Ho' : c_output c' = true.
Hypothesis Hf' : c_force c' = false.
Hypothesis Hc' : c_continue c' = true.
Variables (y0 : field * field) (phi0 : field).
Notation pl0 := (plasma0 (grid ny nx (fst y0)) (grid ny nx (snd y0)) (grid ny nx phi0)).

Lemma zero_loaded frames f phys : frames <> [] -> (length frames < c_blen c)%nat ->
  file_frames rnd dsf ys xs frames f -> file_last_state ny nx (c_blen c) frames f -> pick (attrs f) physics_keys = Ok phys ->
  exists a, continue_h5_file (Some f) = Ok (mkLoaded (grid ny nx (fconst 0)) (grid ny nx (fconst 0)) (grid ny nx (fconst 0)) a, phys).
Proof.
  intros Hne Hlt FF FS Hp. unfold file_last_state in FS. rewrite Nat.div_small, Nat.mul_0_r in FS by assumption.
  cbn [firstn last] in FS. destruct (exists_last Hne) as (l & x & ->).
  rewrite (continue_ok _ _ _ _ _ _ _ _ _ _ _ FS FF Hp). eexists. reflexivity.
Qed.

Lemma short_run pl1 : c_phys c = physics_params dx (Z.of_nat (pN p)) (pc1 p) (pnu p) k0 (ppb p) (pkap p) -> pzon p = false -> c_rec c = 0 ->
  (length (recorded_its c (Z.to_nat (R_trunc (c_end c / c_step c)))) < c_blen c)%nat ->
  exists f, result_of (run HW_ c pl0) None = Ok tt /\ disk_of (run HW_ c pl0) None = Some f /\
    run HW_ c' pl1 (Some f) = (([], Some f), Exn BaseException).
Proof.
  intros Hph Hz Hr Hlt.
  pose proof (hs_k0 _ _ _ _ _ _ _ _ _ HS) as Hk0.
  destruct (params_attrs c dx (Z.of_nat (pN p)) (pc1 p) (pnu p) k0 (ppb p) (pkap p) false) as (fdt & Ex & Ey & Ek & Ec & Ef & Ep).
  rewrite (hs_x _ _ _ _ _ _ _ _ _ HS) in Ex. rewrite (hs_y _ _ _ _ _ _ _ _ _ HS) in Ey.
  pose proof (hw_of_params b p dx k0 Hk0) as Hhw. fold (no_zonal p) in Hhw. rewrite no_zonal_eq in Hhw by assumption.
  destruct (hw_run_fresh b p ny nx ys xs k0 dsf c rnd HS
    (physics_params dx (Z.of_nat (pN p)) (pc1 p) (pnu p) k0 (ppb p) (pkap p)) Hhw eq_refl
    y0 phi0 None Hph (params_nodup _ _ _ _ _ _ _) (or_introl eq_refl)) as (f & Rf & Df & Af & FF & FP & FS).
  { exists fdt. auto. }
  destruct (FS Hla) as [FS1 _]. exists f. split; [exact Rf|]. split; [exact Df|].
  edestruct zero_loaded as [a HL]; [| |exact FF|exact FS1|rewrite Af; exact Ep|].
  - unfold recorded_its. rewrite Hr. destruct (Req_EM_T 0 0); [discriminate|contradiction].
  - now rewrite map_length.
  - eapply run_zero_state; try eassumption; [reflexivity|]. cbn [l_density hw_sim s_zero]. apply all_zero_true.
Qed.
Lemma short_run2 n fuel fuel' pl1 : c_phys c = physics_params2 dx (Z.of_nat (pN p)) (pc1 p) (pnu p) k0 (ppb p) (pkap p) (pzon p) -> c_rec c = 0 -> 0 < c_step c ->
  (1 <= n)%nat -> (c_snaps c' =? 0)%Z = false ->
  (forall k, In k (c_props c) -> prop_fits k ny nx) ->
  (forall j, (j < n)%nat -> t_round4 (INR j * c_step c) < c_end c) -> c_end c <= t_round4 (INR n * c_step c) -> (n < fuel)%nat ->
  (length (recorded_its c n) < c_blen c)%nat ->
  exists f, result_of (run2 HW_ c fuel pl0) None = Ok tt /\ disk_of (run2 HW_ c fuel pl0) None = Some f /\
    run2 HW_ c' fuel' pl1 (Some f) = (([], Some f), Exn BaseException).
Proof.
  intros Hph Hr Hdt Hn Hs' Hfit H1 H2 Hfu Hlt.
  pose proof (hs_k0 _ _ _ _ _ _ _ _ _ HS) as Hk0.
  destruct (params2_attrs c dx (Z.of_nat (pN p)) (pc1 p) (pnu p) k0 (ppb p) (pkap p) (pzon p) (c_adaptive c)) as (fdt & Ex & Ey & Ek & Ec & Ef & Ep).
  rewrite (hs_x _ _ _ _ _ _ _ _ _ HS) in Ex. rewrite (hs_y _ _ _ _ _ _ _ _ _ HS) in Ey.
  destruct (hw_run2_fresh b p ny nx ys xs k0 dsf c rnd HS
    (physics_params2 dx (Z.of_nat (pN p)) (pc1 p) (pnu p) k0 (ppb p) (pkap p) (pzon p)) (hw_of_params2 b p dx k0 Hk0) eq_refl Hfit
    y0 phi0 None n fuel Hph (params2_nodup _ _ _ _ _ _ _ _) (or_introl eq_refl)) as (f & Rf & Df & Af & FF & FP & FS).
  { exists fdt. auto. } { exact H1. } { exact H2. } { exact Hfu. }
  destruct (Rlt_dec (c_rec c) (INR n * c_step c)) as [_|N].
  2:{ exfalso. apply N. rewrite Hr. apply Rmult_lt_0_compat; [apply lt_0_INR; lia|exact Hdt]. }
  destruct (FS Hla) as [FS1 _]. exists f. split; [exact Rf|]. split; [exact Df|].
  edestruct zero_loaded as [a HL]; [| |exact FF|exact FS1|rewrite Af; exact Ep|].
  - unfold recorded_its. rewrite Hr. destruct (Req_EM_T 0 0); [discriminate|contradiction].
  - now rewrite map_length.
  - eapply run2_zero_state; try eassumption; try reflexivity. cbn [l_density hw_sim s_zero]. apply all_zero_true.
Qed.
End Short.
