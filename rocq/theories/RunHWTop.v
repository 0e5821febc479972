(** Top-level statements about a simulation run. *)
From Coq Require Import Arith ZArith Bool Reals String List Lia Lra Permutation.
Import List.
From Verif Require Import Num NdArray NdFacts Spec GradFacts SumFacts LapFacts Cplx DftFacts SpecFourier SpecHW SpecPlasma SpecDiag
  ModelGradients ModelPoisson ModelProperties ModelHW ModelBackend HWFacts StepFacts ModelSpectral DiagFacts DiagProps
  ModelIO ModelRun ModelRunHW SpecIO SpecRun SpecRunHW IOFacts PropsFacts RunFull Run2Props RunTop RunTop2 RunForce RunHWFacts RunHWProps RunHWCont RunHWSplit.
Import ListNotations.
Local Open Scope R_scope.
Local Open Scope string_scope.

Lemma top_hw_run b p ny nx ys xs k0 dsf (c : cfg (arr R) R) rnd y0 phi0 fs :
  hw_setup b p ny nx ys xs k0 dsf c -> pzon p = false ->
  c_phys c = physics_params (c_dx c) (Z.of_nat (pN p)) (pc1 p) (pnu p) k0 (ppb p) (pkap p) ->
  (fs = None \/ c_force c = true) ->
  let sim := @run _ _ TimeR (hw_sim b rnd ny nx ys xs) c (plasma0 (grid ny nx (fst y0)) (grid ny nx (snd y0)) (grid ny nx phi0)) in
  let frames := map (hw_frame p ny nx (c_dx c) (c_step c) y0 phi0) (recorded_its c (Z.to_nat (R_trunc (c_end c / c_step c)))) in
  exists g, result_of sim fs = Ok tt /\ disk_of sim fs = Some g /\ file_frames rnd dsf ys xs frames g /\
    (forall k, In k (c_props c) -> file_prop rnd dsf ys xs (domain_dx k0 xs) (pc1 p) frames g k) /\
    (add_last c = true -> file_last_state ny nx (c_blen c) frames g).
Proof.
  intros HS Hz Hph Hfs sim frames.
  pose proof (hs_k0 _ _ _ _ _ _ _ _ _ HS) as Hk0.
  destruct (params_attrs c (c_dx c) (Z.of_nat (pN p)) (pc1 p) (pnu p) k0 (ppb p) (pkap p) false) as (fdt & Ex & Ey & Ek & Ec & Ef & Ep).
  rewrite (hs_x _ _ _ _ _ _ _ _ _ HS) in Ex. rewrite (hs_y _ _ _ _ _ _ _ _ _ HS) in Ey.
  pose proof (hw_of_params b p (c_dx c) k0 Hk0) as Hhw. fold (no_zonal p) in Hhw. rewrite no_zonal_eq in Hhw by assumption.
  destruct (hw_run_fresh b p ny nx ys xs k0 dsf c rnd HS
    (physics_params (c_dx c) (Z.of_nat (pN p)) (pc1 p) (pnu p) k0 (ppb p) (pkap p)) Hhw eq_refl
    y0 phi0 fs Hph (params_nodup _ _ _ _ _ _ _) Hfs) as (g & Rf & Df & Af & FF & FP & FS).
  { exists fdt. auto. }
  exists g. repeat (split; [assumption|]). intros H. apply (FS H).
Qed.

Lemma top_hw_run2 b p ny nx ys xs k0 dsf (c : cfg (arr R) R) rnd y0 phi0 fs n fuel :
  hw_setup b p ny nx ys xs k0 dsf c -> (forall k, In k (c_props c) -> prop_fits k ny nx) ->
  c_phys c = physics_params2 (c_dx c) (Z.of_nat (pN p)) (pc1 p) (pnu p) k0 (ppb p) (pkap p) (pzon p) ->
  (fs = None \/ c_force c = true) ->
  (forall j, (j < n)%nat -> @t_round4 _ TimeR (INR j * c_step c) < c_end c) -> c_end c <= @t_round4 _ TimeR (INR n * c_step c) -> (n < fuel)%nat ->
  let sim := @run2 _ _ TimeR (hw_sim b rnd ny nx ys xs) c fuel (plasma0 (grid ny nx (fst y0)) (grid ny nx (snd y0)) (grid ny nx phi0)) in
  let all := map (hw_frame p ny nx (c_dx c) (c_step c) y0 phi0) (recorded_its c n) in
  let frames := if Rlt_dec (c_rec c) (INR n * c_step c) then all else firstn (c_blen c * (length all / c_blen c)) all in
  exists g, result_of sim fs = Ok tt /\ disk_of sim fs = Some g /\ file_frames rnd dsf ys xs frames g /\
    (forall k, In k (c_props c) -> file_prop rnd dsf ys xs (domain_dx k0 xs) (pc1 p) frames g k /\ file_fullres rnd ny nx (c_dx c) (pc1 p) frames g k) /\
    (add_last c = true -> file_last_state ny nx (c_blen c) all g).
Proof.
  intros HS Hfit Hph Hfs H1 H2 Hfu sim all frames.
  pose proof (hs_k0 _ _ _ _ _ _ _ _ _ HS) as Hk0.
  destruct (params2_attrs c (c_dx c) (Z.of_nat (pN p)) (pc1 p) (pnu p) k0 (ppb p) (pkap p) (pzon p) (c_adaptive c)) as (fdt & Ex & Ey & Ek & Ec & Ef & Ep).
  rewrite (hs_x _ _ _ _ _ _ _ _ _ HS) in Ex. rewrite (hs_y _ _ _ _ _ _ _ _ _ HS) in Ey.
  destruct (hw_run2_fresh b p ny nx ys xs k0 dsf c rnd HS
    (physics_params2 (c_dx c) (Z.of_nat (pN p)) (pc1 p) (pnu p) k0 (ppb p) (pkap p) (pzon p)) (hw_of_params2 b p (c_dx c) k0 Hk0) eq_refl Hfit
    y0 phi0 fs n fuel Hph (params2_nodup _ _ _ _ _ _ _ _) Hfs) as (g & Rf & Df & Af & FF & FP & FS).
  { exists fdt. auto. } { exact H1. } { exact H2. } { exact Hfu. }
  exists g. repeat (split; [assumption|]). intros H. apply (FS H).
Qed.

(** every frame but the initial one has the potential of its vorticity *)
Lemma frames_potential p ny nx (c : cfg (arr R) R) y0 phi0 n k x :
  nth_error (map (hw_frame p ny nx (c_dx c) (c_step c) y0 phi0) (recorded_its c n)) k = Some x ->
  (1 <= k)%nat \/ c_rec c <> 0 -> f_p x = invlap ny nx (c_dx c) (f_o x).
Proof.
  intros H Hk. rewrite nth_error_map in H. destruct (nth_error (recorded_its c n) k) as [j|] eqn:E; [|discriminate]. injection H as <-.
  unfold hw_frame. cbn [f_p f_o].
  assert (Hin : forall l k j, nth_error (filter l (seq 1 n)) k = Some j -> (1 <= j)%nat).
  { intros l k' j' H. apply nth_error_In in H. apply filter_In in H. destruct H as [H _]. apply in_seq in H. lia. }
  assert (Hj : (1 <= j)%nat).
  { unfold recorded_its in E. destruct (Req_EM_T (c_rec c) 0) as [E0|_].
    - destruct k as [|k]; [destruct Hk; [lia|contradiction]|]. cbn [app nth_error] in E. now apply Hin in E.
    - cbn [app] in E. now apply Hin in E. }
  destruct (Nat.eqb_spec j 0); [lia|reflexivity].
Qed.
Lemma hw_run_potential b p ny nx ys xs k0 dsf (c : cfg (arr R) R) rnd y0 phi0 fs :
  hw_setup b p ny nx ys xs k0 dsf c -> pzon p = false ->
  c_phys c = physics_params (c_dx c) (Z.of_nat (pN p)) (pc1 p) (pnu p) k0 (ppb p) (pkap p) ->
  (fs = None \/ c_force c = true) ->
  let sim := @run _ _ TimeR (hw_sim b rnd ny nx ys xs) c (plasma0 (grid ny nx (fst y0)) (grid ny nx (snd y0)) (grid ny nx phi0)) in
  exists g l, disk_of sim fs = Some g /\ file_frames rnd dsf ys xs l g /\
    forall k x, nth_error l k = Some x -> (1 <= k)%nat \/ c_rec c <> 0 -> f_p x = invlap ny nx (c_dx c) (f_o x).
Proof.
  intros HS Hz Hph Hfs sim. destruct (top_hw_run b p ny nx ys xs k0 dsf c rnd y0 phi0 fs HS Hz Hph Hfs) as (g & _ & D & FF & _).
  exists g. eexists. split; [exact D|]. split; [exact FF|]. intros k x. apply frames_potential.
Qed.
Lemma nth_firstn {X} (l : list X) m k x : nth_error (firstn m l) k = Some x -> nth_error l k = Some x.
Proof. revert l k. induction m as [|m IH]; intros l k H; [destruct k; discriminate|]. destruct l as [|y l]; [destruct k; discriminate|]. destruct k as [|k]; [exact H|]. cbn in H |- *. now apply IH. Qed.
Lemma hw_run2_potential b p ny nx ys xs k0 dsf (c : cfg (arr R) R) rnd y0 phi0 fs n fuel :
  hw_setup b p ny nx ys xs k0 dsf c -> (forall k, In k (c_props c) -> prop_fits k ny nx) ->
  c_phys c = physics_params2 (c_dx c) (Z.of_nat (pN p)) (pc1 p) (pnu p) k0 (ppb p) (pkap p) (pzon p) ->
  (fs = None \/ c_force c = true) ->
  (forall j, (j < n)%nat -> @t_round4 _ TimeR (INR j * c_step c) < c_end c) -> c_end c <= @t_round4 _ TimeR (INR n * c_step c) -> (n < fuel)%nat ->
  let sim := @run2 _ _ TimeR (hw_sim b rnd ny nx ys xs) c fuel (plasma0 (grid ny nx (fst y0)) (grid ny nx (snd y0)) (grid ny nx phi0)) in
  exists g l, disk_of sim fs = Some g /\ file_frames rnd dsf ys xs l g /\
    forall k x, nth_error l k = Some x -> (1 <= k)%nat \/ c_rec c <> 0 -> f_p x = invlap ny nx (c_dx c) (f_o x).
Proof.
  intros HS Hfit Hph Hfs H1 H2 Hfu sim.
  destruct (top_hw_run2 b p ny nx ys xs k0 dsf c rnd y0 phi0 fs n fuel HS Hfit Hph Hfs H1 H2 Hfu) as (g & _ & D & FF & _).
  exists g. eexists. split; [exact D|]. split; [exact FF|]. intros k x Hx.
  apply (frames_potential p ny nx c y0 phi0 n k x).
  destruct (Rlt_dec _ _) in Hx; [exact Hx|]. now apply nth_firstn in Hx.
Qed.
