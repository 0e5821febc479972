(** Proofs of the properties of the simulation step (C05, C18, C19, C21-C26). *)
From Coq Require Import List Arith ZArith Lia Bool Reals Lra Psatz String Permutation.
From Verif Require Import Num NdArray NdFacts ModelGradients Spec GradFacts SumFacts LapFacts GradProps
  ModelArakawa ArakawaFacts Cplx DftFacts SpecFourier ModelPoisson PoissonFacts PoissonProps
  ModelProperties ModelHW ModelBackend SpecHW SpecPlasma HWFacts StepFacts RhsFacts SymFacts.
Import ListNotations.
Local Open Scope R_scope.

(** the two integrators of the code *)
Definition stepper (step : hw R -> ns R -> R -> R -> M (ns R)) : Prop :=
  step = rk4_step \/ step = euler_step.

Section P.
Variables (b : backend R) (p : par) (dx0 : R) (test : bool) (ny nx : nat) (dx : R).
Hypothesis Hy : (0 < ny)%nat.
Hypothesis Hx : (0 < nx)%nat.
Hypothesis Hd : dx <> 0.
Hypothesis Hb : backend_ok ny nx b.
Local Notation h := (hw_of b p dx0 test).
Local Notation F := (hw_rhs p ny nx dx).
Local Notation agree := (agree ny nx).
Local Notation sagree := (sagree ny nx).
Local Notation plasma_ok := (plasma_ok test ny nx).

Let Ha : acts b ny nx dx (pN p) := backend_acts ny nx b dx (pN p) Hy Hx Hd Hb.

(** *** C05 *)
Lemma c05 f : 0 <= pnu p ->
  exists D, hw_diffuse h (Ok (grid ny nx f)) dx (hN h) = (["diffuse"%string], Ok (grid ny nx D)) /\
    gsum ny nx (fun i j => f i j * (hnu h * D i j)) <= 0 /\
    ((1 <= pN p)%nat -> 0 < pnu p ->
       (gsum ny nx (fun i j => f i j * (hnu h * D i j)) = 0 <-> is_const ny nx f)).
Proof.
  intros Hn. exists (lap_iter (pN p) ny nx dx f). split; [now apply hw_diffuse_grid|].
  destruct (hyper_form (pN p) ny nx dx f Hy Hx Hd) as [H1 H2].
  rewrite hnu_of.
  assert (E : gsum ny nx (fun i j => f i j * ((-1) ^ (pN p + 1) * pnu p * lap_iter (pN p) ny nx dx f i j)) =
    pnu p * ((-1) ^ (pN p + 1) * inner ny nx f (lap_iter (pN p) ny nx dx f))).
  { unfold inner. rewrite <- !gsum_scal. apply gsum_ext. intros. ring. }
  rewrite E. split; [nra|]. intros HN Hp. rewrite <- (H2 HN). split; intros K; [nra|rewrite K; ring].
Qed.

(** *** C18 *)
Lemma c18 (y : ns R) n o phi dt :
  args_ok ny nx y n o ->
  exists lg d, gradient_2d h y (Some (grid ny nx phi)) dt dx = (lg, Ok d) /\
    ns_get d "density" = Ok (grid ny nx (rhs_n p ny nx dx phi n)) /\
    ns_get d "omega" = Ok (grid ny nx (rhs_o p ny nx dx phi n o)) /\
    (forall a, ns_get y "age" = Ok (scal a) -> ns_get d "age" = Ok (scal (a + dt))) /\
    (test = true -> ns_get d "dE" = Ok (scal (rep_dE p dx0 ny nx dx phi n)) /\
                    ns_get d "dU" = Ok (scal (rep_dU p dx0 ny nx dx phi n o))).
Proof.
  intros [Hn Ho Hr Hag]. unfold gradient_2d.
  assert (Hh : forall k, In k ("debug"%string :: reserved) -> ns_has y k = false).
  { intros k Hk. unfold ns_has. destruct (ns_get y k) eqn:E; [|reflexivity].
    exfalso. apply (Hr k Hk). eapply ns_get_keys, E. }
  replace (existsb (fun k => ns_has y k) reserved) with false.
  2:{ symmetry. apply not_true_is_false. intros H. apply existsb_exists in H as (k & Hk & E).
      rewrite Hh in E; [discriminate|now right]. }
  rewrite (Hh "debug"%string) by now left. rewrite Hn, Ho.
  destruct (ns_get y "age") as [v|e] eqn:Ev.
  - destruct (Hag v eq_refl) as [a ->].
    rewrite (hw2d_gradient_grid b p dx0 test ny nx dx Hy Hx Ha n o phi dt (Some a)).
    eexists _, _. split; [reflexivity|].
    split; [|split; [|split]].
    + rewrite ns_get_in; [reflexivity|]. unfold gkeys. cbn. tauto.
    + rewrite ns_get_in; [reflexivity|]. unfold gkeys. cbn. tauto.
    + intros a' E. injection E as <-. rewrite ns_get_in; [reflexivity|]. unfold gkeys. cbn. tauto.
    + intros Et. destruct test; [|discriminate]. split; (rewrite ns_get_in; [reflexivity|]); cbn; tauto.
  - rewrite (hw2d_gradient_grid b p dx0 test ny nx dx Hy Hx Ha n o phi dt None).
    eexists _, _. split; [reflexivity|].
    split; [|split; [|split]].
    + rewrite ns_get_in; [reflexivity|]. unfold gkeys. cbn. tauto.
    + rewrite ns_get_in; [reflexivity|]. unfold gkeys. cbn. tauto.
    + intros a E. discriminate.
    + intros Et. destruct test; [|discriminate]. split; (rewrite ns_get_in; [reflexivity|]); cbn; tauto.
Qed.
(** without a potential the gradient solves for it first *)
Lemma c18_no_phi (y : ns R) n o dt :
  args_ok ny nx y n o ->
  exists lg, gradient_2d h y None dt dx =
    (("get_phi"%string :: lg), snd (gradient_2d h y (Some (grid ny nx (invlap ny nx dx o))) dt dx)) /\
    fst (gradient_2d h y (Some (grid ny nx (invlap ny nx dx o))) dt dx) = lg.
Proof.
  intros [Hn Ho Hr _]. unfold gradient_2d.
  assert (Hh : forall k, In k ("debug"%string :: reserved) -> ns_has y k = false).
  { intros k Hk. unfold ns_has. destruct (ns_get y k) eqn:E; [|reflexivity].
    exfalso. apply (Hr k Hk). eapply ns_get_keys, E. }
  replace (existsb (fun k => ns_has y k) reserved) with false.
  2:{ symmetry. apply not_true_is_false. intros H. apply existsb_exists in H as (k & Hk & E).
      rewrite Hh in E; [discriminate|now right]. }
  rewrite (Hh "debug"%string) by now left. rewrite Hn, Ho.
  eexists. split; [|reflexivity].
  unfold hw2d_gradient at 1. rewrite (hw_get_phi_grid b p dx0 test ny nx dx Ha). rewrite mbind_ok.
  unfold hw2d_gradient. rewrite mbind_ret. unfold tell. reflexivity.
Qed.

(** *** steps *)
Lemma plasma_ok_ext pl n o phi a n' o' phi' : plasma_ok pl n o phi a ->
  agree n n' -> agree o o' -> agree phi phi' -> plasma_ok pl n' o' phi' a.
Proof.
  intros H Hn Ho Hp. destruct H. constructor; auto.
  - now rewrite <- (grid_ext ny nx _ _ Hn).
  - now rewrite <- (grid_ext ny nx _ _ Ho).
  - now rewrite <- (grid_ext ny nx _ _ Hp).
Qed.

Definition Step1 (step : hw R -> ns R -> R -> R -> M (ns R)) (phi : field) (dt : R) (y : state) (y' : state) : Prop :=
  (step = rk4_step /\ y' = rk4_from F (rhs_phi p ny nx dx phi y) dt y) \/
  (step = euler_step /\ y' = sadd y (sscale dt (rhs_phi p ny nx dx phi y))).
Lemma step_eval step pl n o phi a dt : stepper step -> plasma_ok pl n o phi a ->
  exists pl' y', fst (step h pl dt dx) <> [] /\ snd (step h pl dt dx) = Ok pl' /\ Step1 step phi dt (n, o) y' /\
    plasma_ok pl' (fst y') (snd y') (invlap ny nx dx (snd y')) (a + dt) /\
    Permutation (ns_keys pl') (ns_keys pl).
Proof.
  intros Hs Hpl. destruct Hs as [ -> | -> ].
  - destruct (rk4_step_grid_phi b p dx0 test ny nx dx Hy Hx Ha pl n o phi a dt Hpl) as (pl' & E & H & P).
    eexists pl', _. rewrite E. cbn [fst snd]. split; [|split; [reflexivity|]].
    { unfold rk4_log, grad_log. discriminate. }
    split; [left; split; reflexivity|]. split; assumption.
  - destruct (euler_step_grid_phi b p dx0 test ny nx dx Hy Hx Ha pl n o phi a dt Hpl) as (pl' & E & H & P).
    eexists pl', _. rewrite E. cbn [fst snd]. split; [|split; [reflexivity|]].
    { unfold euler_log, grad_log. discriminate. }
    split; [right; split; reflexivity|]. split; assumption.
Qed.

Lemma snd_steps_S step k (pl : ns R) pl1 : snd (step pl) = Ok pl1 ->
  snd (steps step (S k) pl) = snd (steps step k pl1).
Proof.
  intros E. cbn [steps]. destruct (step pl) as [l r]. cbn in E. subst r. rewrite mbind_ok. reflexivity.
Qed.

(** *** C19 *)
Lemma c19 pl n o phi a dt k : plasma_ok pl n o phi a -> agree phi (invlap ny nx dx o) ->
  let y' := iter_step (rk4 F dt) k (n, o) in
  exists pl' phi', snd (steps (fun pl => rk4_step h pl dt dx) k pl) = Ok pl' /\
    plasma_ok pl' (fst y') (snd y') phi' (a + INR k * dt) /\
    agree phi' (invlap ny nx dx (snd y')) /\
    Permutation (ns_keys pl') (ns_keys pl).
Proof.
  intros Hpl Hphi y'.
  destruct (steps_grid test ny nx dx (fun pl => rk4_step h pl dt dx) (rk4 F dt) (rk4_log p test) dt pl n o phi a k)
    as (pl' & phi' & E & H); auto.
  - intros. eapply rk4_step_grid; eauto.
  - exists pl', phi'. rewrite E. split; [reflexivity|exact H].
Qed.
Lemma c19_euler pl n o phi a dt k : plasma_ok pl n o phi a -> agree phi (invlap ny nx dx o) ->
  let y' := iter_step (euler F dt) k (n, o) in
  exists pl' phi', snd (steps (fun pl => euler_step h pl dt dx) k pl) = Ok pl' /\
    plasma_ok pl' (fst y') (snd y') phi' (a + INR k * dt) /\
    agree phi' (invlap ny nx dx (snd y')) /\
    Permutation (ns_keys pl') (ns_keys pl).
Proof.
  intros Hpl Hphi y'.
  destruct (steps_grid test ny nx dx (fun pl => euler_step h pl dt dx) (euler F dt) (euler_log p test) dt pl n o phi a k)
    as (pl' & phi' & E & H); auto.
  - intros. eapply euler_step_grid; eauto.
  - exists pl', phi'. rewrite E. split; [reflexivity|exact H].
Qed.

(** *** invariants of steps from any potential *)
Section Inv.
Variable l : state -> R.
Hypothesis Hl : linfun l.
Hypothesis H0 : forall phi y, l (rhs_phi p ny nx dx phi y) = 0.
Lemma inv_step step phi dt y y' : Step1 step phi dt y y' -> l y' = l y.
Proof.
  destruct Hl as [La Ls]. assert (HF : forall z, l (F z) = 0) by (intros z; apply (H0 (invlap ny nx dx (snd z)) z)).
  intros [[_ ->]|[_ ->]].
  - unfold rk4_from. rewrite !La, !Ls, !La, !Ls, !HF, !H0. ring.
  - rewrite !La, !Ls, !H0. ring.
Qed.
Lemma inv_steps step dt k : stepper step -> forall pl n o phi a, plasma_ok pl n o phi a ->
  exists pl' n' o' phi', snd (steps (fun pl => step h pl dt dx) k pl) = Ok pl' /\
    plasma_ok pl' n' o' phi' (a + INR k * dt) /\ l (n', o') = l (n, o).
Proof.
  intros Hs. induction k as [|k IH]; intros pl n o phi a Hpl.
  - exists pl, n, o, phi. cbn. rewrite Rmult_0_l, Rplus_0_r. auto.
  - destruct (step_eval step pl n o phi a dt Hs Hpl) as (pl1 & y1 & _ & E1 & S1 & P1 & _).
    destruct (IH _ _ _ _ _ P1) as (pl2 & n2 & o2 & phi2 & E2 & P2 & L2).
    exists pl2, n2, o2, phi2. split; [|split].
    + rewrite (snd_steps_S (fun pl => step h pl dt dx) k pl pl1 E1). exact E2.
    + replace (a + INR (S k) * dt) with (a + dt + INR k * dt) by (rewrite S_INR; ring). exact P2.
    + rewrite L2, <- surjective_pairing. eapply inv_step, S1.
Qed.
End Inv.

Lemma c21 step dt k pl n o phi a : (1 <= pN p)%nat -> stepper step -> plasma_ok pl n o phi a ->
  exists pl' n' o' phi', snd (steps (fun pl => step h pl dt dx) k pl) = Ok pl' /\
    plasma_ok pl' n' o' phi' (a + INR k * dt) /\
    gmean ny nx n' - gmean ny nx o' = gmean ny nx n - gmean ny nx o.
Proof.
  intros HN Hs Hpl.
  apply (inv_steps (fun y => mean_n ny nx y - mean_o ny nx y) (linfun_d ny nx)) with (phi := phi); auto.
  intros phi' y. unfold mean_n, mean_o, gmean. cbn [rhs_phi fst snd].
  rewrite gsum_rhs_n, gsum_rhs_o by assumption. unfold Rdiv. ring.
Qed.
Lemma c22_run step dt k pl n o phi a : (1 <= pN p)%nat -> pzon p = true -> stepper step -> plasma_ok pl n o phi a ->
  exists pl' n' o' phi', snd (steps (fun pl => step h pl dt dx) k pl) = Ok pl' /\
    plasma_ok pl' n' o' phi' (a + INR k * dt) /\
    gmean ny nx n' = gmean ny nx n /\ gmean ny nx o' = gmean ny nx o.
Proof.
  intros HN Hz Hs Hpl.
  destruct (inv_steps (mean_n ny nx) (linfun_n ny nx)) with (step := step) (dt := dt) (k := k) (pl := pl) (n := n) (o := o) (phi := phi) (a := a)
    as (pl' & n' & o' & phi' & E & Q & L); auto.
  { intros phi' y. unfold mean_n, gmean. cbn [rhs_phi fst snd].
    rewrite gsum_rhs_n, gsum_coupling_zonal by assumption. unfold Rdiv. ring. }
  destruct (inv_steps (mean_o ny nx) (linfun_o ny nx)) with (step := step) (dt := dt) (k := k) (pl := pl) (n := n) (o := o) (phi := phi) (a := a)
    as (pl2 & n2 & o2 & phi2 & E2 & Q2 & L2); auto.
  { intros phi2 y. unfold mean_o, gmean. cbn [rhs_phi fst snd].
    rewrite gsum_rhs_o, gsum_coupling_zonal by assumption. unfold Rdiv. ring. }
  exists pl', n', o', phi'. split; [exact E|]. split; [exact Q|]. split; [exact L|].
  unfold mean_o in L2. cbn [snd] in L2. rewrite <- L2. rewrite E in E2. injection E2 as <-.
  pose proof (po_o _ _ _ _ _ _ _ _ Q) as X. rewrite (po_o _ _ _ _ _ _ _ _ Q2) in X. pose proof (grid_ok_inj _ _ _ _ X) as X'.
  unfold gmean. f_equal. apply gsum_ext. intros i j Hi Hj. now rewrite X'.
Qed.

(** *** symmetries *)
Section Symm.
Variable T : field -> field.
Hypothesis T_add : forall f g, agree (T (fadd f g)) (fadd (T f) (T g)).
Hypothesis T_scale : forall c f, agree (T (fscale c f)) (fscale c (T f)).
Hypothesis T_inv : forall o, agree (invlap ny nx dx (T o)) (T (invlap ny nx dx o)).
Hypothesis T_n : forall phi n, agree (rhs_n p ny nx dx (T phi) (T n)) (T (rhs_n p ny nx dx phi n)).
Hypothesis T_o : forall phi n o, agree (rhs_o p ny nx dx (T phi) (T n) (T o)) (T (rhs_o p ny nx dx phi n o)).
Lemma sym_steps step dt k : stepper step -> forall pl plT n o phi a aT,
  plasma_ok pl n o phi a -> plasma_ok plT (T n) (T o) (T phi) aT ->
  exists pl' plT' n' o' phi',
    snd (steps (fun pl => step h pl dt dx) k pl) = Ok pl' /\
    snd (steps (fun pl => step h pl dt dx) k plT) = Ok plT' /\
    plasma_ok pl' n' o' phi' (a + INR k * dt) /\
    plasma_ok plT' (T n') (T o') (T phi') (aT + INR k * dt).
Proof.
  intros Hs. induction k as [|k IH]; intros pl plT n o phi a aT Hpl HplT.
  - exists pl, plT, n, o, phi. cbn. rewrite !Rmult_0_l, !Rplus_0_r. auto.
  - destruct (step_eval step pl n o phi a dt Hs Hpl) as (pl1 & y1 & _ & E1 & S1 & P1 & _).
    destruct (step_eval step plT _ _ _ aT dt Hs HplT) as (pl2 & y2 & _ & E2 & S2 & P2 & _).
    assert (HT : sagree y2 (sT T y1)).
    { pose proof (sT_rk4_step p ny nx dx Hy Hx Hd T T_add T_scale T_inv T_n T_o phi (T phi) dt (n, o) (T n, T o)
        (agree_refl ny nx _) (sagree_refl ny nx _)) as R1.
      pose proof (sT_euler_step p ny nx dx Hy Hx Hd T T_add T_scale T_n T_o phi (T phi) dt (n, o) (T n, T o)
        (agree_refl ny nx _) (sagree_refl ny nx _)) as R2.
      destruct S1 as [[K1 ->]|[K1 ->]], S2 as [[K2 ->]|[K2 ->]]; try assumption; clear - Hs K1 K2 E1 E2 Hpl HplT Hb Hy Hx Ha.
      - exfalso. rewrite K1 in K2. apply (f_equal (fun s => fst (s h pl dt dx))) in K2.
        destruct (rk4_step_grid_phi b p dx0 test ny nx dx Hy Hx Ha _ _ _ _ _ dt Hpl) as (? & E & _). rewrite E in K2.
        destruct (euler_step_grid_phi b p dx0 test ny nx dx Hy Hx Ha _ _ _ _ _ dt Hpl) as (? & E' & _). rewrite E' in K2.
        cbn [fst] in K2. apply (f_equal (@List.length string)) in K2. unfold rk4_log, euler_log in K2.
        rewrite !app_length in K2. cbn in K2. lia.
      - exfalso. rewrite K1 in K2. apply (f_equal (fun s => fst (s h pl dt dx))) in K2.
        destruct (rk4_step_grid_phi b p dx0 test ny nx dx Hy Hx Ha _ _ _ _ _ dt Hpl) as (? & E & _). rewrite E in K2.
        destruct (euler_step_grid_phi b p dx0 test ny nx dx Hy Hx Ha _ _ _ _ _ dt Hpl) as (? & E' & _). rewrite E' in K2.
        cbn [fst] in K2. apply (f_equal (@List.length string)) in K2. unfold rk4_log, euler_log in K2.
        rewrite !app_length in K2. cbn in K2. lia. }
    destruct (IH pl1 pl2 (fst y1) (snd y1) (invlap ny nx dx (snd y1)) (a + dt) (aT + dt) P1)
      as (pl3 & pl4 & n' & o' & phi' & E3 & E4 & P3 & P4).
    { eapply plasma_ok_ext; [exact P2|apply HT|apply HT|].
      eapply agree_trans; [|apply T_inv]. intros i j _ _. apply invlap_ext. apply HT. }
    exists pl3, pl4, n', o', phi'.
    rewrite (snd_steps_S (fun pl => step h pl dt dx) k pl pl1 E1), (snd_steps_S (fun pl => step h pl dt dx) k plT pl2 E2).
    split; [exact E3|]. split; [exact E4|].
    replace (a + INR (S k) * dt) with (a + dt + INR k * dt) by (rewrite S_INR; ring).
    replace (aT + INR (S k) * dt) with (aT + dt + INR k * dt) by (rewrite S_INR; ring). auto.
Qed.
End Symm.

Lemma c25 step dt k sy sx pl plT n o phi a aT : stepper step ->
  let T := ftrans ny nx sy sx in
  plasma_ok pl n o phi a -> plasma_ok plT (T n) (T o) (T phi) aT ->
  exists pl' plT' n' o' phi',
    snd (steps (fun pl => step h pl dt dx) k pl) = Ok pl' /\
    snd (steps (fun pl => step h pl dt dx) k plT) = Ok plT' /\
    plasma_ok pl' n' o' phi' (a + INR k * dt) /\
    plasma_ok plT' (T n') (T o') (T phi') (aT + INR k * dt).
Proof.
  intros Hs T H1 H2. apply (sym_steps T) with (n := n) (o := o) (phi := phi); auto.
  - intros. now apply shift_add.
  - intros. now apply shift_scale.
  - intros. now apply shift_inv.
  - intros. now apply rhs_n_shift.
  - intros. now apply rhs_o_shift.
Qed.
Lemma c26_mirror step dt k pl plT n o phi a aT : stepper step ->
  let T := fun f => fopp (mirror nx f) in
  plasma_ok pl n o phi a -> plasma_ok plT (T n) (T o) (T phi) aT ->
  exists pl' plT' n' o' phi',
    snd (steps (fun pl => step h pl dt dx) k pl) = Ok pl' /\
    snd (steps (fun pl => step h pl dt dx) k plT) = Ok plT' /\
    plasma_ok pl' n' o' phi' (a + INR k * dt) /\
    plasma_ok plT' (T n') (T o') (T phi') (aT + INR k * dt).
Proof.
  intros Hs T H1 H2. apply (sym_steps T) with (n := n) (o := o) (phi := phi); auto.
  - intros. now apply mirror_add.
  - intros. now apply mirror_scale.
  - intros. now apply mirror_inv.
  - intros. now apply rhs_n_mirror.
  - intros. now apply rhs_o_mirror.
Qed.

Local Notation Zf := (fun _ : field => fconst 0).
Lemma lap_iter_0 m i j : lap_iter m ny nx dx (fconst 0) i j = 0.
Proof.
  revert i j. induction m as [|m IH]; intros i j; [reflexivity|]. cbn [lap_iter]. rewrite lap5_R, !IH. unfold Rdiv. ring.
Qed.
Lemma coupling_0 i j : coupling p ny (fconst 0) (fconst 0) i j = 0.
Proof. unfold coupling. destruct (pzon p); unfold fconst; ring. Qed.
Lemma rhs_n_0 : agree (rhs_n p ny nx dx (fconst 0) (fconst 0)) (fconst 0).
Proof.
  intros i j _ _. unfold rhs_n, hyper. rewrite coupling_0, lap_iter_0, jacobian_ara, ara_const, cdy_const by assumption.
  unfold fconst. ring.
Qed.
Lemma rhs_o_0 : agree (rhs_o p ny nx dx (fconst 0) (fconst 0) (fconst 0)) (fconst 0).
Proof.
  intros i j _ _. unfold rhs_o, hyper. rewrite coupling_0, lap_iter_0, jacobian_ara, ara_const by assumption.
  unfold fconst. ring.
Qed.
Lemma invlap_0 : agree (invlap ny nx dx (fconst 0)) (fconst 0).
Proof.
  intros i j _ _. rewrite <- (invlap_ext ny nx dx (fadd (fscale 0 (fconst 0)) (fscale 0 (fconst 0)))).
  - rewrite invlap_lin by assumption. unfold fconst. ring.
  - intros a c _ _. unfold fadd, fscale, fconst. ring.
Qed.
Lemma c26_zero step dt k pl a : stepper step ->
  plasma_ok pl (fconst 0) (fconst 0) (fconst 0) a ->
  exists pl', snd (steps (fun pl => step h pl dt dx) k pl) = Ok pl' /\
    plasma_ok pl' (fconst 0) (fconst 0) (fconst 0) (a + INR k * dt).
Proof.
  intros Hs Hpl.
  destruct (sym_steps Zf) with (step := step) (dt := dt) (k := k) (pl := pl) (plT := pl)
     (n := fconst 0) (o := fconst 0) (phi := fconst 0) (a := a) (aT := a)
     as (pl1 & pl2 & n' & o' & phi' & E1 & E2 & P1 & P2); auto.
  - intros f g i j _ _. unfold fadd, fconst. ring.
  - intros c f i j _ _. unfold fscale, fconst. ring.
  - intros. apply invlap_0.
  - intros. apply rhs_n_0.
  - intros. apply rhs_o_0.
  - exists pl2. auto.
Qed.
End P.

(** C22, the transform itself *)
Lemma c22_zonal ny nx : (0 < ny)%nat -> forall f, exists z,
  zonal_transform (Ok (grid ny nx f)) = Ok (grid ny nx z) /\
  (forall i j, (i < ny)%nat -> (j < nx)%nat -> z i j = f i j - rsum ny (fun k => f k j) / INR ny) /\
  (forall j, (j < nx)%nat -> rsum ny (fun i => z i j) = 0) /\
  zonal_transform (Ok (grid ny nx z)) = Ok (grid ny nx z).
Proof.
  intros Hy f. exists (ydev ny f). rewrite !zonal_grid. split; [reflexivity|]. split; [reflexivity|].
  split; [intros; now apply rsum_ydev|]. f_equal. apply grid_ext. intros i j Hi Hj.
  unfold ydev at 1. unfold yavg. rewrite rsum_ydev by assumption. unfold Rdiv. ring.
Qed.
Lemma c22_linear ny nx f g u v c d : (0 < ny)%nat ->
  zonal_transform (Ok (grid ny nx f)) = Ok (grid ny nx u) ->
  zonal_transform (Ok (grid ny nx g)) = Ok (grid ny nx v) ->
  zonal_transform (Ok (grid ny nx (fadd (fscale c f) (fscale d g)))) = Ok (grid ny nx (fadd (fscale c u) (fscale d v))).
Proof.
  intros Hy. rewrite !zonal_grid. intros Hu Hv. pose proof (grid_ok_inj _ _ _ _ Hu) as Hu'. pose proof (grid_ok_inj _ _ _ _ Hv) as Hv'.
  f_equal. apply grid_ext. intros i j Hi Hj. rewrite ydev_lin. unfold fadd, fscale. now rewrite Hu', Hv'.
Qed.
