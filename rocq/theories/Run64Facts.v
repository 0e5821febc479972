(** The file left by a run of run.py in binary64. *)
From Coq Require Import List Arith ZArith Reals Lra Lia SpecFloat Bool String.
From Verif Require Import Num NdArray NdFacts ModelGradients ModelArakawa ModelProperties ModelHW ModelBackend ModelSchemes Spec Cplx SpecFourier SpecHW
  HWFacts SpecRound RoundFacts RoundStencil RoundHW RoundCons SpecRoundStep RoundReal RoundEval RoundStep RoundProps TestFacts
  ModelIO ModelRun SpecIO SpecRun RunTop ModelRun64 F32Facts SpecRun64.
Import List ListNotations.
Local Open Scope R_scope.
Local Existing Instance TimeF64.
Local Existing Instance NumF64.

(** ** grids of any number type *)
Lemma data_grid_in {A} {Nm : Num A} ny nx (g : nat -> nat -> A) x : In x (NdArray.data (grid ny nx g)) -> exists i j, (i < ny)%nat /\ (j < nx)%nat /\ x = g i j.
Proof.
  unfold grid, stack, build. cbn [NdArray.data indices]. rewrite in_map_iff.
  intros (ix & <- & H). apply in_flat_map in H. destruct H as (iy & Hy & Hx). apply in_map_iff in Hx. destruct Hx as (j & <- & Hj).
  apply in_flat_map in Hy. destruct Hy as (iz & Hz & Hi). cbn in Hz. destruct Hz as [<-|[]]. apply in_map_iff in Hi. destruct Hi as (i & <- & Hi).
  apply in_seq in Hi. apply in_seq in Hj. exists i, j. cbn. repeat split; lia.
Qed.
Lemma map_grid {A} {Nm : Num A} ny nx (rnd : A -> A) (f : nat -> nat -> A) :
  mkArr (shape (grid ny nx f)) (map rnd (NdArray.data (grid ny nx f))) = grid ny nx (fun i j => rnd (f i j)).
Proof. unfold grid, stack, build. cbn [shape NdArray.data]. now rewrite map_map. Qed.
Lemma regrid {A} {Nm : Num A} ny nx (f : nat -> nat -> A) : grid ny nx f = grid ny nx (at2 (grid ny nx f)).
Proof. apply grid_ext. intros i j Hi Hj. symmetry. now apply at2_grid. Qed.

(** ** steps *)
Lemma steps_snoc {A} {Nm : Num A} (st : ns A -> M (ns A)) j pl :
  snd (steps st (Datatypes.S j) pl) = match snd (steps st j pl) with Ok q => snd (st q) | Exn e => Exn e end.
Proof.
  revert pl. induction j as [|j IH]; intros pl.
  - cbn [steps]. rewrite snd_mbind. change (snd (mret pl)) with (@Ok (ns A) pl). cbv iota. destruct (snd (st pl)); reflexivity.
  - change (steps st (Datatypes.S (Datatypes.S j)) pl) with (mbind (st pl) (steps st (Datatypes.S j))).
    change (steps st (Datatypes.S j) pl) with (mbind (st pl) (steps st j)).
    rewrite !snd_mbind. destruct (snd (st pl)) as [q|e]; [apply IH|reflexivity].
Qed.

Section Step.
Variables (ny nx : nat) (dx : f64) (b : backend f64) (N : nat) (c1 nu k0 pb kap dt : f64).
Hypothesis Hy : (0 < ny)%nat.
Hypothesis Hx : (0 < nx)%nat.
Hypothesis Hb : exists solver, b = np_schemes solver \/ b = nb_schemes solver.
Hypothesis Hk : truthy k0 = true.
Local Notation phys := (physics_params64 dx (Z.of_nat N) c1 nu k0 pb kap).
Local Notation hF := (hw64 b dx N c1 nu pb kap false).
Local Notation hT := (hw_init b dx (Z.of_nat N) c1 nu pb kap false true).

Lemma phys_hw : hw_of_phys64 b phys = Ok hT.
Proof.
  unfold hw_of_phys64, physics_params64. cbn -[truthy hw_init]. rewrite Hk. reflexivity.
Qed.

Lemma step64 pl n o phi a pl' n' o' phi' a' : shaped ny nx dx b dx N c1 nu pb kap false ->
  has_fields ny nx pl n o phi a -> snd (rk4_step hF pl dt dx) = Ok pl' -> has_fields ny nx pl' n' o' phi' a' ->
  hw_step64 b phys (mkPlasma (grid ny nx n) (grid ny nx o) (grid ny nx phi) a) dt dx = Ok (mkPlasma (grid ny nx n') (grid ny nx o') (grid ny nx phi') a').
Proof.
  intros HS [Hw Hp] E [Hw' Hp']. destruct Hb as [solver Hb']. unfold hw_step64. rewrite phys_hw. cbn [bind p_density p_omega p_phi p_age].
  assert (Hh : RoundEval.holds ny nx [("density", grid ny nx n); ("omega", grid ny nx o); ("phi", grid ny nx phi); ("age", scal a)]%string n o phi a) by (split; reflexivity).
  rewrite (rk4_TF ny nx dx Hy Hx solver b dx N c1 nu pb kap false Hb' dt _ n o phi a HS Hh).
  rewrite (rk4_same dx dt _ _ pl).
  2:{ symmetry. exact Hw. }
  2:{ symmetry. exact Hp. }
  change (hw_init b dx (Z.of_nat N) c1 nu pb kap false false) with hF. rewrite E. cbn [bind].
  rewrite <- (get_without pl' "phi" "density"), <- (get_without pl' "phi" "omega"), <- (get_without pl' "phi" "age") by discriminate.
  rewrite Hw', Hp'. reflexivity.
Qed.
End Step.

Section Run.
Variables (ny nx : nat) (dx : f64) (b : backend f64) (N : nat) (c1 nu k0 pb kap : f64) (Lam B P S d : R) (dt : f64).
Hypothesis Rg : regime ny nx dx b dx N c1 nu pb kap false Lam B P S d dt.
Hypothesis Hk : truthy k0 = true.
Hypothesis HS : shaped ny nx dx b dx N c1 nu pb kap false.
Hypothesis HB : B <= 2 ^ 127.
Hypothesis HP : P <= 2 ^ 127.
Local Notation phys := (physics_params64 dx (Z.of_nat N) c1 nu k0 pb kap).
Local Notation hF := (hw64 b dx N c1 nu pb kap false).
Local Notation st := (fun pl => rk4_step hF pl dt dx).

(** the trajectory as plasmas of the driver *)
Definition plasma_of (y : ns f64) : plasma (arr f64) f64 :=
  let g k := match ns_get y k with Ok a => a | Exn _ => scal (f64_ofZ 0) end in
  mkPlasma (g "density"%string) (g "omega"%string) (g "phi"%string) (match ns_get y "age" with Ok a => get a [] | Exn _ => f64_ofZ 0 end).
Definition traj_of (pl : ns f64) (j : nat) : plasma (arr f64) f64 :=
  match snd (steps st j pl) with Ok q => plasma_of q | Exn _ => plasma_of pl end.
Lemma plasma_fields q n o phi a : has_fields ny nx q n o phi a -> plasma_of q = mkPlasma (grid ny nx n) (grid ny nx o) (grid ny nx phi) a.
Proof.
  intros [Hw Hp]. unfold plasma_of. rewrite <- (get_without q "phi" "density"), <- (get_without q "phi" "omega"), <- (get_without q "phi" "age") by discriminate.
  rewrite Hw, Hp. reflexivity.
Qed.

(** all states along the way are there *)
Definition along (pl : ns f64) (k : nat) (Q : nat -> (nat -> nat -> f64) -> (nat -> nat -> f64) -> (nat -> nat -> f64) -> Prop) : Prop :=
  forall j, (j <= k)%nat -> exists q n o phi a, snd (steps st j pl) = Ok q /\ has_fields ny nx q n o phi a /\ Q j n o phi.

Lemma along_evolves t ys xs pl k Q (c : cfg (arr f64) f64) : along pl k Q -> c_step c = dt -> c_dx c = dx ->
  evolves (hw_sim64 b t ys xs) c phys (traj_of pl 0) (traj_of pl) k.
Proof.
  intros HA E1 E2. split; [reflexivity|]. intros j Hj. cbn [hw_sim64 s_step]. rewrite E1, E2.
  destruct (HA j ltac:(lia)) as (q & n & o & phi & a & S1 & F1 & _). destruct (HA (Datatypes.S j) ltac:(lia)) as (q' & n' & o' & phi' & a' & S2 & F2 & _).
  unfold traj_of. rewrite S1, S2. rewrite (plasma_fields _ _ _ _ _ F1), (plasma_fields _ _ _ _ _ F2).
  rewrite steps_snoc, S1 in S2.
  exact (step64 ny nx dx b N c1 nu k0 pb kap dt (rg_y _ _ _ _ _ _ _ _ _ _ _ _ _ _ _ _ _ Rg) (rg_x _ _ _ _ _ _ _ _ _ _ _ _ _ _ _ _ _ Rg)
    (rg_b _ _ _ _ _ _ _ _ _ _ _ _ _ _ _ _ _ Rg) Hk q n o phi a q' n' o' phi' a' HS F1 S2 F2).
Qed.

Lemma close_bounded e M Bd n o y : close64 ny nx e n o y -> sbdd ny nx M y -> M + e <= Bd -> bounded64 ny nx Bd n /\ bounded64 ny nx Bd o.
Proof.
  intros C [M1 M2] H. split; intros i j Hi Hj; destruct (C i j Hi Hj) as [[F1 E1] [F2 E2]].
  - split; [exact F1|]. specialize (M1 i j Hi Hj). replace (fval (n i j)) with ((fval (n i j) - fst y i j) + fst y i j) by ring.
    apply Rle_trans with (1 := Rabs_triang _ _). lra.
  - split; [exact F2|]. specialize (M2 i j Hi Hj). replace (fval (o i j)) with ((fval (o i j) - snd y i j) + snd y i j) by ring.
    apply Rle_trans with (1 := Rabs_triang _ _). lra.
Qed.
Lemma near_stored x r e Bd : near x r e -> Rabs (fval x) <= Bd -> Bd <= 2 ^ 127 -> near (f32_64 x) r (stored e Bd).
Proof.
  intros [Fx Ex] Hx HB2. destruct (f32_near x Fx ltac:(lra)) as [F1 E1]. split; [exact F1|].
  replace (fval (f32_64 x) - r) with ((fval (f32_64 x) - fval x) + (fval x - r)) by ring. apply Rle_trans with (1 := Rabs_triang _ _).
  unfold stored. assert (0 < / 2 ^ 24) by (apply Rinv_0_lt_compat, pow_lt; lra).
  assert (/ 2 ^ 24 * Rabs (fval x) <= / 2 ^ 24 * Bd) by (apply Rmult_le_compat_l; lra). lra.
Qed.
Lemma close_stored e Bd n o y : close64 ny nx e n o y -> bounded64 ny nx Bd n -> bounded64 ny nx Bd o -> Bd <= 2 ^ 127 ->
  close64 ny nx (stored e Bd) (fun i j => f32_64 (n i j)) (fun i j => f32_64 (o i j)) y.
Proof.
  intros C B1 B2 H i j Hi Hj. destruct (C i j Hi Hj) as [N1 N2]. split; apply near_stored; try assumption; [apply (B1 i j Hi Hj)|apply (B2 i j Hi Hj)].
Qed.
Lemma phi_stored e n o phi y : close64 ny nx e n o y -> pot64 ny nx dx P d phi o ->
  phi_near ny nx (fval dx) (stored (Lam * e + d) P) (fun i j => f32_64 (phi i j)) y.
Proof.
  intros C [Bp Np] i j Hi Hj. destruct (Np i j Hi Hj) as [F1 E1]. destruct (Bp i j Hi Hj) as [_ E2].
  apply near_stored; try assumption. split; [exact F1|].
  replace (fval (phi i j) - invlap ny nx (fval dx) (snd y) i j) with
    ((fval (phi i j) - invlap ny nx (fval dx) (values o) i j) + (invlap ny nx (fval dx) (values o) i j - invlap ny nx (fval dx) (snd y) i j)) by ring.
  apply Rle_trans with (1 := Rabs_triang _ _).
  assert (Pdx : 0 < fval dx). { destruct (rg_sdx _ _ _ _ _ _ _ _ _ _ _ _ _ _ _ _ _ Rg) as [A _]. assert (0 < / 2 ^ 200) by (apply Rinv_0_lt_compat, pow_lt; lra). lra. }
  pose proof (inv_dif_bd ny nx (fval dx) (rg_y _ _ _ _ _ _ _ _ _ _ _ _ _ _ _ _ _ Rg) (rg_x _ _ _ _ _ _ _ _ _ _ _ _ _ _ _ _ _ Rg) Pdx Lam
    (rg_Lam _ _ _ _ _ _ _ _ _ _ _ _ _ _ _ _ _ Rg) e (values o) (snd y)) as D.
  assert (D' : Rabs (invlap ny nx (fval dx) (values o) i j - invlap ny nx (fval dx) (snd y) i j) <= Lam * e).
  { apply D; try assumption. intros a c Ha Hc. apply (C a c Ha Hc). }
  lra.
Qed.

Lemma time_near j T : INR j * fval dt <= T -> T <= 2 ^ 100 -> (Z.of_nat j <= 2 ^ 53)%Z ->
  near (f32_64 (nmul (nofZ (Z.of_nat j)) dt)) (INR j * fval dt) (/ 2 ^ 23 * T + / 2 ^ 149).
Proof.
  intros HT HT2 Hj. destruct (ofZ_exact (Z.of_nat j)) as [F1 E1]; [lia|].
  assert (Pdt : 0 < fval dt). { destruct (rg_sdt _ _ _ _ _ _ _ _ _ _ _ _ _ _ _ _ _ Rg) as [A _]. assert (0 < / 2 ^ 200) by (apply Rinv_0_lt_compat, pow_lt; lra). lra. }
  pose proof (pos_INR j) as Pj. assert (P0 : 0 <= INR j * fval dt) by (apply Rmult_le_pos; lra).
  assert (E : fval (SpecFloat.binary_normalize 53 1024 (Z.of_nat j) 0 false) * fval dt = INR j * fval dt) by (rewrite E1, <- INR_IZR_INZ; reflexivity).
  assert (big100 : 2 ^ 100 <= 2 ^ 1023) by (apply Rle_pow; [lra|lia]).
  assert (big101 : 2 * 2 ^ 100 <= 2 ^ 127) by (change (2 * 2 ^ 100) with (2 ^ 101); apply Rle_pow; [lra|lia]).
  destruct (mul_ok _ dt F1 (rg_dt _ _ _ _ _ _ _ _ _ _ _ _ _ _ _ _ _ Rg)) as [F2 E2].
  { rewrite E, Rabs_pos_eq by exact P0. lra. }
  rewrite E in E2. rewrite (Rabs_pos_eq (INR j * fval dt)) in E2 by exact P0.
  change (nmul (nofZ (Z.of_nat j)) dt) with (SFmul 53 1024 (SpecFloat.binary_normalize 53 1024 (Z.of_nat j) 0 false) dt).
  set (x := SFmul 53 1024 _ dt) in *. pose proof uro_pos as U. pose proof uro_num as Un. pose proof eta_pos as Et.
  pose proof eta_152 as E152.
  assert (H1 : Rabs (fval x) <= (1 + uro) * T + eta).
  { replace (fval x) with ((fval x - INR j * fval dt) + INR j * fval dt) by ring. apply Rle_trans with (1 := Rabs_triang _ _).
    rewrite (Rabs_pos_eq (INR j * fval dt)) by exact P0.
    assert (uro * (INR j * fval dt) <= uro * T) by (apply Rmult_le_compat_l; lra). lra. }
  assert (Q1 : / 2 ^ 23 = 2 * / 2 ^ 24) by (change (2 ^ 24) with (2 * 2 ^ 23); field; apply pow_nonzero; lra).
  assert (Q2 : / 2 ^ 149 = 2 * / 2 ^ 150) by (change (2 ^ 150) with (2 * 2 ^ 149); field; apply pow_nonzero; lra).
  assert (Q3 : / 2 ^ 152 = / 4 * / 2 ^ 150) by (change (2 ^ 152) with (2 * (2 * 2 ^ 150)); field; apply pow_nonzero; lra).
  assert (Q4 : / 2 ^ 24 = / 16777216) by (f_equal; ring).
  assert (Q5 : 0 < / 2 ^ 150) by (apply Rinv_0_lt_compat, pow_lt; lra).
  assert (Q6 : / 2 ^ 150 <= 1). { rewrite <- Rinv_1. apply Rinv_le_contravar; [lra|]. apply pow_R1_Rle; lra. }
  assert (Q7 : 1 <= 2 ^ 100) by (apply pow_R1_Rle; lra).
  rewrite Q1, Q2, Q4 in *. rewrite Q3 in E152. set (w := / 2 ^ 150) in *. set (H := 2 ^ 100) in *. set (J := 2 ^ 127) in *.
  assert (H2 : Rabs (fval x) <= J).
  { clearbody w H J. apply Rle_trans with (1 := H1). rewrite Un. lra. }
  destruct (f32_near x F2 H2) as [F3 E3]. split; [exact F3|].
  fold w in E3. replace (/ 2 ^ 24) with (/ 16777216) in E3 by (f_equal; ring). clearbody w H J.
  replace (fval (f32_64 x) - INR j * fval dt) with ((fval (f32_64 x) - fval x) + (fval x - INR j * fval dt)) by ring.
  apply Rle_trans with (1 := Rabs_triang _ _).
  assert (uro * (INR j * fval dt) <= uro * T) by (apply Rmult_le_compat_l; lra). rewrite Un in *. lra.
Qed.

Variables (Y : nat -> state) (T M E : R) (n0 o0 phi0 phi : nat -> nat -> f64) (t : order) (c : cfg (arr f64) f64) (fs : option (h5 (arr f64) f64)) (sn : Z).
Local Notation s := (hw_sim64 b t ny nx).
Local Notation k := (Z.to_nat sn).
Local Notation pl := [("density", grid ny nx n0); ("omega", grid ny nx o0); ("phi", grid ny nx phi); ("age", scal (f64_ofZ 0))]%string.
Hypothesis Ht : INR (leaves t) <= 2 ^ 50.
Hypothesis Hout : c_output c = true.
Hypothesis Hfs : fs = None \/ c_force c = true.
Hypothesis Hbl : (1 <= c_blen c)%nat.
Hypothesis Hsn : (1 <= c_snaps c)%Z.
Hypothesis Hph : c_phys c = phys.
Hypothesis Hst : c_step c = dt.
Hypothesis Hdx : c_dx c = dx.
Hypothesis Hdo : c_down c = None.
Hypothesis Hpr : c_props c = [].
Hypothesis Hint : t_int (ndiv (nsub (c_end c) (nofZ 0)) (c_step c)) = Ok sn.
Hypothesis Hsn53 : (sn <= 2 ^ 53)%Z.
Hypothesis HkT : INR k * fval dt <= T.
Hypothesis HT : T <= 2 ^ 100.
Hypothesis HM : forall j, (j <= k)%nat -> sbdd ny nx M (Y j).
Hypothesis HME : M + E <= B.
Hypothesis HE : 0 <= B.
Hypothesis Hphi : snd (hw_get_phi hF (Ok (grid ny nx o0)) dx) = Ok (grid ny nx phi).
Hypothesis Hal : along pl k (fun j n o ph => close64 ny nx E n o (Y j) /\ pot64 ny nx dx P d ph o).
Local Notation tr := (traj_of pl).

Lemma dt_pos : 0 < fval dt.
Proof. destruct (rg_sdt _ _ _ _ _ _ _ _ _ _ _ _ _ _ _ _ _ Rg) as [A _]. assert (0 < / 2 ^ 200) by (apply Rinv_0_lt_compat, pow_lt; lra). lra. Qed.
Lemma time_in j : (j <= k)%nat -> 0 <= INR j * fval dt <= T.
Proof.
  intros H. pose proof dt_pos. pose proof (pos_INR j). apply le_INR in H. split; [apply Rmult_le_pos; lra|].
  apply Rle_trans with (2 := HkT). apply Rmult_le_compat_r; lra.
Qed.
Lemma tr_fields j : (j <= k)%nat -> exists n o ph a, tr j = mkPlasma (grid ny nx n) (grid ny nx o) (grid ny nx ph) a /\
  close64 ny nx E n o (Y j) /\ pot64 ny nx dx P d ph o /\ bounded64 ny nx B n /\ bounded64 ny nx B o.
Proof.
  intros H. destruct (Hal j H) as (q & n & o & ph & a & E1 & F1 & C1 & P1). exists n, o, ph, a. unfold traj_of. rewrite E1.
  split; [now apply plasma_fields|]. split; [exact C1|]. split; [exact P1|]. exact (close_bounded E M B n o _ C1 (HM j H) HME).
Qed.
Lemma tr_0 : tr 0 = mkPlasma (grid ny nx n0) (grid ny nx o0) (grid ny nx phi) (f64_ofZ 0).
Proof. unfold traj_of. cbn [steps mret snd]. apply plasma_fields. split; reflexivity. Qed.

Definition sD j i l := f32_64 (at2 (p_density (tr j)) i l).
Definition sW j i l := f32_64 (at2 (p_omega (tr j)) i l).
Definition sF j i l := f32_64 (at2 (match j with O => grid ny nx phi0 | _ => p_phi (tr j) end) i l).
Definition sT (j : nat) : f64 := match j with O => f32_64 (f64_ofZ 0) | _ => f32_64 (nmul (nofZ (Z.of_nat j)) dt) end.
Lemma f32_at2 f : mkArr (shape (grid ny nx f)) (map f32_64 (NdArray.data (grid ny nx f))) = grid ny nx (fun i l => f32_64 (at2 (grid ny nx f) i l)).
Proof. rewrite map_grid. apply grid_ext. intros i l Hi Hl. now rewrite at2_grid. Qed.

Lemma run_file : exists g, result_of (run s c (plasma64 (grid ny nx n0) (grid ny nx o0) (grid ny nx phi0))) fs = Ok tt /\
  disk_of (run s c (plasma64 (grid ny nx n0) (grid ny nx o0) (grid ny nx phi0))) fs = Some g /\
  holds64 ny nx g (entries c k) sD sW sF sT /\
  forall j, In j (entries c k) -> (j <= k)%nat /\
    close64 ny nx (stored E B) (sD j) (sW j) (Y j) /\
    (j <> 0%nat -> phi_near ny nx (fval dx) (stored (Lam * E + d) P) (sF j) (Y j)) /\
    near (sT j) (INR j * fval dt) (/ 2 ^ 23 * T + / 2 ^ 149).
Proof.
  assert (Hdown : forall v, down c v = Ok v) by (intros v; unfold down; now rewrite Hdo).
  assert (Hds : forall q, downsampled c (fun v => v) q) by (intros q; unfold downsampled; now rewrite !Hdown).
  assert (Hin : forall j, In j (frames c (time1 c) k) -> (1 <= j <= k)%nat).
  { intros j H. unfold frames in H. apply filter_In in H as [H _]. apply in_seq in H. lia. }
  edestruct (top_fresh (arr f64) f64 TimeF64 s c (fun _ => True) (plasma64 (grid ny nx n0) (grid ny nx o0) (grid ny nx phi0)) (grid ny nx phi) tr sn k (fun v => v) fs [])
    as (g & R1 & R2 & R3 & _); try assumption.
  - apply Z.eqb_neq. lia.
  - rewrite Hph. cbn. repeat constructor; cbn; intuition discriminate.
  - apply Hds.
  - rewrite Hph. split; [|split; [exact Hint|split; [|split]]].
    + cbn [plasma64 p_omega hw_sim64 s_phi]. unfold hw_phi64. rewrite (phys_hw dx b N c1 nu k0 pb kap Hk). cbn -[hw_get_phi hw_init]. exact Hphi.
    + cbn [plasma64 p_density p_omega p_age]. rewrite <- tr_0. exact (along_evolves t ny nx pl k _ c Hal Hst Hdx).
    + intros j _. apply Hds.
    + split; [lia|]. split; [|now left]. intros j Hj. destruct (tr_fields j ltac:(lia)) as (n & o & ph & a & E1 & _ & _ & B1 & _).
      rewrite E1. cbn [p_density hw_sim64 s_nan]. apply (total_not_nan t _ B HE).
      * intros x Hx. apply data_grid_in in Hx. destruct Hx as (i & l & Hi & Hl & ->). exact (B1 i l Hi Hl).
      * exact Ht.
      * apply Rle_trans with (1 := HB). apply Rle_pow; [lra|lia].
  - intros q Hq. rewrite Hpr in Hq. destruct Hq.
  - split; [rewrite Hpr; constructor|]. split; [rewrite Hpr; intros q []|]. split.
    + rewrite Hph. eexists. reflexivity.
    + split; [|constructor]. cbn [hw_sim64 s_table]. constructor.
  - intros q Hq. apply Forall_forall. intros; exact I.
  - exists g. split; [exact R1|]. split; [exact R2|]. split.
    + assert (GR : forall f, RFrame (s_f32V s (grid ny nx f)) = @RFrame (arr f64) f64 (grid ny nx (fun i l => f32_64 (at2 (grid ny nx f) i l)))).
      { intros f. cbn [hw_sim64 s_f32V]. now rewrite f32_at2. }
      assert (RW : forall key (f : nat -> row (arr f64) f64), In key field_keys ->
        (truthy (c_rec c) = false -> frame_row s (fun v => v) (nofZ 0) (plasma64 (grid ny nx n0) (grid ny nx o0) (grid ny nx phi0)) key = f 0%nat) ->
        (forall j, (1 <= j <= k)%nat -> frame_row s (fun v => v) (time1 c j) (tr j) key = f j) ->
        dget (dsets g) key = Some (Rows (map f (entries c k)))).
      { intros key f Hkey H0 Hj. rewrite (R3 key Hkey). do 2 f_equal. unfold fresh_log, entries, loop_log. cbn [app]. rewrite !map_app. f_equal.
        - destruct (truthy (c_rec c)) eqn:Er; [reflexivity|]. cbn [map fst snd]. f_equal. exact (H0 eq_refl).
        - rewrite map_map. apply map_ext_in. intros j Hjn. cbn [fst snd]. apply Hj. now apply Hin. }
      split; [|split; [|split]].
      * apply RW; [cbn; tauto| |].
        -- intros _. cbn [frame_row String.eqb Ascii.eqb Bool.eqb plasma64 p_density]. rewrite GR. unfold sD. now rewrite tr_0.
        -- intros j Hj. destruct (tr_fields j ltac:(lia)) as (n & o & ph & a & E1 & _).
           unfold sD. rewrite E1. cbn [frame_row String.eqb Ascii.eqb Bool.eqb p_density]. apply GR.
      * apply RW; [cbn; tauto| |].
        -- intros _. cbn [frame_row String.eqb Ascii.eqb Bool.eqb plasma64 p_omega]. rewrite GR. unfold sW. now rewrite tr_0.
        -- intros j Hj. destruct (tr_fields j ltac:(lia)) as (n & o & ph & a & E1 & _).
           unfold sW. rewrite E1. cbn [frame_row String.eqb Ascii.eqb Bool.eqb p_omega]. apply GR.
      * apply RW; [cbn; tauto| |].
        -- intros _. cbn [frame_row String.eqb Ascii.eqb Bool.eqb plasma64 p_phi]. rewrite GR. reflexivity.
        -- intros j Hj. destruct (tr_fields j ltac:(lia)) as (n & o & ph & a & E1 & _).
           unfold sF. destruct j as [|j]; [lia|]. rewrite E1. cbn [frame_row String.eqb Ascii.eqb Bool.eqb p_phi]. apply GR.
      * apply RW; [cbn; tauto| |].
        -- intros _. reflexivity.
        -- intros j Hj. destruct j as [|j]; [lia|]. unfold sT, time1. rewrite Hst. reflexivity.
    + intros j Hj. assert (Hjk : (j <= k)%nat).
      { unfold entries in Hj. apply in_app_or in Hj. destruct Hj as [Hj|Hj]; [|apply Hin in Hj; lia].
        destruct (truthy (c_rec c)); [destruct Hj|]. destruct Hj as [<-|[]]. lia. }
      split; [exact Hjk|]. destruct (tr_fields j Hjk) as (n & o & ph & a & E1 & C1 & P1 & B1 & B2).
      split; [|split].
      * pose proof (close_stored E B n o _ C1 B1 B2 HB) as C2. intros i l Hi Hl. unfold sD, sW. rewrite E1. cbn [p_density p_omega].
        rewrite !at2_grid by assumption. exact (C2 i l Hi Hl).
      * intros J0. pose proof (phi_stored E n o ph _ C1 P1) as C2. intros i l Hi Hl. unfold sF. destruct j as [|j]; [lia|]. rewrite E1. cbn [p_phi].
        rewrite !at2_grid by assumption. exact (C2 i l Hi Hl).
      * destruct j as [|j].
        -- cbn [sT INR]. replace (0 * fval dt) with 0 by ring. split; [split; [reflexivity|exact I]|]. change (fval (f32_64 (f64_ofZ 0))) with 0.
           rewrite Rminus_0_r, Rabs_R0. assert (0 <= T) by (destruct (time_in 0 ltac:(lia)); lra).
           assert (0 < / 2 ^ 149) by (apply Rinv_0_lt_compat, pow_lt; lra). assert (0 < / 2 ^ 23) by (apply Rinv_0_lt_compat, pow_lt; lra).
           assert (0 <= / 2 ^ 23 * T) by (apply Rmult_le_pos; lra). lra.
        -- apply time_near; [apply time_in; exact Hjk|exact HT|]. lia.
Qed.
End Run.

(** ** against the solution of the semi-discrete system *)
Lemma start_err ny nx dx b dx0 N c1 nu pb kap zon Lam B P S d dt e T : regime ny nx dx b dx0 N c1 nu pb kap zon Lam B P S d dt -> 0 <= e -> 0 <= T ->
  e <= exp (2 * lip (par64 N c1 nu pb kap zon) (fval dx) Lam B * T) * (e + T * (step_err (par64 N c1 nu pb kap zon) ny (fval dx) d B S (fval dt) / fval dt)).
Proof.
  intros Rg He HT. destruct Rg as [H1 H2 H3 H4 (solver & H5) H6 H7 H8 H9 H10 H11 H12 H13 H14 H15 H16 H17 H18 H19 H20 H21 H22 H23 H24].
  pose proof (growth_le ny nx dx H1 H2 H4 b dx0 N c1 nu pb kap zon H10 H11 Lam B P S d H12 H14 H15 H16 H17 H19 H20 H21 dt H23 0 e T He) as G.
  unfold growth in G. cbn [INR pow] in G. unfold par64. apply Rle_trans with (2 := G ltac:(lra)). lra.
Qed.

Lemma c119_solution ny nx dx N c1 nu k0 pb kap Y T M : (0 < ny)%nat -> (0 < nx)%nat -> 0 < fval dx ->
  let p := par64 N c1 nu pb kap false in
  0 <= T -> hw_solution p ny nx (fval dx) Y T -> (forall s, 0 <= s <= T -> sbdd ny nx M (Y s)) ->
  exists C h0, 0 <= C /\ 0 < h0 /\ forall b Lam B P S d dt, regime ny nx dx b dx N c1 nu pb kap false Lam B P S d dt ->
  keeps_shape ny nx dx (fun om dx => snd (hw_get_phi (hw64 b dx N c1 nu pb kap false) om dx)) ->
  fval dt <= h0 -> B <= 2 ^ 127 -> P <= 2 ^ 127 -> T <= 2 ^ 100 ->
  forall t c fs k e n o phi0, call64 dx N c1 nu k0 pb kap dt c fs k -> INR (leaves t) <= 2 ^ 50 -> INR k * fval dt <= T ->
  close64 ny nx e n o (Y 0) ->
  let E := exp (2 * lip p (fval dx) Lam B * T) * (e + T * (step_err p ny (fval dx) d B S (fval dt) / fval dt)) + C * fval dt ^ 4 in
  1.001 * (M + E) + 1.1 * (fval dt * S) <= B ->
  let call := run (hw_sim64 b t ny nx) c (plasma64 (grid ny nx n) (grid ny nx o) (grid ny nx phi0)) in
  exists g D W F Tm, result_of call fs = Ok tt /\ disk_of call fs = Some g /\ holds64 ny nx g (entries c k) D W F Tm /\
  forall j, In j (entries c k) ->
    close64 ny nx (stored E B) (D j) (W j) (Y (INR j * fval dt)) /\
    (j <> 0%nat -> phi_near ny nx (fval dx) (stored (Lam * E + d) P) (F j) (Y (INR j * fval dt))) /\
    near (Tm j) (INR j * fval dt) (/ 2 ^ 23 * T + / 2 ^ 149).
Proof.
  intros Hy Hx Hh p HT HY HM. destruct (c115_solution ny nx dx N c1 nu pb kap false Y T M Hy Hx Hh HT HY HM) as (C & h0 & HC & Hh0 & HG).
  exists C, h0. split; [exact HC|]. split; [exact Hh0|]. intros b Lam B P S d dt Rg HS Hdt HB HP HT2 t c fs k e n o phi0 Hc Ht Hk Cl E HE call.
  destruct Hc as [K1 K2 K3 K4 K5 K6 K7 K8 K9 K10 (sn & K11 & -> & K12)].
  assert (He : 0 <= e) by (destruct (Cl 0%nat 0%nat Hy Hx) as [A _]; apply (near_err _ _ _ A)).
  assert (Pdt : 0 < fval dt). { destruct (rg_sdt _ _ _ _ _ _ _ _ _ _ _ _ _ _ _ _ _ Rg) as [A _]. assert (0 < / 2 ^ 200) by (apply Rinv_0_lt_compat, pow_lt; lra). lra. }
  assert (PB : 0 < B). { destruct (rg_B _ _ _ _ _ _ _ _ _ _ _ _ _ _ _ _ _ Rg) as [A _]. assert (0 < / 2 ^ 200) by (apply Rinv_0_lt_compat, pow_lt; lra). lra. }
  assert (PS : 0 < S). { destruct (rg_S _ _ _ _ _ _ _ _ _ _ _ _ _ _ _ _ _ Rg) as [A _]. assert (0 < / 2 ^ 200) by (apply Rinv_0_lt_compat, pow_lt; lra). lra. }
  assert (PK : 0 < fval dt * S) by (apply Rmult_lt_0_compat; assumption).
  assert (ME : M + E <= B) by lra.
  assert (eE : e <= E).
  { pose proof (start_err _ _ _ _ _ _ _ _ _ _ _ _ _ _ _ _ _ e T Rg He HT) as G. fold p in G.
    assert (0 <= C * fval dt ^ 4) by (apply Rmult_le_pos; [exact HC|apply pow_le; lra]). unfold E. lra. }
  assert (Bo : bounded64 ny nx B o).
  { apply (close_bounded ny nx e M B n o (Y 0) Cl); [apply HM; lra|lra]. }
  destruct (rg_sol _ _ _ _ _ _ _ _ _ _ _ _ _ _ _ _ _ Rg o Bo) as (phi & G1 & G2 & G3).
  destruct (run_file ny nx dx b N c1 nu k0 pb kap Lam B P S d dt Rg K1 HS HB HP (fun j => Y (INR j * fval dt)) T M E n o phi0 phi t c fs sn
    Ht K2 K3 K4 K5 K6 K7 K8 K9 K10 K11 K12 Hk HT2) as (g & R1 & R2 & R3 & R4).
  - intros j Hj. apply HM. apply le_INR in Hj. pose proof (pos_INR j). split; [apply Rmult_le_pos; lra|].
    apply Rle_trans with (2 := Hk). apply Rmult_le_compat_r; lra.
  - exact ME.
  - lra.
  - exact G1.
  - intros j Hj. assert (Hjt : INR j * fval dt <= T).
    { apply le_INR in Hj. apply Rle_trans with (2 := Hk). apply Rmult_le_compat_r; lra. }
    destruct (HG b dx Lam B P S d dt Rg Hdt j e n o phi [("density", grid ny nx n); ("omega", grid ny nx o); ("phi", grid ny nx phi); ("age", scal (f64_ofZ 0))]%string
      (f64_ofZ 0) Hjt Cl (conj G2 G3) (conj eq_refl eq_refl) HE) as (lg & q & n' & o' & phi' & a' & S1 & F1 & P1 & C1).
    exists q, n', o', phi', a'. rewrite S1. split; [reflexivity|]. split; [exact F1|]. split; [exact C1|exact P1].
  - exists g. do 4 eexists. split; [exact R1|]. split; [exact R2|]. split; [exact R3|].
    intros j Hj. destruct (R4 j Hj) as (_ & Q). exact Q.
Qed.

(** ** against the same steps in exact arithmetic *)
Lemma growth_mono u e er j k : 0 <= u -> 0 <= e -> 0 <= er -> (j <= k)%nat ->
  (1 + u) ^ j * (e + INR j * er) <= (1 + u) ^ k * (e + INR k * er).
Proof.
  intros Hu He Her Hj. pose proof (pos_INR j). apply le_INR in Hj as Hj'.
  apply Rmult_le_compat.
  - apply pow_le; lra.
  - assert (0 <= INR j * er) by (apply Rmult_le_pos; lra). lra.
  - apply Rle_pow; [lra|exact Hj].
  - assert (INR j * er <= INR k * er) by (apply Rmult_le_compat_r; lra). lra.
Qed.
Lemma c119_run ny nx dx b N c1 nu k0 pb kap Lam B P S d dt : regime ny nx dx b dx N c1 nu pb kap false Lam B P S d dt ->
  keeps_shape ny nx dx (fun om dx => snd (hw_get_phi (hw64 b dx N c1 nu pb kap false) om dx)) ->
  B <= 2 ^ 127 -> P <= 2 ^ 127 ->
  let p := par64 N c1 nu pb kap false in
  let step := rk4 (hw_rhs p ny nx (fval dx)) (fval dt) in
  forall t c fs k e n o phi0 A y, call64 dx N c1 nu k0 pb kap dt c fs k -> INR (leaves t) <= 2 ^ 50 -> INR k * fval dt <= 2 ^ 100 ->
  close64 ny nx e n o y -> stays ny nx A step k y ->
  let E := (1 + 2 * (fval dt * lip p (fval dx) Lam B)) ^ k * (e + INR k * step_err p ny (fval dx) d B S (fval dt)) in
  1.001 * (A + E) + 1.1 * (fval dt * S) <= B ->
  let call := run (hw_sim64 b t ny nx) c (plasma64 (grid ny nx n) (grid ny nx o) (grid ny nx phi0)) in
  exists g D W F Tm, result_of call fs = Ok tt /\ disk_of call fs = Some g /\ holds64 ny nx g (entries c k) D W F Tm /\
  forall j, In j (entries c k) ->
    close64 ny nx (stored E B) (D j) (W j) (iter_step step j y) /\
    (j <> 0%nat -> phi_near ny nx (fval dx) (stored (Lam * E + d) P) (F j) (iter_step step j y)) /\
    near (Tm j) (INR j * fval dt) (/ 2 ^ 23 * (INR k * fval dt) + / 2 ^ 149).
Proof.
  intros Rg HS HB HP p step t c fs k e n o phi0 A y Hc Ht Hk Cl St E HE call.
  destruct Hc as [K1 K2 K3 K4 K5 K6 K7 K8 K9 K10 (sn & K11 & -> & K12)].
  pose proof (rg_y _ _ _ _ _ _ _ _ _ _ _ _ _ _ _ _ _ Rg) as Hy. pose proof (rg_x _ _ _ _ _ _ _ _ _ _ _ _ _ _ _ _ _ Rg) as Hx.
  assert (He : 0 <= e) by (destruct (Cl 0%nat 0%nat Hy Hx) as [Q _]; apply (near_err _ _ _ Q)).
  assert (Pos : forall x, scale64 x -> 0 < x). { intros x [Q _]. assert (0 < / 2 ^ 200) by (apply Rinv_0_lt_compat, pow_lt; lra). lra. }
  pose proof (Pos _ (rg_sdt _ _ _ _ _ _ _ _ _ _ _ _ _ _ _ _ _ Rg)) as Pdt. pose proof (Pos _ (rg_B _ _ _ _ _ _ _ _ _ _ _ _ _ _ _ _ _ Rg)) as PB.
  pose proof (Pos _ (rg_S _ _ _ _ _ _ _ _ _ _ _ _ _ _ _ _ _ Rg)) as PS. pose proof (Pos _ (rg_sdx _ _ _ _ _ _ _ _ _ _ _ _ _ _ _ _ _ Rg)) as Pdx.
  assert (PK : 0 < fval dt * S) by (apply Rmult_lt_0_compat; assumption).
  assert (PL : 0 <= 2 * (fval dt * lip p (fval dx) Lam B)).
  { apply Rmult_le_pos; [lra|]. apply Rmult_le_pos; [lra|]. apply lip_pos; [exact Pdx| |lra]. exact (rg_L _ _ _ _ _ _ _ _ _ _ _ _ _ _ _ _ _ Rg). }
  assert (PE : 0 <= step_err p ny (fval dx) d B S (fval dt)).
  { destruct Rg as [H1 H2 H3 H4 (solver & H5) H6 H7 H8 H9 H10 H11 H12 H13 H14 H15 H16 H17 H18 H19 H20 H21 H22 H23 H24].
    exact (err_pos ny nx dx H1 H2 H4 b dx N c1 nu pb kap false H10 H11 B P S d H14 H15 H16 H17 H19 H20 H21 dt H23). }
  assert (GM : forall j, (j <= Z.to_nat sn)%nat -> (1 + 2 * (fval dt * lip p (fval dx) Lam B)) ^ j * (e + INR j * step_err p ny (fval dx) d B S (fval dt)) <= E).
  { intros j Hj. apply growth_mono; assumption. }
  assert (ME : A + E <= B) by lra.
  assert (eE : e <= E). { pose proof (GM 0%nat ltac:(lia)) as G. cbn [pow INR] in G. lra. }
  assert (Bo : bounded64 ny nx B o).
  { apply (close_bounded ny nx e A B n o y Cl); [apply (St 0%nat); lia|lra]. }
  destruct (rg_sol _ _ _ _ _ _ _ _ _ _ _ _ _ _ _ _ _ Rg o Bo) as (phi & G1 & G2 & G3).
  destruct (run_file ny nx dx b N c1 nu k0 pb kap Lam B P S d dt Rg K1 HS HB HP (fun j => iter_step step j y) (INR (Z.to_nat sn) * fval dt) A E n o phi0 phi t c fs sn
    Ht K2 K3 K4 K5 K6 K7 K8 K9 K10 K11 K12 (Rle_refl _) Hk) as (g & R1 & R2 & R3 & R4).
  - exact St.
  - exact ME.
  - lra.
  - exact G1.
  - intros j Hj.
    destruct (c115_run ny nx dx b dx N c1 nu pb kap false Lam B P S d dt Rg A e j n o phi
      [("density", grid ny nx n); ("omega", grid ny nx o); ("phi", grid ny nx phi); ("age", scal (f64_ofZ 0))]%string
      (f64_ofZ 0) y Cl (conj G2 G3) (conj eq_refl eq_refl)) as (lg & q & n' & o' & phi' & a' & S1 & F1 & P1 & C1).
    + intros i Hi. apply St. lia.
    + pose proof (GM j Hj) as G. fold p. lra.
    + exists q, n', o', phi', a'. rewrite S1. split; [reflexivity|]. split; [exact F1|]. split; [|exact P1].
      intros a l Ha Hl. destruct (C1 a l Ha Hl) as [Q1 Q2]. split; [exact (near_mono _ _ _ _ Q1 (GM j Hj))|exact (near_mono _ _ _ _ Q2 (GM j Hj))].
  - exists g. do 4 eexists. split; [exact R1|]. split; [exact R2|]. split; [exact R3|].
    intros j Hj. destruct (R4 j Hj) as (_ & Q). exact Q.
Qed.
