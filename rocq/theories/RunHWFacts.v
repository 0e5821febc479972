(** The HW physics inside the drivers. *)
From Coq Require Import Arith ZArith Bool Reals String List Lia Lra Permutation.
Import List.
From Verif Require Import Num NdArray NdFacts Spec GradFacts SumFacts LapFacts Cplx DftFacts SpecFourier SpecHW SpecPlasma SpecDiag
  ModelGradients ModelPoisson ModelProperties ModelHW ModelBackend HWFacts StepFacts ModelSpectral DiagFacts DiagProps
  ModelIO ModelRun ModelRunHW SpecIO SpecRun SpecRunHW IOFacts PropsFacts RunFull RunTop.
Import ListNotations.
Local Open Scope R_scope.
Local Open Scope string_scope.

(** ** The object *)
Lemma hw_of_params b p dx k0 : k0 <> 0 ->
  hw_of_phys b (physics_params dx (Z.of_nat (pN p)) (pc1 p) (pnu p) k0 (ppb p) (pkap p)) =
  Ok (hw_of b (mkPar (pN p) (pc1 p) (pnu p) (ppb p) (pkap p) false) dx true).
Proof.
  intros Hk. unfold hw_of_phys, physics_params. cbn -[Req_EM_T hw_init hw_of]. destruct (Req_EM_T k0 0); [contradiction|]. reflexivity.
Qed.
Lemma hw_of_params2 b p dx k0 : k0 <> 0 ->
  hw_of_phys b (physics_params2 dx (Z.of_nat (pN p)) (pc1 p) (pnu p) k0 (ppb p) (pkap p) (pzon p)) = Ok (hw_of b p dx true).
Proof.
  intros Hk. unfold hw_of_phys, physics_params2, physics_params. cbn -[Req_EM_T hw_init hw_of]. destruct (Req_EM_T k0 0); [contradiction|]. reflexivity.
Qed.

Section Step.
Variables (b : backend R) (p : par) (dx0 : R) (ny nx : nat) (dx : R).
Hypothesis Hy : (0 < ny)%nat.
Hypothesis Hx : (0 < nx)%nat.
Hypothesis Hb : acts b ny nx dx (pN p).
Variable d : physics (T := R).
Hypothesis Hd : hw_of_phys b d = Ok (hw_of b p dx0 true).

Lemma hw_step_grid n o a dt :
  let y' := rk4 (hw_rhs p ny nx dx) dt (n, o) in
  hw_step b d (mkPlasma (grid ny nx n) (grid ny nx o) (grid ny nx (invlap ny nx dx o)) a) dt dx =
  Ok (mkPlasma (grid ny nx (fst y')) (grid ny nx (snd y')) (grid ny nx (invlap ny nx dx (snd y'))) (a + dt)).
Proof.
  intros y'. unfold hw_step. rewrite Hd. cbn [bind p_density p_omega p_phi p_age].
  destruct (rk4_step_grid b p dx0 true ny nx dx Hy Hx Hb
    [("density", grid ny nx n); ("omega", grid ny nx o); ("phi", grid ny nx (invlap ny nx dx o)); ("age", scal a)]
    n o (invlap ny nx dx o) a dt) as (pl' & E & H & _).
  - constructor; try reflexivity.
    + cbn. repeat constructor; cbn; intuition discriminate.
    + cbn. tauto.
    + intros k v [<-|[<-|[]]]; cbn; discriminate.
  - intros i j _ _. reflexivity.
  - rewrite E. cbn [snd bind]. rewrite (po_n _ _ _ _ _ _ _ _ H), (po_o _ _ _ _ _ _ _ _ H), (po_p _ _ _ _ _ _ _ _ H), (po_a _ _ _ _ _ _ _ _ H).
    cbn [bind]. reflexivity.
Qed.
Lemma hw_phi_grid om dxa : attr_num dxa = dx -> hw_phi b d (grid ny nx om) dxa = Ok (grid ny nx (invlap ny nx dx om)).
Proof. intros E. unfold hw_phi. rewrite Hd. cbn [bind]. rewrite E. now rewrite (hw_get_phi_grid b p dx0 true ny nx dx Hb). Qed.
End Step.

Lemma iter_step_S step k y : iter_step step (S k) y = step (iter_step step k y).
Proof. revert y. induction k as [|k IH]; intros y; [reflexivity|]. cbn [iter_step]. rewrite <- IH. reflexivity. Qed.
Lemma iter_step_plus step k l y : iter_step step (k + l) y = iter_step step k (iter_step step l y).
Proof. revert y. induction l as [|l IH]; intros y; [now rewrite Nat.add_0_r|]. rewrite Nat.add_succ_r. cbn [iter_step]. apply IH. Qed.

(** ** Frames *)
Lemma f32_grid ny nx (rnd : R -> R) (f : field) :
  mkArr (shape (grid ny nx f)) (map rnd (data (grid ny nx f))) = grid ny nx (fun i j => rnd (f i j)).
Proof. unfold grid, stack, build. cbn [shape data]. now rewrite map_map. Qed.

Lemma indices_1 l : indices [l] = map (fun r => [r]) (seq 0 l).
Proof. cbn [indices flat_map]. apply app_nil_r. Qed.
Lemma data_stack l ny nx (F : SpecDiag.frames) :
  data (stack [l] ny nx F) = concat (map (fun r => data (grid ny nx (F [r]))) (seq 0 l)).
Proof.
  unfold grid, stack, build. cbn [data]. change (indices [nx; ny; l]) with
    (flat_map (fun ix => map (fun i => i :: ix) (seq 0 nx)) (flat_map (fun ix => map (fun i => i :: ix) (seq 0 ny)) (indices [l]))).
  rewrite indices_1. induction (seq 0 l) as [|r rs IH]; [reflexivity|].
  cbn [map flat_map concat]. rewrite flat_map_app, map_app, IH. f_equal.
  cbn [indices flat_map]. rewrite app_nil_r.
  clear IH. induction (seq 0 ny) as [|a ys IHy]; [reflexivity|]. cbn [map flat_map]. rewrite !map_app, IHy. f_equal.
  rewrite !map_map. reflexivity.
Qed.
Lemma as_rows_build l g : as_rows (Ok (build [l] g)) = Ok (map (fun r => RNum (g [r])) (seq 0 l)).
Proof. unfold as_rows. cbn [bind build shape data]. f_equal. now rewrite indices_1, !map_map. Qed.

Definition row_field (r : row (arr R) R) : field := match r with RFrame a => at2 a | RNum _ => fun _ _ => 0 end.
Definition is_frame (ny nx : nat) (r : row (arr R) R) : Prop := exists f : field, r = RFrame (grid ny nx f).

Lemma frames_data_ok ny nx l : Forall (is_frame ny nx) l ->
  frames_data nx ny l = Ok (concat (map (fun r => data (grid ny nx (row_field r))) l)).
Proof.
  induction 1 as [|r l [f ->] H IH]; [reflexivity|]. cbn [frames_data map concat row_field].
  change (shape (grid ny nx f)) with [nx; ny]. destruct (list_eq_dec Nat.eq_dec [nx; ny] [nx; ny]); [|contradiction].
  rewrite IH. cbn [bind]. do 2 f_equal. f_equal. apply grid_ext. intros i j Hi Hj. symmetry. now apply at2_grid.
Qed.
Lemma stack_rows_ok ny nx l : Forall (is_frame ny nx) l ->
  stack_rows nx ny l = Ok (stack [length l] ny nx (fun r => row_field (nth (nth 0 r 0%nat) l (RNum 0)))).
Proof.
  intros H. unfold stack_rows. rewrite frames_data_ok by assumption. cbn [bind]. f_equal.
  transitivity (mkArr [nx; ny; length l] (data (stack [length l] ny nx (fun r => row_field (nth (nth 0 r 0%nat) l (RNum 0)))))); [|reflexivity].
  f_equal. rewrite data_stack. cbn [nth]. f_equal.
  apply (list_nth_ext []); [now rewrite !map_length, seq_length|]. intros k Hk. rewrite map_length in Hk.
  rewrite nth_map_seq by assumption. rewrite (nth_indep _ [] (data (grid ny nx (row_field (RNum 0))))) by (now rewrite map_length).
  now rewrite (map_nth (fun r => data (grid ny nx (row_field r)))).
Qed.
Lemma zip3_seq {X Y} (d : X) (h : X -> X -> X -> Y) n : forall p o, length n = length p -> length p = length o ->
  zip3 h n p o = map (fun k => h (nth k n d) (nth k p d) (nth k o d)) (seq 0 (length n)).
Proof.
  induction n as [|a n IH]; intros [|b p] [|c o] L1 L2; cbn in L1, L2; try discriminate; [reflexivity|].
  cbn [zip3 length seq map nth]. f_equal. rewrite IH by congruence. rewrite <- seq_shift, map_map. reflexivity.
Qed.

(** ** The table of properties *)
Section Table.
Variables (ny nx : nat).
Hypothesis Hy : (0 < ny)%nat.
Hypothesis Hx : (0 < nx)%nat.
Definition tab_fn (dx c1 : R) (k : string) : row (arr R) R -> row (arr R) R -> row (arr R) R -> row (arr R) R :=
  fun n p o => RNum (prop_value k ny nx dx c1 (row_field n) (row_field p) (row_field o)).
Definition prop_names : list string :=
  ["gamma_n"; "gamma_n_spectral"; "gamma_c"; "energy"; "thermal_energy"; "kinetic_energy"; "enstrophy"; "enstrophy_phi"].
Definition hw_tbl (dx c1 : R) := map (fun k => (k, tab_fn dx c1 k)) prop_names.

Lemma framewise_of (f : nd R -> nd R -> nd R -> nd R) k dx c1 :
  (forall l (n p o : SpecDiag.frames), f (Ok (stack [l] ny nx n)) (Ok (stack [l] ny nx p)) (Ok (stack [l] ny nx o))
     = Ok (build [l] (fun r => prop_value k ny nx dx c1 (n r) (p r) (o r)))) ->
  framewise (is_frame ny nx) (fun n p o => as_rows (f (stack_rows nx ny n) (stack_rows nx ny p) (stack_rows nx ny o))) (tab_fn dx c1 k).
Proof.
  intros E n p o L1 L2 Pn Pp Po. rewrite !stack_rows_ok by assumption. rewrite <- L2, <- L1, E, as_rows_build. f_equal.
  rewrite (zip3_seq (RNum 0)) by assumption. apply map_ext. intros r. reflexivity.
Qed.
Lemma hw_computes sel at_ dx c1 k0 :
  (forall k, In k sel -> prop_fits k ny nx) ->
  dget at_ "x_save" = Some (AZ (Z.of_nat nx)) -> dget at_ "y_save" = Some (AZ (Z.of_nat ny)) ->
  dget at_ "k0" = Some (AT k0) -> dget at_ "c1" = Some (AT c1) -> dx = domain_dx k0 nx -> dx <> 0 ->
  computes (is_frame ny nx) sel (property_mapping at_) (hw_tbl dx c1).
Proof.
  intros Hs Ex Ey Ek Ec Ed Hd. unfold property_mapping, kw. rewrite Ex, Ey, Ek, Ec. cbn [attr_num attr_int].
  rewrite !Nat2Z.id, <- INR_IZR_INZ. change (2 * PI / k0 / INR nx) with (domain_dx k0 nx). rewrite <- Ed.
  unfold hw_tbl, prop_names. cbn [map].
  assert (Hsel : forall k, In k sel -> prop_fits k ny nx) by exact Hs.
  unfold computes.
  Ltac entry f Hsel := constructor; [split; [reflexivity|]; cbn [fst snd]; intros Hin; apply Hsel in Hin; apply (framewise_of f); intros l n p o;
    unfold prop_value; cbn [String.eqb Ascii.eqb Bool.eqb]|].
  entry (fun n p o : nd R => get_gamma_n n p dx None) Hsel; [now apply gamma_n_stack|].
  entry (fun n p o : nd R => get_gamma_n_spectrally n p dx) Hsel.
  { destruct Hin as [H|[[H _]|[_ [-> He]]]]; [cbn in H; intuition discriminate|discriminate|].
    apply Nat.even_spec in He. destruct He as [m ->]. apply c32_even. lia. }
  entry (fun n p o : nd R => get_gamma_c n p c1 dx) Hsel; [apply gamma_c_stack|].
  entry (fun n p o : nd R => get_energy n p dx) Hsel; [now apply energy_stack|].
  entry (fun n p o : nd R => get_energy_N_spectrally n) Hsel; [now apply energy_N_stack|].
  entry (fun n p o : nd R => get_energy_V_spectrally p dx) Hsel.
  { destruct Hin as [H|[[_ ->]|[H _]]]; [cbn in H; intuition discriminate| |discriminate]. now apply c33_value. }
  entry (fun n p o : nd R => get_enstrophy n o dx) Hsel; [apply enstrophy_stack|].
  entry (fun n p o : nd R => get_enstrophy_phi n p dx) Hsel; [now apply enstrophy_phi_stack|].
  constructor.
Qed.
Lemma hw_tbl_keys dx c1 : NoDup (keys (hw_tbl dx c1)).
Proof. cbn. repeat constructor; cbn; intuition discriminate. Qed.
Lemma prop_fits_in k : prop_fits k ny nx -> In k prop_names.
Proof. intros [H|[[-> _]|[-> _]]]; cbn in *; intuition. Qed.
Lemma hw_tbl_get dx c1 k : In k prop_names -> dget (hw_tbl dx c1) k = Some (tab_fn dx c1 k).
Proof. intros H. cbn in H. repeat (destruct H as [<-|H]; [reflexivity|]). contradiction. Qed.

(** a single frame *)
Lemma hw_prop_grid k n p o dx c1 : prop_fits k ny nx -> dx <> 0 ->
  hw_prop k (grid ny nx n) (grid ny nx p) (grid ny nx o) dx c1 = Ok (prop_value k ny nx dx c1 n p o).
Proof.
  intros Hk Hd. pose proof (prop_fits_in _ Hk) as Hin.
  assert (E : property_fncs k (grid ny nx n) (grid ny nx p) (grid ny nx o) dx c1 = Ok (build [] (fun _ => prop_value k ny nx dx c1 n p o))).
  { unfold grid. unfold prop_names in Hin.
    destruct Hin as [<-|[<-|[<-|[<-|[<-|[<-|[<-|[<-|[]]]]]]]]]; unfold property_fncs, prop_value; cbn [String.eqb Ascii.eqb Bool.eqb].
    - now apply (gamma_n_stack [] ny nx Hy Hx (fun _ => n) (fun _ => p)).
    - destruct Hk as [H|[[H _]|[_ [-> He]]]]; [cbn in H; intuition discriminate|discriminate|].
      apply Nat.even_spec in He. destruct He as [m ->]. apply (c32_even [] m (fun _ => n) (fun _ => p)). lia.
    - apply (gamma_c_stack [] ny nx (fun _ => n) (fun _ => p)).
    - now apply (energy_stack [] ny nx Hy Hx (fun _ => n) (fun _ => p)).
    - now apply (energy_N_stack [] ny nx Hy Hx (fun _ => n)).
    - destruct Hk as [H|[[_ ->]|[H _]]]; [cbn in H; intuition discriminate| |discriminate]. now apply (c33_value [] nx (fun _ => p)).
    - apply (enstrophy_stack [] ny nx (fun _ => n) (fun _ => o)).
    - now apply (enstrophy_phi_stack [] ny nx Hy Hx (fun _ => n) (fun _ => p)). }
  unfold hw_prop. rewrite E. reflexivity.
Qed.
Lemma prop_value_at2 k n p o dx c1 : prop_fits k ny nx -> dx <> 0 ->
  prop_value k ny nx dx c1 (at2 (grid ny nx n)) (at2 (grid ny nx p)) (at2 (grid ny nx o)) = prop_value k ny nx dx c1 n p o.
Proof.
  intros Hk Hd.
  assert (G : forall f : field, grid ny nx (at2 (grid ny nx f)) = grid ny nx f) by (intros f; apply grid_ext; intros; now apply at2_grid).
  pose proof (hw_prop_grid k (at2 (grid ny nx n)) (at2 (grid ny nx p)) (at2 (grid ny nx o)) dx c1 Hk Hd) as E.
  rewrite !G, hw_prop_grid in E by assumption. now injection E.
Qed.
End Table.
