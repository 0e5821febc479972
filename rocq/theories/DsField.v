(** Down-sampled frames: fourier_downsample on stacks of 2-D frames. *)
From Coq Require Import List Arith ZArith Reals Lra Lia Bool String.
Import List.
From Verif Require Import Num NdArray NdFacts Spec SumFacts Cplx DftFacts SpecFourier ModelHW ModelBackend SpecHW SpecPlasma SpecDiag
  ModelIO ModelRun ModelRunHW ModelDownsample ModelArgs SpecIO SpecRun SpecRunHW SpecArgs SpecDownsample DsFacts DsFourier DsProps.
Import ListNotations.
Local Open Scope R_scope.

Lemma resample_x rest ny nx (F : list nat -> nat -> nat -> R) xs : (0 < xs)%nat -> (0 < nx)%nat ->
  resample_pos 0 (Z.of_nat xs) (stack rest ny nx F) = Ok (stack rest ny xs (fun r i => resample1 xs nx (F r i))).
Proof.
  intros P Q. unfold resample_pos, stack, dim. cbn [shape build length nth].
  change (S (S (length rest)) <=? 0)%nat with false. destruct (Z.ltb_spec (Z.of_nat xs) 1); [lia|].
  destruct (Nat.eqb_spec nx 0); [lia|]. cbn [orb]. rewrite Nat2Z.id. cbn [upd]. f_equal. apply build_ext. intros ix Hi.
  inversion Hi as [|x0 d0 ix1 s1 H0 Hi1]; subst. inversion Hi1 as [|x1 d1 ix2 s2 H1 Hi2]; subst.
  cbn [upd nth skipn]. apply resample1_ext; auto. intros k Hk.
  match goal with |- get ?x _ = _ => change x with (build (nx :: ny :: rest) (fun ix : list nat => F (skipn 2 ix) (nth 1 ix 0%nat) (nth 0 ix 0%nat))) end.
  rewrite get_build; [reflexivity|]. constructor; [exact Hk|]. now constructor.
Qed.
Lemma resample_y rest ny nx (F : list nat -> nat -> nat -> R) ys : (0 < ys)%nat -> (0 < ny)%nat ->
  resample_pos 1 (Z.of_nat ys) (stack rest ny nx F) = Ok (stack rest ys nx (fun r i j => resample1 ys ny (fun i' => F r i' j) i)).
Proof.
  intros P Q. unfold resample_pos, stack, dim. cbn [shape build length nth].
  change (S (S (length rest)) <=? 1)%nat with false. destruct (Z.ltb_spec (Z.of_nat ys) 1); [lia|].
  destruct (Nat.eqb_spec ny 0); [lia|]. cbn [orb]. rewrite Nat2Z.id. cbn [upd]. f_equal. apply build_ext. intros ix Hi.
  inversion Hi as [|x0 d0 ix1 s1 H0 Hi1]; subst. inversion Hi1 as [|x1 d1 ix2 s2 H1 Hi2]; subst.
  cbn [upd nth skipn]. apply resample1_ext; auto. intros k Hk.
  match goal with |- get ?x _ = _ => change x with (build (nx :: ny :: rest) (fun ix : list nat => F (skipn 2 ix) (nth 1 ix 0%nat) (nth 0 ix 0%nat))) end.
  rewrite get_build; [reflexivity|]. constructor; [assumption|]. now constructor.
Qed.

Lemma fourier_value rest ny nx ys xs (F : list nat -> nat -> nat -> R) s :
  (0 < ny)%nat -> (0 < nx)%nat -> (0 < ys)%nat -> (0 < xs)%nat ->
  round_div ny s = Z.of_nat ys -> round_div nx s = Z.of_nat xs ->
  fourier_downsample (Ok (stack rest ny nx F)) s = Ok (stack rest ys xs (fun r => resample2 ys xs ny nx (F r))).
Proof.
  intros Py Px Ps Pt Ey Ex. unfold fourier_downsample. cbn [bind].
  change (shape (stack rest ny nx F)) with (nx :: ny :: rest). cbv iota. rewrite Ex, Ey, resample_x by assumption.
  cbn [bind]. rewrite resample_y by assumption. reflexivity.
Qed.
Lemma fourier_vanishes rest ny nx (F : list nat -> nat -> nat -> R) s :
  (round_div nx s < 1)%Z \/ (round_div ny s < 1)%Z \/ nx = 0%nat \/ ny = 0%nat ->
  fourier_downsample (Ok (stack rest ny nx F)) s = Exn ValueError.
Proof.
  intros H. unfold fourier_downsample. cbn [bind]. change (shape (stack rest ny nx F)) with (nx :: ny :: rest). cbv iota.
  unfold resample_pos at 1. change (length (shape (stack rest ny nx F)) <=? 0)%nat with false. cbv iota.
  change (dim (stack rest ny nx F) 0) with nx.
  destruct (Z.ltb_spec (round_div nx s) 1); [reflexivity|]. destruct (Nat.eqb_spec nx 0); [reflexivity|]. cbn [orb bind].
  unfold resample_pos, dim. cbn [shape build stack length nth upd Nat.leb].
  destruct (Z.ltb_spec (round_div ny s) 1); [reflexivity|]. destruct (Nat.eqb_spec ny 0); [reflexivity|]. exfalso.
  destruct H as [?|[?|[?|?]]]; lia || contradiction.
Qed.

Lemma resample2_ext ys xs ny nx f g i j : (0 < ny)%nat -> (0 < nx)%nat -> (0 < ys)%nat -> (0 < xs)%nat ->
  (forall i j, (i < ny)%nat -> (j < nx)%nat -> f i j = g i j) -> resample2 ys xs ny nx f i j = resample2 ys xs ny nx g i j.
Proof.
  intros ? ? ? ? E. apply resample1_ext; auto. intros i' Hi. apply resample1_ext; auto.
Qed.
Lemma resample2_lin ys xs ny nx a b f g i j : (0 < ny)%nat -> (0 < nx)%nat -> (0 < ys)%nat -> (0 < xs)%nat ->
  resample2 ys xs ny nx (fadd (fscale a f) (fscale b g)) i j = a * resample2 ys xs ny nx f i j + b * resample2 ys xs ny nx g i j.
Proof.
  intros. unfold resample2. rewrite <- resample1_lin by assumption. apply resample1_ext; auto. intros i' _.
  rewrite <- resample1_lin by assumption. reflexivity.
Qed.
Lemma resample2_const ys xs ny nx c i j : (0 < ny)%nat -> (0 < nx)%nat -> (0 < ys)%nat -> (0 < xs)%nat ->
  resample2 ys xs ny nx (fconst c) i j = c.
Proof.
  intros. unfold resample2. rewrite (resample1_ext ys ny _ (fun _ => c)); auto.
  - now apply resample1_const.
  - intros. unfold fconst. now apply resample1_const.
Qed.
Lemma resample2_mean ys xs ny nx f : (0 < ny)%nat -> (0 < nx)%nat -> (0 < ys)%nat -> (0 < xs)%nat ->
  gmean ys xs (resample2 ys xs ny nx f) = gmean ny nx f.
Proof.
  intros Py Px Ps Pt. unfold gmean, gsum, resample2. rewrite rsum_swap.
  rewrite (rsum_ext xs _ (fun j => INR ys / INR ny * rsum ny (fun i => resample1 xs nx (f i) j))).
  2:{ intros j _. apply (resample1_total ys ny (fun i' => resample1 xs nx (f i') j)); assumption. }
  rewrite rsum_scal, rsum_swap.
  rewrite (rsum_ext ny (fun i => rsum xs _) (fun i => INR xs / INR nx * rsum nx (f i))).
  2:{ intros i _. apply (resample1_total xs nx (f i)); assumption. }
  rewrite rsum_scal. change (fun i => rsum nx (f i)) with (fun i => rsum nx (fun j => f i j)).
  generalize (rsum ny (fun i => rsum nx (fun j => f i j))). intro t.
  apply INR_pos in Py, Px, Ps, Pt. field. lra.
Qed.
Lemma resample2_trig ys xs ny nx M Ky Kx a b c d i j :
  (2 * Ky < ys)%nat -> (2 * Ky < ny)%nat -> (2 * Kx < xs)%nat -> (2 * Kx < nx)%nat ->
  resample2 ys xs ny nx (fun i j => trig2 M Ky Kx a b c d (INR i / INR ny) (INR j / INR nx)) i j
  = trig2 M Ky Kx a b c d (INR i / INR ys) (INR j / INR xs).
Proof.
  intros. unfold resample2, trig2.
  rewrite (resample1_ext ys ny _ (fun i' => rsum M (fun m => trig Ky (a m) (b m) (INR i' / INR ny) * trig Kx (c m) (d m) (INR j / INR xs)))).
  - rewrite resample1_sum by lia. apply rsum_ext. intros m _.
    rewrite (resample1_ext ys ny _ (fun i' => trig Kx (c m) (d m) (INR j / INR xs) * trig Ky (a m) (b m) (INR i' / INR ny))) by (lia || (intros; ring)).
    rewrite resample1_scal, resample1_trig by lia. ring.
  - lia.
  - lia.
  - intros i' _. rewrite resample1_sum by lia. apply rsum_ext. intros m _. rewrite resample1_scal, resample1_trig by lia. reflexivity.
Qed.
Lemma resample2_refine m ny nx f i j : (0 < m)%nat -> (i < ny)%nat -> (j < nx)%nat ->
  resample2 (m * ny) (m * nx) ny nx f (m * i) (m * j) = f i j.
Proof.
  intros. unfold resample2. rewrite resample1_refine by assumption. now apply resample1_refine.
Qed.

(** *** rounding of the sizes *)
Lemma round_nearest x : nearest_even (R_round_even x) x.
Proof.
  unfold R_round_even, nearest_even. pose proof (base_Int_part x) as [L U].
  destruct (Rlt_dec (x - IZR (Int_part x)) (1 / 2)) as [H|H].
  - left. rewrite Rabs_right by lra. exact H.
  - destruct (Rlt_dec (1 / 2) (x - IZR (Int_part x))) as [H'|H'].
    + left. rewrite plus_IZR. rewrite Rabs_left by lra. lra.
    + destruct (Z.even (Int_part x)) eqn:E; right; (split; [|auto]).
      * rewrite Rabs_right by lra. lra.
      * rewrite plus_IZR. rewrite Rabs_left by lra. lra.
      * rewrite Z.even_add, E. reflexivity.
Qed.
Lemma nearest_unique y z x : nearest_even y x -> nearest_even z x -> y = z.
Proof.
  assert (W : forall y z, nearest_even y x -> nearest_even z x -> (y < z)%Z -> False).
  { clear. intros y z Hy Hz L. assert (L' : IZR y + 1 <= IZR z) by (rewrite <- plus_IZR; apply IZR_le; lia).
    assert (A : IZR y - x >= - (1 / 2) /\ IZR z - x <= 1 / 2).
    { unfold nearest_even, Rabs in *. repeat destruct (Rcase_abs _); lra. }
    assert (E : IZR z = IZR y + 1) by lra. assert (E' : z = (y + 1)%Z) by (apply eq_IZR; rewrite plus_IZR; lra).
    assert (Hy' : Rabs (x - IZR y) = 1 / 2) by (unfold Rabs in *; repeat destruct (Rcase_abs _); lra).
    assert (Hz' : Rabs (x - IZR z) = 1 / 2) by (unfold Rabs in *; repeat destruct (Rcase_abs _); lra).
    destruct Hy as [Hy|[_ Hy]]; [lra|]. destruct Hz as [Hz|[_ Hz]]; [lra|].
    rewrite E', Z.even_add, Hy in Hz. discriminate. }
  intros Hy Hz. destruct (Z.lt_trichotomy y z) as [L|[E|L]]; [|exact E|]; exfalso; eauto.
Qed.

(** *** the driver's frames *)
Lemma args_down phys props a m : (0 < a_grid a)%nat -> (0 < m)%nat -> save_size a = Z.of_nat m ->
  forall f, down (args_cfg phys props a) (grid (a_grid a) (a_grid a) f) = Ok (grid m m (frame_fnc a m f)).
Proof.
  intros G M E f. unfold down, args_cfg, down_fnc, frame_fnc, save_size in *. cbn [c_down].
  destruct (Req_EM_T (a_factor a) 1) as [F|F].
  - apply Nat2Z.inj in E. now rewrite E.
  - unfold grid. rewrite (fourier_value [] _ _ m m) by assumption. reflexivity.
Qed.
Lemma args_setup b p phys props a m :
  backend_ok (a_grid a) (a_grid a) b -> (0 < a_grid a)%nat -> (0 < m)%nat -> save_size a = Z.of_nat m -> a_k0 a <> 0 ->
  pc1 p = a_c1 a -> (1 <= a_blen a)%nat -> (1 <= a_snaps a)%Z -> NoDup props -> (forall k, In k props -> prop_fits k m m) ->
  hw_setup b p (a_grid a) (a_grid a) m m (a_k0 a) (frame_fnc a m) (args_cfg phys props a).
Proof.
  intros B G M E K C1 BL SN ND PF. constructor; auto.
  - apply args_down; assumption.
Qed.
