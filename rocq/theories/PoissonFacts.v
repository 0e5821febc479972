(** The solvers as Fourier multipliers; facts about frequency tables. *)
From Coq Require Import Bool List Arith ZArith Lia Reals Lra Psatz.
From Verif Require Import Num NdArray NdFacts Spec GradFacts SumFacts LapFacts Cplx DftFacts SpecFourier ModelPoisson.
Import ListNotations.
Local Open Scope R_scope.

(** ** frequency tables *)
Lemma arange_length a b : length (arange a b) = Z.to_nat (b - a).
Proof. unfold arange. now rewrite map_length, seq_length. Qed.
Lemma arange_nth a b i d : (i < Z.to_nat (b - a))%nat -> nth i (arange a b) d = (a + Z.of_nat i)%Z.
Proof.
  intros H. unfold arange.
  rewrite (nth_indep _ d (a + Z.of_nat 0)%Z) by now rewrite map_length, seq_length.
  rewrite (map_nth (fun i => (a + Z.of_nat i)%Z)), seq_nth by exact H. reflexivity.
Qed.

Definition itab (n : nat) : list Z :=
  let N := ((Z.of_nat n - 1) / 2 + 1)%Z in arange 0 N ++ arange (- (Z.of_nat n / 2)) 0.
Lemma itab_length n : (0 < n)%nat -> length (itab n) = n.
Proof.
  intros Hn. unfold itab. rewrite app_length, !arange_length.
  assert (E : ((Z.of_nat n - 1) / 2 + 1 + Z.of_nat n / 2 = Z.of_nat n)%Z).
  { pose proof (Z.div_mod (Z.of_nat n - 1) 2). pose proof (Z.div_mod (Z.of_nat n) 2).
    pose proof (Z.mod_pos_bound (Z.of_nat n - 1) 2). pose proof (Z.mod_pos_bound (Z.of_nat n) 2). lia. }
  assert (0 <= (Z.of_nat n - 1) / 2)%Z by (apply Z.div_pos; lia).
  assert (0 <= Z.of_nat n / 2)%Z by (apply Z.div_pos; lia). lia.
Qed.
Lemma itab_nth n i d : (i < n)%nat -> nth i (itab n) d = sfreq n i.
Proof.
  intros Hi. unfold itab, sfreq.
  pose proof (Z.div_mod (Z.of_nat n - 1) 2) as H1. pose proof (Z.div_mod (Z.of_nat n) 2) as H2.
  pose proof (Z.mod_pos_bound (Z.of_nat n - 1) 2) as H3. pose proof (Z.mod_pos_bound (Z.of_nat n) 2) as H4.
  destruct (Nat.ltb_spec (2 * i) n) as [Hl|Hl].
  - rewrite app_nth1 by (rewrite arange_length; lia). rewrite arange_nth by lia. lia.
  - rewrite app_nth2 by (rewrite arange_length; lia). rewrite arange_length, arange_nth by lia. lia.
Qed.

Lemma np_fftfreq_tab n : np_fftfreq n = map (fun z => IZR z * (1 / INR n)) (itab n).
Proof. reflexivity. Qed.
Lemma custom_fftfreq_tab n : custom_fftfreq n = map (fun z => IZR (wrap16 z) / INR n) (itab n).
Proof. reflexivity. Qed.
Lemma np_fftfreq_nth n i : (i < n)%nat -> nth i (np_fftfreq n) 0 = IZR (sfreq n i) / INR n.
Proof.
  intros Hi. rewrite np_fftfreq_tab.
  rewrite (nth_indep _ 0 (IZR 0 * (1 / INR n))) by (rewrite map_length, itab_length; lia).
  rewrite (map_nth (fun z => IZR z * (1 / INR n))), itab_nth by exact Hi.
  unfold Rdiv. ring.
Qed.

Lemma wrap16_id z : (-32768 <= z <= 32767)%Z -> wrap16 z = z.
Proof. intros H. unfold wrap16. rewrite Z.mod_small; lia. Qed.

Lemma sfreq_bound n i : (i < n)%nat -> (- (Z.of_nat n / 2) <= sfreq n i <= (Z.of_nat n - 1) / 2)%Z.
Proof.
  intros Hi. unfold sfreq.
  pose proof (Z.div_mod (Z.of_nat n - 1) 2). pose proof (Z.div_mod (Z.of_nat n) 2).
  pose proof (Z.mod_pos_bound (Z.of_nat n - 1) 2). pose proof (Z.mod_pos_bound (Z.of_nat n) 2).
  destruct (Nat.ltb_spec (2 * i) n); lia.
Qed.

Lemma custom_fftfreq_eq n : (0 < n)%nat -> (Z.of_nat n <= 65536)%Z -> custom_fftfreq n = np_fftfreq n.
Proof.
  intros Hn Hb. rewrite custom_fftfreq_tab, np_fftfreq_tab. apply map_ext_in.
  intros z Hz. destruct (In_nth _ _ 0%Z Hz) as (i & Hi & E). rewrite itab_length in Hi by exact Hn.
  rewrite itab_nth in E by exact Hi. subst z.
  pose proof (sfreq_bound n i Hi) as Hs.
  assert (Z.of_nat n / 2 <= 32768)%Z by (apply Z.div_le_upper_bound; lia).
  assert ((Z.of_nat n - 1) / 2 < 32768)%Z by (apply Z.div_lt_upper_bound; lia).
  rewrite wrap16_id by lia. unfold Rdiv. ring.
Qed.

Lemma custom_fftfreq_ne n : (65536 < Z.of_nat n)%Z -> custom_fftfreq n <> np_fftfreq n.
Proof.
  intros Hb E. set (i := Z.to_nat 32768).
  assert (Hi : (i < n)%nat) by (unfold i; lia).
  apply (f_equal (fun l => nth i l 0)) in E. rewrite np_fftfreq_nth in E by exact Hi.
  rewrite custom_fftfreq_tab in E.
  rewrite (nth_indep _ 0 (IZR (wrap16 0) / INR n)) in E by (rewrite map_length, itab_length; lia).
  rewrite (map_nth (fun z => IZR (wrap16 z) / INR n)), itab_nth in E by exact Hi.
  assert (Hs : sfreq n i = 32768%Z).
  { unfold sfreq. destruct (Nat.ltb_spec (2 * i) n); unfold i in *; lia. }
  rewrite Hs in E. change (wrap16 32768) with (-32768)%Z in E.
  pose proof (INR_pos n ltac:(lia)) as Hp.
  assert (IZR (-32768) = IZR 32768); [|apply eq_IZR in H; lia].
  apply Rmult_eq_reg_r with (/ INR n); [exact E|]. apply Rinv_neq_0_compat. lra.
Qed.

(** ** the symbol *)
Lemma pidx_neg n i : (i < n)%nat -> pidx n (- Z.of_nat i) = (if (i =? 0)%nat then 0 else n - i)%nat.
Proof.
  intros Hi. destruct (Nat.eqb_spec i 0) as [->|Hne].
  - unfold pidx. cbn [Z.of_nat Z.opp]. rewrite Z.mod_0_l; lia.
  - rewrite <- (pidx_period n) by lia.
    replace (- Z.of_nat i + Z.of_nat n)%Z with (Z.of_nat (n - i)) by lia. apply pidx_small. lia.
Qed.
Lemma sfreq_neg n i : (i < n)%nat ->
  sfreq n (pidx n (- Z.of_nat i)) = sfreq n i \/ sfreq n (pidx n (- Z.of_nat i)) = (- sfreq n i)%Z.
Proof.
  intros Hi. rewrite pidx_neg by exact Hi. unfold sfreq.
  destruct (Nat.eqb_spec i 0) as [->|Hne]; [left; reflexivity|].
  destruct (Nat.ltb_spec (2 * i) n), (Nat.ltb_spec (2 * (n - i)) n); lia.
Qed.
Lemma sfreq_0 n : (0 < n)%nat -> sfreq n 0 = 0%Z.
Proof. intros H. unfold sfreq. destruct (Nat.ltb_spec (2 * 0) n); lia. Qed.
Lemma sfreq_ne0 n i : (i < n)%nat -> (i <> 0)%nat -> sfreq n i <> 0%Z.
Proof. intros Hi Hne. unfold sfreq. destruct (Nat.ltb_spec (2 * i) n); lia. Qed.

(** symbol in grid units (dx = 1) as the code computes it *)
Definition lam (ny nx : nat) (k l : nat) : R :=
  - ((2 * PI) ^ 2) * ((IZR (sfreq ny k) / INR ny) ^ 2 + (IZR (sfreq nx l) / INR nx) ^ 2).

Lemma lam_symbol ny nx dx k l : (0 < ny)%nat -> (0 < nx)%nat -> dx <> 0 ->
  lap_symbol ny nx dx k l = lam ny nx k l / dx ^ 2.
Proof.
  intros Hy Hx Hd. unfold lap_symbol, lam. field. repeat split; try assumption; apply not_0_INR; lia.
Qed.
Lemma ksq_lam ny nx k l : (k < ny)%nat -> (l < nx)%nat ->
  - ((2 * PI) ^ 2) * ksq_ij (np_fftfreq ny) (np_fftfreq nx) k l = lam ny nx k l.
Proof. intros Hk Hl. unfold ksq_ij, lam. now rewrite !np_fftfreq_nth. Qed.

Lemma sq_frac_even z z' n : (z' = z \/ z' = - z)%Z -> (IZR z' / INR n) ^ 2 = (IZR z / INR n) ^ 2.
Proof. intros [-> | ->]; [reflexivity|]. rewrite opp_IZR. unfold Rdiv. ring. Qed.
Lemma lam_even ny nx : even_mult ny nx (lam ny nx).
Proof.
  intros k l Hk Hl. unfold lam.
  now rewrite (sq_frac_even _ _ _ (sfreq_neg ny k Hk)), (sq_frac_even _ _ _ (sfreq_neg nx l Hl)).
Qed.
Lemma lam_00 ny nx : (0 < ny)%nat -> (0 < nx)%nat -> lam ny nx 0 0 = 0.
Proof. intros Hy Hx. unfold lam. rewrite !sfreq_0 by assumption. unfold Rdiv. ring. Qed.
Lemma frac_sq_pos z n : (0 < n)%nat -> z <> 0%Z -> 0 < (IZR z / INR n) ^ 2.
Proof.
  intros Hn Hz. pose proof (INR_pos n Hn) as Hp.
  assert (IZR z / INR n <> 0).
  { unfold Rdiv. apply Rmult_integral_contrapositive_currified; [|apply Rinv_neq_0_compat; lra].
    intros E. apply eq_IZR in E. lia. }
  pose proof (Rlt_0_sqr _ H) as Hs. unfold Rsqr in Hs. cbn [pow]. lra.
Qed.
Lemma twopi_sq_pos : 0 < (2 * PI) ^ 2.
Proof. pose proof PI_RGT_0. nra. Qed.
Lemma lam_neg ny nx k l : (k < ny)%nat -> (l < nx)%nat -> (k <> 0 \/ l <> 0)%nat -> lam ny nx k l < 0.
Proof.
  intros Hk Hl Hne. unfold lam. pose proof twopi_sq_pos as Hp.
  assert (0 < (IZR (sfreq ny k) / INR ny) ^ 2 + (IZR (sfreq nx l) / INR nx) ^ 2).
  { pose proof (pow2_ge_0 (IZR (sfreq ny k) / INR ny)). pose proof (pow2_ge_0 (IZR (sfreq nx l) / INR nx)).
    destruct Hne as [Hne|Hne].
    - pose proof (frac_sq_pos (sfreq ny k) ny ltac:(lia) (sfreq_ne0 ny k Hk Hne)). lra.
    - pose proof (frac_sq_pos (sfreq nx l) nx ltac:(lia) (sfreq_ne0 nx l Hl Hne)). lra. }
  set (q := _ + _) in *. clearbody q. set (p := (2 * PI) ^ 2) in *. clearbody p. nra.
Qed.
Lemma lam_nonpos ny nx k l : (k < ny)%nat -> (l < nx)%nat -> lam ny nx k l <= 0.
Proof.
  intros Hk Hl. destruct (Nat.eq_dec k 0) as [->|Hk0]; [destruct (Nat.eq_dec l 0) as [->|Hl0]|].
  - rewrite lam_00 by lia. lra.
  - apply Rlt_le, lam_neg; auto.
  - apply Rlt_le, lam_neg; auto.
Qed.

Definition is00 (k l : nat) : bool := (k =? 0)%nat && (l =? 0)%nat.
Lemma is00_true k l : is00 k l = true -> k = 0%nat /\ l = 0%nat.
Proof. unfold is00. rewrite andb_true_iff, !Nat.eqb_eq. auto. Qed.
Lemma is00_false k l : is00 k l = false -> (k <> 0 \/ l <> 0)%nat.
Proof. unfold is00. rewrite andb_false_iff, !Nat.eqb_neq. auto. Qed.
Lemma is00_neg ny nx k l : (k < ny)%nat -> (l < nx)%nat ->
  is00 (pidx ny (- Z.of_nat k)) (pidx nx (- Z.of_nat l)) = is00 k l.
Proof.
  intros Hk Hl. rewrite !pidx_neg by assumption. unfold is00.
  f_equal; match goal with |- context [if (?a =? 0)%nat then _ else _] => destruct (Nat.eqb_spec a 0) end;
    try reflexivity; apply Nat.eqb_neq; lia.
Qed.

(** inverse symbol with the value [c] at the zero frequency *)
Definition inv_sym (ny nx : nat) (c : R) (t : nat) (k l : nat) : R :=
  if is00 k l then c else / (lam ny nx k l ^ t).
Lemma inv_sym_even ny nx c t : even_mult ny nx (inv_sym ny nx c t).
Proof.
  intros k l Hk Hl. unfold inv_sym. rewrite is00_neg by assumption.
  now rewrite (lam_even ny nx k l Hk Hl).
Qed.

(** ** array plumbing *)
Lemma to_complex_grid ny nx f : to_complex (Ok (grid ny nx f)) = Ok (grid ny nx (cfield f)).
Proof. unfold to_complex, cast, grid, stack, build. cbn [bind shape data]. now rewrite map_map. Qed.
Lemma np_real_grid ny nx F : np_real (Ok (grid ny nx F)) = Ok (grid ny nx (fun i j => re (F i j))).
Proof. unfold np_real, cast, grid, stack, build. cbn [bind shape data]. now rewrite map_map. Qed.
Lemma pos_orb ny nx : (0 < ny)%nat -> (0 < nx)%nat -> ((ny =? 0)%nat || (nx =? 0)%nat) = false.
Proof. intros. rewrite orb_false_iff, !Nat.eqb_neq. lia. Qed.
Lemma fft2_grid ny nx f : (0 < ny)%nat -> (0 < nx)%nat ->
  fft2 (Ok (grid ny nx f)) = Ok (grid ny nx (fun k l => dft2 ny nx f (Z.of_nat k) (Z.of_nat l))).
Proof.
  intros Hy Hx. unfold fft2. cbn [bind]. unfold grid at 1. unfold stack at 1. unfold build at 1. cbn [shape].
  rewrite pos_orb by assumption. f_equal. apply stack_ext. intros r i j Hr Hi Hj.
  assert (r = []) as -> by (inversion Hr; reflexivity).
  apply dft2_ext. intros a b Ha Hb. exact (at2_grid ny nx f a b Ha Hb).
Qed.
Lemma ifft2_grid ny nx F : (0 < ny)%nat -> (0 < nx)%nat ->
  ifft2 (Ok (grid ny nx F)) = Ok (grid ny nx (idft2 ny nx F)).
Proof.
  intros Hy Hx. unfold ifft2. cbn [bind]. unfold grid at 1. unfold stack at 1. unfold build at 1. cbn [shape].
  rewrite pos_orb by assumption. f_equal. apply stack_ext. intros r i j Hr Hi Hj.
  assert (r = []) as -> by (inversion Hr; reflexivity).
  apply idft2_ext. intros a b Ha Hb. exact (at2_grid ny nx F a b Ha Hb).
Qed.
Lemma mul_grid_sc ny nx f c : mul_ (Ok (grid ny nx f)) (sc c) = Ok (grid ny nx (fun i j => f i j * c)).
Proof. apply lift2_grid_scr. Qed.
Lemma div_grid_sc ny nx f c : div_ (Ok (grid ny nx f)) (sc c) = Ok (grid ny nx (fun i j => f i j / c)).
Proof. apply lift2_grid_scr. Qed.

Lemma shape_grid {A} ny nx (f : nat -> nat -> A) : shape (grid ny nx f) = [nx; ny].
Proof. reflexivity. Qed.

Lemma Cdivr_scal c r : Cdivr c r = Cscal (/ r) c.
Proof. apply C_eq; cbn; unfold Rdiv; ring. Qed.

Definition dc0 (t : nat) : R := match t with O => 1 | S _ => 0 end.

(** ** the three solvers as multipliers *)
Lemma np_complex_grid ny nx f t : (0 < ny)%nat -> (0 < nx)%nat ->
  np_poisson_complex (Ok (grid ny nx f)) t =
  Ok (grid ny nx (mult ny nx (inv_sym ny nx (dc0 t) t) (cfield f))).
Proof.
  intros Hy Hx. unfold np_poisson_complex.
  rewrite to_complex_grid, fft2_grid by assumption. cbn [bind]. rewrite shape_grid.
  rewrite ifft2_grid by assumption.
  f_equal. apply grid_ext. intros i j Hi Hj. unfold mult.
  apply idft2_ext. intros k l Hk Hl. rewrite at2_grid by assumption.
  fold (is00 k l). unfold inv_sym. destruct (is00 k l) eqn:E.
  - apply is00_true in E as [-> ->]. cbn [x_is0]. destruct t; cbn [xpow cdivx dc0].
    + rewrite Cdivr_scal, Rinv_1. reflexivity.
    + cring.
  - apply is00_false in E. rewrite ksq_lam by assumption. cbn [x_is0 xpow cdivx].
    pose proof (lam_neg ny nx k l Hk Hl E).
    destruct (Req_EM_T (lam ny nx k l) 0); [lra|]. apply Cdivr_scal.
Qed.
Lemma np_solver_grid ny nx f dx t : (0 < ny)%nat -> (0 < nx)%nat ->
  np_fourier_poisson_double (Ok (grid ny nx f)) dx t =
  Ok (grid ny nx (fun i j => rmult ny nx (inv_sym ny nx (dc0 t) t) f i j * dx ^ 2)).
Proof.
  intros Hy Hx. unfold np_fourier_poisson_double. rewrite np_complex_grid by assumption.
  now rewrite np_real_grid, mul_grid_sc.
Qed.

Lemma nb_solver_grid ny nx f dx t : (0 < ny)%nat -> (0 < nx)%nat ->
  (Z.of_nat ny <= 65536)%Z -> (Z.of_nat nx <= 65536)%Z ->
  nb_fourier_poisson_double (Ok (grid ny nx f)) dx t =
  Ok (grid ny nx (fun i j => rmult ny nx (inv_sym ny nx (/ 100000000000000 ^ t) t) f i j * dx ^ 2)).
Proof.
  intros Hy Hx By Bx. unfold nb_fourier_poisson_double.
  rewrite to_complex_grid, fft2_grid by assumption. cbn [bind]. rewrite shape_grid.
  rewrite ifft2_grid, np_real_grid by assumption.
  f_equal. apply grid_ext. intros i j Hi Hj. unfold rmult, mult.
  transitivity (re (idft2 ny nx (fun k l => Cmul (RtoC (dx ^ 2)) (Cscal (inv_sym ny nx (/ 100000000000000 ^ t) t k l)
        (dft2 ny nx (cfield f) (Z.of_nat k) (Z.of_nat l)))) i j)).
  - f_equal. apply idft2_ext. intros k l Hk Hl. unfold core_computation.
    rewrite at2_grid by assumption. fold (is00 k l). unfold inv_sym.
    destruct (is00 k l) eqn:E.
    + destruct (Req_EM_T 100000000000000 0); [lra|].
      rewrite Cdivr_scal. cring.
    + apply is00_false in E. unfold fftfreq_sq. rewrite !custom_fftfreq_eq by assumption.
      fold (ksq_ij (np_fftfreq ny) (np_fftfreq nx) k l). rewrite ksq_lam by assumption.
      pose proof (lam_neg ny nx k l Hk Hl E).
      destruct (Req_EM_T (lam ny nx k l) 0); [lra|]. rewrite Cdivr_scal. cring.
  - rewrite !idft2_gc.
    transitivity (re (Cscal (/ (INR ny * INR nx)) (Cmul (RtoC (dx ^ 2)) (gcsum ny nx (fun k l =>
      Cmul (Cscal (inv_sym ny nx (/ 100000000000000 ^ t) t k l)
        (dft2 ny nx (cfield f) (Z.of_nat k) (Z.of_nat l))) (pw ny nx (Z.of_nat k) (Z.of_nat l) (Z.of_nat i) (Z.of_nat j))))))).
    + f_equal. f_equal. rewrite <- gcsum_mul. apply gcsum_ext; intros; ring.
    + generalize (gcsum ny nx (fun k l =>
      Cmul (Cscal (inv_sym ny nx (/ 100000000000000 ^ t) t k l)
        (dft2 ny nx (cfield f) (Z.of_nat k) (Z.of_nat l))) (pw ny nx (Z.of_nat k) (Z.of_nat l) (Z.of_nat i) (Z.of_nat j)))).
      intros c. cbn. ring.
Qed.

Lemma pm_solver_grid ny nx f dx t : (0 < ny)%nat -> (0 < nx)%nat ->
  pm_fourier_poisson (Ok (grid ny nx f)) dx t =
  Ok (grid ny nx (fun i j => rmult ny nx (inv_sym ny nx (dc0 t) t) f i j * dx ^ 2)).
Proof.
  intros Hy Hx. unfold pm_fourier_poisson.
  rewrite to_complex_grid, fft2_grid by assumption. cbn [bind]. rewrite shape_grid.
  rewrite ifft2_grid, np_real_grid, mul_grid_sc by assumption.
  f_equal. apply grid_ext. intros i j Hi Hj. f_equal. unfold rmult, mult. f_equal.
  apply idft2_ext. intros k l Hk Hl. rewrite at2_grid by assumption.
  rewrite ksq_lam by assumption. unfold inv_sym. destruct (is00 k l) eqn:E.
  - apply is00_true in E as [-> ->]. rewrite lam_00 by assumption. destruct t; cbn [pow dc0].
    + destruct (Req_EM_T 1 0); [lra|]. rewrite Cdivr_scal, Rinv_1. reflexivity.
    + rewrite Rmult_0_l. destruct (Req_EM_T 0 0); [|lra]. cring.
  - apply is00_false in E. pose proof (lam_neg ny nx k l Hk Hl E).
    destruct (Req_EM_T (lam ny nx k l ^ t) 0) as [E0|_].
    + exfalso. revert E0. apply pow_nonzero. lra.
    + apply Cdivr_scal.
Qed.

Lemma pm_laplace_grid ny nx f dx t : (0 < ny)%nat -> (0 < nx)%nat ->
  pm_fourier_laplace (Ok (grid ny nx f)) dx t =
  Ok (grid ny nx (fun i j => rmult ny nx (fun k l => lam ny nx k l ^ t) f i j / dx ^ 2)).
Proof.
  intros Hy Hx. unfold pm_fourier_laplace.
  rewrite to_complex_grid, fft2_grid by assumption. cbn [bind]. rewrite shape_grid.
  rewrite ifft2_grid, np_real_grid, div_grid_sc by assumption.
  f_equal. apply grid_ext. intros i j Hi Hj. f_equal. unfold rmult, mult. f_equal.
  apply idft2_ext. intros k l Hk Hl. rewrite at2_grid by assumption.
  now rewrite ksq_lam by assumption.
Qed.

(** the generic solver on a square grid *)
Lemma generic_square n f dx t : (0 < n)%nat ->
  np_fourier_poisson_numpy (Ok (grid n n f)) dx t = np_fourier_poisson_double (Ok (grid n n f)) dx t.
Proof.
  intros Hn. rewrite np_solver_grid by assumption. unfold np_fourier_poisson_numpy.
  rewrite to_complex_grid, fft2_grid by assumption. cbn [bind]. rewrite shape_grid.
  assert (E : cast (fun k => RtoC ((- ((2 * PI) ^ 2) * k) ^ t))
     (Ok (grid n n (fun i j => nth j (np_fftfreq n) 0 ^ 2 + nth i (np_fftfreq n) 0 ^ 2))) =
     Ok (grid n n (fun i j => RtoC (lam n n i j ^ t)))).
  { unfold cast, grid, stack, build. cbn [bind shape data]. rewrite map_map. f_equal. f_equal.
    apply map_ext_in. intros ix Hix. apply in_indices, inb_stack in Hix.
    destruct Hix as (i & j & r & -> & Hj & Hi & _). cbn [nth].
    f_equal. f_equal. rewrite <- ksq_lam by assumption. unfold ksq_ij. ring. }
  rewrite E, lift2_grid, ifft2_grid, np_real_grid, mul_grid_sc by assumption. clear E.
  f_equal. apply grid_ext. intros i j Hi Hj. f_equal. unfold rmult, mult. f_equal.
  apply idft2_ext. intros k l Hk Hl. cbn [neqb NumC re im RtoC C0].
  destruct (Req_EM_T 0 0) as [_|]; [|lra].
  unfold inv_sym. destruct (is00 k l) eqn:E.
  - apply is00_true in E as [-> ->]. rewrite lam_00 by assumption. destruct t; cbn [pow dc0].
    + destruct (Req_EM_T 1 0); [lra|]. rewrite Cdivr_scal, Rinv_1. reflexivity.
    + rewrite Rmult_0_l. destruct (Req_EM_T 0 0); [|lra]. cring.
  - apply is00_false in E. pose proof (lam_neg n n k l Hk Hl E).
    destruct (Req_EM_T (lam n n k l ^ t) 0) as [E0|_].
    + exfalso. revert E0. apply pow_nonzero. lra.
    + apply Cdivr_scal.
Qed.

Lemma generic_nonsquare ny nx f dx t : (2 <= ny)%nat -> (2 <= nx)%nat -> ny <> nx ->
  np_fourier_poisson_numpy (Ok (grid ny nx f)) dx t = Exn ValueError.
Proof.
  intros Hy Hx Hne. unfold np_fourier_poisson_numpy.
  rewrite to_complex_grid, fft2_grid by lia. cbn [bind]. rewrite shape_grid.
  unfold lift2, cast. cbn [bind]. unfold bc2. rewrite !shape_grid. cbn [shape grid stack build bshape].
  destruct (Nat.eqb_spec ny nx) as [|_]; [lia|].
  destruct (Nat.eqb_spec ny 1) as [|_]; [lia|].
  destruct (Nat.eqb_spec nx 1) as [|_]; [lia|]. reflexivity.
Qed.

(** ** get_phi *)
Definition lsum (l : list R) : R := fold_right Rplus 0 l.
Lemma lsum_app l m : lsum (l ++ m) = lsum l + lsum m.
Proof. unfold lsum. induction l as [|x l IH]; cbn [app fold_right]; [ring|]. rewrite IH. ring. Qed.
Lemma lsum_flat_map {B} (f : B -> list R) l : lsum (flat_map f l) = lsum (map (fun x => lsum (f x)) l).
Proof. induction l as [|x l IH]; [reflexivity|]. cbn [flat_map map]. rewrite lsum_app, IH. reflexivity. Qed.
Lemma rsum_lsum n f : rsum n f = lsum (map f (seq 0 n)).
Proof.
  induction n as [|n IH]; [reflexivity|].
  rewrite seq_S, map_app, lsum_app, <- IH. cbn. ring.
Qed.
Lemma rsum_nth l : rsum (length l) (fun k => nth k l 0) = lsum l.
Proof.
  rewrite rsum_lsum. f_equal. induction l as [|x l IH]; [reflexivity|].
  cbn [length seq map nth]. f_equal. rewrite <- seq_shift, map_map. exact IH.
Qed.
Lemma map_flat_map {A B D} (g : B -> D) (f : A -> list B) l :
  map g (flat_map f l) = flat_map (fun x => map g (f x)) l.
Proof. induction l as [|x l IH]; [reflexivity|]. cbn. now rewrite map_app, IH. Qed.
Lemma flat_map_map {A B D} (g : A -> B) (f : B -> list D) l :
  flat_map f (map g l) = flat_map (fun x => f (g x)) l.
Proof. induction l as [|x l IH]; [reflexivity|]. cbn. now rewrite IH. Qed.

Lemma lsum_data_grid ny nx (f : nat -> nat -> R) : lsum (data (grid ny nx f)) = gsum ny nx f.
Proof.
  unfold grid, stack, build. cbn [data indices flat_map]. rewrite app_nil_r.
  rewrite flat_map_map, map_flat_map, lsum_flat_map.
  unfold gsum. rewrite rsum_lsum. f_equal. apply map_ext. intros i.
  rewrite rsum_lsum, map_map. reflexivity.
Qed.
Lemma length_data_grid {A} ny nx (f : nat -> nat -> A) : length (data (grid ny nx f)) = (ny * nx)%nat.
Proof. unfold grid, stack, build. cbn [data]. rewrite map_length, length_indices. cbn. lia. Qed.

Lemma mean_all_grid ny nx (f : nat -> nat -> R) :
  mean_all (Ok (grid ny nx f)) = sc (gmean ny nx f).
Proof.
  unfold mean_all, sc. cbn [bind]. f_equal. apply build_ext. intros ix _.
  rewrite length_data_grid. unfold gmean.
  change (nsum (ny * nx) (fun k => nth k (data (grid ny nx f)) nzero))
    with (rsum (ny * nx) (fun k => nth k (data (grid ny nx f)) 0)).
  rewrite <- (length_data_grid ny nx f), rsum_nth, lsum_data_grid, length_data_grid.
  cbn [ndiv nofZ NumR]. now rewrite <- INR_IZR_INZ, mult_INR.
Qed.

Lemma sub_grid_sc ny nx f c : sub_ (Ok (grid ny nx f)) (sc c) = Ok (grid ny nx (fun i j => f i j - c)).
Proof. apply lift2_grid_scr. Qed.

Definition centered (ny nx : nat) (f : nat -> nat -> R) : nat -> nat -> R :=
  fun i j => f i j - gmean ny nx f.
Lemma get_phi_grid solver ny nx om dx :
  get_phi solver (Ok (grid ny nx om)) dx = solver (Ok (grid ny nx (centered ny nx om))) dx.
Proof. unfold get_phi. now rewrite mean_all_grid, sub_grid_sc. Qed.
Lemma gsum_const ny nx c : gsum ny nx (fun _ _ => c) = INR ny * INR nx * c.
Proof.
  unfold gsum. assert (E : forall n (x : R), rsum n (fun _ => x) = INR n * x).
  { induction n as [|n IH]; intros x; [cbn; ring|]. cbn [rsum]. rewrite IH, S_INR. ring. }
  rewrite (rsum_ext ny _ (fun _ => INR nx * c)) by (intros; apply E). rewrite E. ring.
Qed.
Lemma gsum_centered ny nx f : (0 < ny)%nat -> (0 < nx)%nat -> gsum ny nx (centered ny nx f) = 0.
Proof.
  intros Hy Hx. unfold centered.
  rewrite (gsum_ext ny nx _ (fun i j => f i j + - gmean ny nx f)) by (intros; ring).
  rewrite gsum_add, gsum_const. unfold gmean. field. split; apply not_0_INR; lia.
Qed.

(** ** consequences *)
(** splitting off the zero frequency *)
Lemma rmult_dc ny nx m m' f i j : (0 < ny)%nat -> (0 < nx)%nat -> (i < ny)%nat -> (j < nx)%nat ->
  (forall k l, (k < ny)%nat -> (l < nx)%nat -> (k <> 0 \/ l <> 0)%nat -> m k l = m' k l) ->
  rmult ny nx m f i j = rmult ny nx m' f i j + (m 0%nat 0%nat - m' 0%nat 0%nat) * gmean ny nx f.
Proof.
  intros Hy Hx Hi Hj Hm. unfold rmult, mult. rewrite !idft2_gc.
  transitivity (re (Cscal (/ (INR ny * INR nx)) (Cadd
     (gcsum ny nx (fun k l => Cmul (Cscal (m' k l) (dft2 ny nx (cfield f) (Z.of_nat k) (Z.of_nat l)))
         (pw ny nx (Z.of_nat k) (Z.of_nat l) (Z.of_nat i) (Z.of_nat j))))
     (gcsum ny nx (fun k l => Cmul (Cscal (m k l - m' k l) (dft2 ny nx (cfield f) (Z.of_nat k) (Z.of_nat l)))
         (pw ny nx (Z.of_nat k) (Z.of_nat l) (Z.of_nat i) (Z.of_nat j))))))).
  - f_equal. f_equal. rewrite <- gcsum_add. apply gcsum_ext; intros. cring.
  - rewrite (gcsum_single ny nx 0 0 (fun k l => Cmul (Cscal (m k l - m' k l) (dft2 ny nx (cfield f) (Z.of_nat k) (Z.of_nat l)))
         (pw ny nx (Z.of_nat k) (Z.of_nat l) (Z.of_nat i) (Z.of_nat j))) Hy Hx).
    + cbn [Z.of_nat]. rewrite pw_00, dft2_00, gcsum_cfield. unfold gmean.
      generalize (gcsum ny nx (fun k l => Cmul (Cscal (m' k l) (dft2 ny nx (cfield f) (Z.of_nat k) (Z.of_nat l)))
         (pw ny nx (Z.of_nat k) (Z.of_nat l) (Z.of_nat i) (Z.of_nat j)))). intros c.
      cbn. field. split; apply not_0_INR; lia.
    + intros k l Hk Hl Hne. rewrite (Hm k l Hk Hl Hne), Rminus_diag_eq by reflexivity. cring.
Qed.

Lemma rmult_scale ny nx m c f i j : rmult ny nx (fun k l => c * m k l) f i j = c * rmult ny nx m f i j.
Proof.
  unfold rmult, mult. rewrite !idft2_gc.
  transitivity (re (Cscal c (Cscal (/ (INR ny * INR nx)) (gcsum ny nx (fun k l =>
     Cmul (Cscal (m k l) (dft2 ny nx (cfield f) (Z.of_nat k) (Z.of_nat l)))
         (pw ny nx (Z.of_nat k) (Z.of_nat l) (Z.of_nat i) (Z.of_nat j))))))); [|reflexivity].
  f_equal. rewrite Cscal_Cscal, (Rmult_comm c), <- Cscal_Cscal. f_equal. rewrite <- gcsum_scal.
  apply gcsum_ext; intros. cring.
Qed.
Lemma rmult_fscale ny nx m c f i j : rmult ny nx m (fun i j => c * f i j) i j = c * rmult ny nx m f i j.
Proof.
  transitivity (rmult ny nx m (fadd (fscale c f) (fscale 0 f)) i j).
  - apply rmult_ext; auto. intros. unfold fadd, fscale. ring.
  - rewrite rmult_lin. ring.
Qed.

Lemma speclap_rmult ny nx dx f i j : (0 < ny)%nat -> (0 < nx)%nat -> dx <> 0 ->
  speclap ny nx dx f i j = RtoC (rmult ny nx (lam ny nx) f i j / dx ^ 2).
Proof.
  intros Hy Hx Hd.
  assert (E : speclap ny nx dx f i j = mult ny nx (fun k l => / dx ^ 2 * lam ny nx k l) (cfield f) i j).
  { unfold speclap, mult. apply idft2_ext. intros k l Hk Hl. rewrite lam_symbol by assumption.
    unfold Rdiv. rewrite (Rmult_comm (lam _ _ _ _)). reflexivity. }
  rewrite E, rmult_cfield; [|assumption|assumption|].
  - unfold cfield. rewrite rmult_scale. f_equal. unfold Rdiv. ring.
  - intros k l Hk Hl. now rewrite (lam_even ny nx k l Hk Hl).
Qed.

(** dividing and multiplying by the symbol *)
Lemma lam_inv ny nx t f i j : (0 < ny)%nat -> (0 < nx)%nat -> (i < ny)%nat -> (j < nx)%nat ->
  rmult ny nx (fun k l => lam ny nx k l ^ S t) (rmult ny nx (inv_sym ny nx 0 (S t)) f) i j = f i j - gmean ny nx f.
Proof.
  intros Hy Hx Hi Hj. rewrite rmult_rmult by (auto using inv_sym_even).
  rewrite (rmult_dc ny nx _ (fun _ _ => 1)); try assumption.
  2:{ intros k l Hk Hl Hne. unfold inv_sym.
      destruct (is00 k l) eqn:E; [apply is00_true in E; lia|].
      pose proof (lam_neg ny nx k l Hk Hl Hne). apply Rinv_r, pow_nonzero. lra. }
  rewrite rmult_one by assumption. rewrite lam_00 by assumption. cbn [pow]. ring.
Qed.
Lemma inv_lam ny nx t f i j : (0 < ny)%nat -> (0 < nx)%nat -> (i < ny)%nat -> (j < nx)%nat ->
  rmult ny nx (inv_sym ny nx 0 (S t)) (rmult ny nx (fun k l => lam ny nx k l ^ S t) f) i j = f i j - gmean ny nx f.
Proof.
  intros Hy Hx Hi Hj. rewrite rmult_rmult; [|assumption|assumption|].
  2:{ intros k l Hk Hl. now rewrite (lam_even ny nx k l Hk Hl). }
  rewrite (rmult_dc ny nx _ (fun _ _ => 1)); try assumption.
  2:{ intros k l Hk Hl Hne. unfold inv_sym.
      destruct (is00 k l) eqn:E; [apply is00_true in E; lia|].
      pose proof (lam_neg ny nx k l Hk Hl Hne). apply Rinv_l, pow_nonzero. lra. }
  rewrite rmult_one by assumption. rewrite lam_00 by assumption. cbn [pow inv_sym is00 Nat.eqb andb]. ring.
Qed.
