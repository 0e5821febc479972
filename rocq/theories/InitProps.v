(** Properties of the initial conditions. *)
From Coq Require Import Arith ZArith Reals Lra Lia Bool String List Machin Ratan.
From Verif Require Import Num NdArray NdFacts Spec SumFacts Cplx DftFacts SpecFourier ModelPoisson PoissonFacts ModelIO ModelRun ModelRunHW ModelInit SpecInit InitFacts.
Import ListNotations.
Local Open Scope R_scope.

(** *** the real part keeps the conjugate-symmetric half of the spectrum *)
Lemma opposite_pidx n k : (k < n)%nat -> opposite n k = pidx n (- Z.of_nat k).
Proof. intros H. rewrite pidx_neg by exact H. reflexivity. Qed.
Lemma opposite_lt n k : (k < n)%nat -> (opposite n k < n)%nat.
Proof. unfold opposite. destruct (Nat.eqb_spec k 0); lia. Qed.
Lemma opposite_0 n k : (k < n)%nat -> opposite n k = 0%nat -> k = 0%nat.
Proof. unfold opposite. destruct (Nat.eqb_spec k 0); lia. Qed.

Lemma dft2_zero ny nx k l : dft2 ny nx (fun _ _ => C0) k l = C0.
Proof. rewrite dft2_gc. transitivity (gcsum ny nx (fun _ _ => C0)); [|apply gcsum_zero]. apply gcsum_ext; intros; ring. Qed.

Section Herm.
Variables ny nx : nat.
Variable F : nat -> nat -> C.
Definition flip (a b : nat) : C := Cconj (F (pidx ny (- Z.of_nat a)) (pidx nx (- Z.of_nat b))).
Lemma idft2_conj i j : (0 < ny)%nat -> (0 < nx)%nat -> Cconj (idft2 ny nx F i j) = idft2 ny nx flip i j.
Proof.
  intros Hy Hx. rewrite !idft2_gc.
  transitivity (Cscal (/ (INR ny * INR nx)) (Cconj (gcsum ny nx (fun k l => Cmul (F k l) (pw ny nx (Z.of_nat k) (Z.of_nat l) (Z.of_nat i) (Z.of_nat j)))))).
  { apply C_eq; cbn; ring. }
  f_equal. rewrite gcsum_conj.
  rewrite <- (gcsum_neg ny nx (fun k l => Cconj (Cmul (F k l) (pw ny nx (Z.of_nat k) (Z.of_nat l) (Z.of_nat i) (Z.of_nat j))))).
  apply gcsum_ext. intros k l Hk Hl. rewrite Cconj_mul, pw_conj. unfold flip. f_equal.
  rewrite <- pw_conj.
  rewrite (pw_eqm ny nx (Z.of_nat (pidx ny (- Z.of_nat k))) (Z.of_nat (pidx nx (- Z.of_nat l)))
       (- Z.of_nat k) (- Z.of_nat l)) by (auto using pidx_opp_mod).
  rewrite <- pw_conj. apply Cconj_conj.
Qed.
Lemma dft2_re a b : (a < ny)%nat -> (b < nx)%nat ->
  dft2 ny nx (cfield (fun i j => re (idft2 ny nx F i j))) (Z.of_nat a) (Z.of_nat b)
  = Cscal (1 / 2) (Cadd (F a b) (flip a b)).
Proof.
  intros Ha Hb.
  rewrite (dft2_ext ny nx _ (fun i j => Cadd (Cmul (RtoC (1 / 2)) (idft2 ny nx F i j)) (Cmul (RtoC (1 / 2)) (idft2 ny nx flip i j)))).
  - rewrite dft2_lin, !dft2_idft2 by assumption. apply C_eq; cbn; field.
  - intros i j _ _. rewrite <- idft2_conj by lia. unfold cfield. generalize (idft2 ny nx F i j). intros z. apply C_eq; cbn; field.
Qed.
End Herm.

Lemma noise_k_pos ny nx size scale factor a b : (a < ny)%nat -> (b < nx)%nat -> size <> 0 -> scale <> 0 -> (a <> 0 \/ b <> 0)%nat ->
  0 < noise_k ny nx size scale factor a b.
Proof.
  intros Ha Hb S S' N. rewrite noise_k_eq by assumption.
  assert (G : forall n k, (k < n)%nat -> (k <> 0)%nat -> 0 < Rabs (IZR (sfreq n k) / size * scale) ^ factor).
  { intros n k Hk Hn. apply pow_lt. apply Rabs_pos_lt. apply Rmult_integral_contrapositive_currified; [|exact S'].
    apply Rmult_integral_contrapositive_currified; [|now apply Rinv_neq_0_compat]. apply not_0_IZR. now apply sfreq_ne0. }
  assert (G' : forall n k, 0 <= Rabs (IZR (sfreq n k) / size * scale) ^ factor) by (intros; apply pow_le, Rabs_pos).
  destruct N as [N|N].
  - pose proof (G ny a Ha N). pose proof (G' nx b). lra.
  - pose proof (G nx b Hb N). pose proof (G' ny a). lra.
Qed.
Lemma noise_k_opp ny nx size scale factor a b : (a < ny)%nat -> (b < nx)%nat -> size <> 0 ->
  noise_k ny nx size scale factor (opposite ny a) (opposite nx b) = noise_k ny nx size scale factor a b.
Proof.
  intros Ha Hb S. rewrite !noise_k_eq by auto using opposite_lt. rewrite !opposite_pidx by assumption.
  assert (G : forall n k, (k < n)%nat -> Rabs (IZR (sfreq n (pidx n (- Z.of_nat k))) / size * scale) = Rabs (IZR (sfreq n k) / size * scale)).
  { intros n k Hk. destruct (sfreq_neg n k Hk) as [E|E]; rewrite E; [reflexivity|]. rewrite opp_IZR.
    replace (- IZR (sfreq n k) / size * scale) with (- (IZR (sfreq n k) / size * scale)) by (field; exact S). apply Rabs_Ropp. }
  now rewrite !G.
Qed.
Lemma weight_pos lo hi k : proper_band lo hi -> 0 < weight lo hi k.
Proof.
  intros B. rewrite weight_eq. pose proof (sg_pos ((lo - k) * 1000)) as Pl. pose proof (sg_pos ((hi - k) * 1000)) as Ph. unfold nonzero.
  destruct (Req_EM_T lo 0) as [El|El]; destruct (Req_EM_T hi 0) as [Eh|Eh]; try lra.
  destruct B as [?|[?|B]]; [contradiction|contradiction|].
  destruct (Rle_lt_dec (sg ((lo - k) * 1000)) (sg ((hi - k) * 1000))) as [H|H]; [|lra]. apply sg_le in H. lra.
Qed.

Section Noise.
Variables (ny nx : nat) (re_ im_ : nat -> nat -> R) (size scale lo hi : R) (factor : nat).
Hypothesis Hs : size <> 0.
Hypothesis Hc : scale <> 0.
Hypothesis Hb : proper_band lo hi.
Let k := noise_k ny nx size scale factor.
Let w := fun i j => weight lo hi (k i j).
Let arr_ := noise_array ny nx re_ im_ k w.
Let F := fun a b => Cscal (inv_k k a b * w a b) (mkC (re_ a b) (im_ a b)).
Lemma spectrum a b : (a < ny)%nat -> (b < nx)%nat ->
  dft2 ny nx (cfield arr_) (Z.of_nat a) (Z.of_nat b)
  = Cscal (inv_k k a b * w a b / 2)
      (mkC (re_ a b + re_ (opposite ny a) (opposite nx b)) (im_ a b - im_ (opposite ny a) (opposite nx b))).
Proof.
  intros Ha Hb'. unfold arr_, noise_array. fold F. rewrite (dft2_re ny nx F a b Ha Hb').
  unfold flip. rewrite <- !opposite_pidx by assumption. unfold F at 2.
  assert (E : inv_k k (opposite ny a) (opposite nx b) * w (opposite ny a) (opposite nx b) = inv_k k a b * w a b).
  { unfold w. unfold k at 2 4. rewrite noise_k_opp by assumption. f_equal. unfold inv_k.
    unfold k. rewrite noise_k_opp by assumption.
    unfold opposite. destruct (Nat.eqb_spec a 0), (Nat.eqb_spec b 0); subst; cbn [Nat.eqb andb]; try reflexivity;
    repeat match goal with |- context [(?x =? 0)%nat] => destruct (Nat.eqb_spec x 0) end; cbn [andb]; reflexivity || lia. }
  rewrite E. unfold F. apply C_eq; cbn; field.
Qed.
Lemma arr_zero : (0 < ny)%nat -> (0 < nx)%nat -> is_const ny nx arr_ -> forall i j, (i < ny)%nat -> (j < nx)%nat -> arr_ i j = 0.
Proof.
  intros Py Px E i j Hi Hj. pose proof (noise_mean ny nx re_ im_ k w Py Px) as M. fold arr_ in M.
  rewrite (gmean_ext ny nx arr_ (fun _ _ => arr_ i j)) in M by (intros; apply E; assumption).
  now rewrite gmean_const in M by assumption.
Qed.
Lemma live : (0 < ny)%nat -> (0 < nx)%nat -> (some_wave ny nx re_ im_ <-> ~ is_const ny nx arr_).
Proof.
  intros Py Px. split.
  - intros (a & b & Ha & Hb' & N & D) E.
    assert (Z : dft2 ny nx (cfield arr_) (Z.of_nat a) (Z.of_nat b) = C0).
    { rewrite (dft2_ext ny nx _ (fun _ _ => C0)).
      - apply dft2_zero.
      - intros i j Hi Hj. unfold cfield. now rewrite arr_zero. }
    rewrite spectrum in Z by assumption.
    assert (P : 0 < inv_k k a b * w a b / 2).
    { assert (0 < inv_k k a b).
      { unfold inv_k. destruct (Nat.eqb_spec a 0), (Nat.eqb_spec b 0); cbn [andb]; try lia;
        apply Rdiv_lt_0_compat; try lra; apply noise_k_pos; assumption. }
      assert (0 < w a b) by (apply weight_pos; exact Hb). unfold Rdiv. repeat apply Rmult_lt_0_compat; lra. }
    injection Z as Z1 Z2. apply Rmult_integral in Z1, Z2. destruct D as [D|D]; [destruct Z1|destruct Z2]; lra.
  - intros NC. apply Classical_Prop.NNPP. intros NW. apply NC.
    assert (Z : forall i j, (i < ny)%nat -> (j < nx)%nat -> arr_ i j = 0).
    { intros i j Hi Hj. change 0 with (re C0). change (arr_ i j) with (re (cfield arr_ i j)). f_equal.
      apply (dft2_inj ny nx (cfield arr_) (fun _ _ => C0)); try assumption. intros a b Ha Hb'.
      rewrite dft2_zero.
      rewrite spectrum by assumption.
      destruct (Nat.eq_dec a 0) as [->|Na]; [destruct (Nat.eq_dec b 0) as [->|Nb]|].
      + apply C_eq; cbn; unfold inv_k; cbn [Nat.eqb andb]; field.
      + assert (D : re_ 0%nat b + re_ (opposite ny 0) (opposite nx b) = 0 /\ im_ 0%nat b = im_ (opposite ny 0) (opposite nx b)).
        { split; apply Classical_Prop.NNPP; intros D; apply NW; exists 0%nat, b; repeat split; auto. }
        destruct D as [D1 D2]. rewrite D1, D2. apply C_eq; cbn; ring.
      + assert (D : re_ a b + re_ (opposite ny a) (opposite nx b) = 0 /\ im_ a b = im_ (opposite ny a) (opposite nx b)).
        { split; apply Classical_Prop.NNPP; intros D; apply NW; exists a, b; repeat split; auto. }
        destruct D as [D1 D2]. rewrite D1, D2. apply C_eq; cbn; ring. }
    intros i j i' j' Hi Hj Hi' Hj'. now rewrite !Z.
Qed.
End Noise.

Lemma c50_normalised ny nx re_ im_ size scale f0 f1 l0 l1 factor : (0 < ny)%nat -> (0 < nx)%nat -> size <> 0 -> scale <> 0 ->
  proper_band (low_freq f0 l1) (high_freq f1 l0) -> some_wave ny nx re_ im_ ->
  exists v, get_fft_noise ny nx re_ im_ size scale f0 f1 l0 l1 factor = Ok (grid ny nx v) /\ normalised ny nx v.
Proof.
  intros P Q S S' B W. apply noise_normal; try assumption.
  - destruct B as [B|[B|B]]; [auto|auto|right; right; lra].
  - apply (live ny nx re_ im_ size scale (low_freq f0 l1) (high_freq f1 l0) factor S S' B P Q). exact W.
Qed.
Lemma c50_nan ny nx re_ im_ size scale f0 f1 l0 l1 factor : (0 < ny)%nat -> (0 < nx)%nat -> size <> 0 -> scale <> 0 ->
  proper_band (low_freq f0 l1) (high_freq f1 l0) -> ~ some_wave ny nx re_ im_ ->
  get_fft_noise ny nx re_ im_ size scale f0 f1 l0 l1 factor = Exn Unmodelled.
Proof.
  intros P Q S S' B W. unfold get_fft_noise. cbv zeta.
  assert (B' : low_freq f0 l1 = 0 \/ high_freq f1 l0 = 0 \/ low_freq f0 l1 <= high_freq f1 l0) by (unfold proper_band in B; intuition lra).
  rewrite (proj2 (mask_ok_band ny nx _ _ (noise_k ny nx size scale factor) P Q) B'). cbn [negb].
  apply normalise_const; try assumption. apply Classical_Prop.NNPP. intros NC. apply W.
  apply (live ny nx re_ im_ size scale (low_freq f0 l1) (high_freq f1 l0) factor S S' B P Q). exact NC.
Qed.

(** what run.py asks for *)
Lemma run_band' n k0 : (0 < n)%nat -> 0 < k0 ->
  proper_band (low_freq 0 (domain_dx k0 n * INR n * 100)) (high_freq 0 (domain_dx k0 n * 12)).
Proof.
  intros P K. set (dx := domain_dx k0 n). right. right. assert (Pn : 0 < INR n) by now apply INR_pos. pose proof PI_RGT_0.
  assert (D : 0 < dx). { unfold dx, domain_dx. apply Rdiv_lt_0_compat; [|exact Pn]. apply Rdiv_lt_0_compat; lra. }
  unfold low_freq, high_freq. assert (0 < dx * INR n) by now apply Rmult_lt_0_compat.
  rewrite !nonzero_ne by lra. unfold Rdiv. rewrite !Rmult_1_l.
  assert (1 <= INR n) by (change 1 with (INR 1); apply le_INR; lia). apply Rinv_lt_contravar; [|nra].
  apply Rmult_lt_0_compat; lra.
Qed.
Lemma c50_run n k0 re_ im_ : (0 < n)%nat -> 0 < k0 -> some_wave n n re_ im_ ->
  exists v, init_noise "fourier" n k0 re_ im_ = Ok (grid n n v) /\ normalised n n v.
Proof.
  intros P K W. unfold init_noise. cbn [String.eqb Ascii.eqb Bool.eqb].
  apply c50_normalised; try assumption; [| |now apply run_band'].
  - pose proof PI_RGT_0. apply Rgt_not_eq. apply Rdiv_lt_0_compat; lra.
  - lra.
Qed.
Lemma init_state_fourier n k0 s draws : (0 < n)%nat -> 0 < k0 ->
  (forall m, (m < 3)%nat -> some_wave n n (fst (draws m)) (snd (draws m))) ->
  exists d o p, init_state "fourier" n k0 s draws = Ok (grid n n d, grid n n o, grid n n p) /\
    forall f, In f [d; o; p] -> gmean n n f = 0 /\ gmean n n (fun i j => f i j ^ 2) = s ^ 2.
Proof.
  intros P K W.
  assert (G : forall m, (m < 3)%nat -> exists v, mul_ (init_noise "fourier" n k0 (fst (draws m)) (snd (draws m))) (sc s) = Ok (grid n n v) /\
     gmean n n v = 0 /\ gmean n n (fun i j => v i j ^ 2) = s ^ 2).
  { intros m Hm. destruct (c50_run n k0 _ _ P K (W m Hm)) as (v & E & M & V). rewrite E.
    eexists. split; [rewrite mul_grid_sc; reflexivity|]. split.
    - rewrite (gmean_ext n n _ (fun i j => v i j * s + 0)) by (intros; cbn; ring). rewrite gmean_lin, M by assumption. ring.
    - rewrite (gmean_ext n n _ (fun i j => v i j ^ 2 * s ^ 2 + 0)) by (intros; cbn; ring). rewrite gmean_lin, V by assumption. ring. }
  destruct (G 0%nat ltac:(lia)) as (d & Ed & Gd). destruct (G 1%nat ltac:(lia)) as (o & Eo & Go). destruct (G 2%nat ltac:(lia)) as (p & Ep & Gp).
  exists d, o, p. split.
  - unfold init_state. rewrite Ed. cbn [bind]. rewrite Eo. cbn [bind]. rewrite Ep. reflexivity.
  - intros f [<-|[<-|[<-|[]]]]; assumption.
Qed.

(** *** which waves the noise contains *)
Lemma gain_weight lo hi k : weight lo hi k = gain lo hi k.
Proof.
  rewrite weight_eq. unfold gain, logistic, sg, nonzero.
  replace (- (1000 * (k - lo))) with ((lo - k) * 1000) by ring. replace (- (1000 * (k - hi))) with ((hi - k) * 1000) by ring.
  destruct (Req_EM_T lo 0), (Req_EM_T hi 0); reflexivity.
Qed.
Lemma c75_spectrum ny nx re_ im_ size f0 f1 l0 l1 : (0 < ny)%nat -> (0 < nx)%nat -> size <> 0 ->
  proper_band (low_freq f0 l1) (high_freq f1 l0) -> some_wave ny nx re_ im_ ->
  exists v s, get_fft_noise ny nx re_ im_ size 1 f0 f1 l0 l1 2 = Ok (grid ny nx v) /\ 0 < s /\
    forall a b, (a < ny)%nat -> (b < nx)%nat -> (a <> 0 \/ b <> 0)%nat ->
      let q := wave_sq ny nx size a b in
      dft2 ny nx (cfield v) (Z.of_nat a) (Z.of_nat b)
      = Cscal (s * (gain (low_freq f0 l1) (high_freq f1 l0) q / q))
          (mkC (re_ a b + re_ (opposite ny a) (opposite nx b)) (im_ a b - im_ (opposite ny a) (opposite nx b))).
Proof.
  intros P Q S B W. set (lo := low_freq f0 l1) in *. set (hi := high_freq f1 l0) in *.
  assert (S1 : 1 <> 0) by lra. pose (k := noise_k ny nx size 1 2). pose (w := fun i j => weight lo hi (k i j)).
  assert (NC := proj1 (live ny nx re_ im_ size 1 lo hi 2 S S1 B P Q) W). fold k in NC. fold w in NC.
  destruct (normalise_ok ny nx _ P Q NC) as (v & E & M & V & Ev).
  set (ar := noise_array ny nx re_ im_ k w) in *.
  assert (Vp : 0 < gvar ny nx ar).
  { destruct (gvar_nonneg ny nx ar P Q) as [H|H]; [exact H|]. exfalso. apply NC. apply gvar_zero; auto. }
  apply sqrt_lt_R0 in Vp. set (sd := sqrt (gvar ny nx ar)) in *. clearbody sd.
  exists v, (/ (2 * sd)). split; [|split].
  - unfold get_fft_noise. cbv zeta. fold lo hi.
    assert (B' : lo = 0 \/ hi = 0 \/ lo <= hi) by (unfold proper_band in B; intuition lra).
    rewrite (proj2 (mask_ok_band ny nx lo hi (noise_k ny nx size 1 2) P Q) B'). cbn [negb]. exact E.
  - apply Rinv_0_lt_compat. lra.
  - intros a b Ha Hb N. cbv zeta.
    assert (Kq : k a b = wave_sq ny nx size a b).
    { unfold k. rewrite noise_k_eq by assumption. unfold wave_sq. rewrite !pow2_abs, !Rmult_1_r. reflexivity. }
    assert (Kp : 0 < wave_sq ny nx size a b) by (rewrite <- Kq; now apply noise_k_pos).
    rewrite (dft2_ext ny nx _ (fun i j => Cadd (Cmul (RtoC (/ sd)) (cfield ar i j)) (Cmul C0 C0))).
    2:{ intros i j Hi Hj. unfold cfield. rewrite Ev. rewrite (noise_mean ny nx re_ im_ k w P Q : gmean ny nx ar = 0).
        generalize (ar i j). intros z. apply C_eq; cbn; field; lra. }
    rewrite (dft2_lin ny nx (RtoC (/ sd)) C0 (cfield ar) (fun _ _ => C0)).
    pose proof (spectrum ny nx re_ im_ size 1 lo hi 2 S a b Ha Hb) as Sp. cbv zeta in Sp. fold k in Sp. fold w in Sp. fold ar in Sp.
    rewrite Sp. unfold w at 1. rewrite gain_weight, Kq.
    assert (I : inv_k k a b = 1 / wave_sq ny nx size a b).
    { unfold inv_k. rewrite Kq. destruct (Nat.eqb_spec a 0), (Nat.eqb_spec b 0); cbn [andb]; try reflexivity. lia. }
    rewrite I. apply C_eq; cbn; field; lra.
Qed.
Lemma logistic_le t : 0 <= t -> 1 - logistic t <= 1 / (1 + t).
Proof.
  intros T. unfold logistic. pose proof (exp_pos (- t)) as Ep.
  assert (E : exp (- t) <= / (1 + t)).
  { rewrite exp_Ropp. apply Rinv_le_contravar; [lra|]. destruct T as [T|<-]; [|rewrite exp_0; lra].
    assert (t <> 0) by lra. pose proof (exp_ineq1 t H). lra. }
  replace (1 - 1 / (1 + exp (- t))) with (exp (- t) / (1 + exp (- t))) by (field; lra).
  apply (Rmult_le_reg_r (1 + exp (- t))); [lra|]. unfold Rdiv at 1. rewrite Rmult_assoc, Rinv_l by lra.
  assert (0 < / (1 + t)) by (apply Rinv_0_lt_compat; lra). unfold Rdiv. nra.
Qed.
Lemma logistic_bounds t : 0 < logistic t < 1.
Proof. unfold logistic. apply (sg_pos (- t)). Qed.
Lemma logistic_opp t : logistic (- t) = 1 - logistic t.
Proof. unfold logistic. rewrite Ropp_involutive, exp_Ropp. pose proof (exp_pos t). field. lra. Qed.
Lemma gain_pass lo hi q d : 0 < d -> lo = 0 \/ lo + d <= q -> hi = 0 \/ q <= hi - d -> 1 - 2 / (1 + 1000 * d) <= gain lo hi q.
Proof.
  intros D A B. unfold gain.
  assert (M : forall t, 1000 * d <= t -> 1 - logistic t <= 1 / (1 + 1000 * d)).
  { intros t T. apply Rle_trans with (1 / (1 + t)); [apply logistic_le; lra|]. unfold Rdiv. rewrite !Rmult_1_l. apply Rinv_le_contravar; lra. }
  assert (P : 0 < 1 / (1 + 1000 * d)) by (apply Rdiv_lt_0_compat; lra).
  assert (A' : 1 - 1 / (1 + 1000 * d) <= (if Req_EM_T lo 0 then 1 else logistic (1000 * (q - lo)))).
  { destruct (Req_EM_T lo 0); [lra|]. destruct A as [A|A]; [contradiction|]. specialize (M (1000 * (q - lo)) ltac:(lra)). lra. }
  assert (B' : (if Req_EM_T hi 0 then 0 else logistic (1000 * (q - hi))) <= 1 / (1 + 1000 * d)).
  { destruct (Req_EM_T hi 0); [lra|]. destruct B as [B|B]; [contradiction|]. specialize (M (- (1000 * (q - hi))) ltac:(lra)).
    rewrite logistic_opp in M. lra. }
  unfold Rdiv in *. lra.
Qed.
Lemma gain_stop lo hi q d : 0 < d -> proper_band lo hi -> (lo <> 0 /\ q <= lo - d) \/ (hi <> 0 /\ hi + d <= q) ->
  0 < gain lo hi q <= 1 / (1 + 1000 * d).
Proof.
  intros D PB A. split; [rewrite <- gain_weight; now apply weight_pos|]. unfold gain.
  assert (M : forall t, 1000 * d <= t -> 1 - logistic t <= 1 / (1 + 1000 * d)).
  { intros t T. apply Rle_trans with (1 / (1 + t)); [apply logistic_le; lra|]. unfold Rdiv. rewrite !Rmult_1_l. apply Rinv_le_contravar; lra. }
  pose proof (logistic_bounds (1000 * (q - lo))). pose proof (logistic_bounds (1000 * (q - hi))).
  destruct A as [[N A]|[N A]].
  - destruct (Req_EM_T lo 0); [contradiction|]. specialize (M (- (1000 * (q - lo))) ltac:(lra)). rewrite logistic_opp in M.
    destruct (Req_EM_T hi 0); lra.
  - destruct (Req_EM_T hi 0); [contradiction|]. specialize (M (1000 * (q - hi)) ltac:(lra)). destruct (Req_EM_T lo 0); lra.
Qed.

(** *** sine *)
Lemma cos_1_int L : cos (2 * PI * L) = 1 -> exists z, L = IZR z.
Proof.
  intros H. replace (2 * PI * L) with (2 * (PI * L)) in H by ring. rewrite cos_2a_sin in H.
  assert (S : sin (PI * L) = 0) by nra. apply sin_eq_0_0 in S. destruct S as (z & E). exists z.
  pose proof PI_RGT_0. apply (Rmult_eq_reg_l PI); lra.
Qed.
Lemma sine_period L : (forall s, sine_profile L (s + 1) = sine_profile L s) <-> exists z, L = IZR z.
Proof.
  unfold sine_profile. split.
  - intros H. destruct (Req_dec L 0) as [E|N]; [exists 0%Z; exact E|]. apply cos_1_int. pose proof PI_RGT_0.
    specialize (H ((PI / 2 - 1) / (2 * PI * L))).
    replace (2 * PI * L * ((PI / 2 - 1) / (2 * PI * L)) + 1) with (PI / 2) in H by (field; lra).
    replace (2 * PI * L * ((PI / 2 - 1) / (2 * PI * L) + 1) + 1) with (PI / 2 + 2 * PI * L) in H by (field; lra).
    rewrite sin_PI2 in H. now rewrite <- sin_cos in H || (rewrite sin_plus, sin_PI2, cos_PI2 in H; lra).
  - intros [z ->] s. replace (2 * PI * IZR z * (s + 1) + 1) with ((2 * PI * IZR z * s + 1) + 2 * IZR z * PI) by ring.
    pose proof (cis_2kpi z (2 * PI * IZR z * s + 1)) as E. now injection E.
Qed.
Lemma PI_bounds : 314 / 100 < PI < 315 / 100.
Proof.
  pose proof (PI_2_3_7_ineq 1) as [L U]. revert L U. unfold tg_alt, PI_2_3_7_tg, Ratan_seq. cbn [Nat.mul Nat.add sum_f_R0 pow INR]. lra.
Qed.
Lemma c51_default_box : ~ exists z, 2 * PI / (15 / 100) = IZR z.
Proof.
  intros [z E]. pose proof PI_bounds as [A B].
  assert (41 < IZR z < 42) by (rewrite <- E; unfold Rdiv; lra). destruct H as [H1 H2]. apply lt_IZR in H1, H2. lia.
Qed.
Lemma c51_value n L : get_2d_sine n n L = Ok (grid n n (fun i j => sine_profile L (INR j / INR n) * sine_profile L (INR i / INR n))).
Proof.
  rewrite sine_value. f_equal. apply grid_ext. intros i j Hi Hj. unfold sine_profile. assert (0 < INR n) by (apply INR_pos; lia).
  f_equal; f_equal; field; lra.
Qed.
Lemma c51_shape a b L : exists v, get_2d_sine a b L = Ok v /\ shape v = [a; b].
Proof. eexists. split; reflexivity. Qed.

Lemma init_state_sine n k0 s draws : exists f, init_state "sine" n k0 s draws = Ok (grid n n f, grid n n f, grid n n f) /\
  (forall i j, Rabs (f i j) <= Rabs s) /\
  forall i j, (i < n)%nat -> (j < n)%nat -> f i j = sine_profile (2 * PI / k0) (INR j / INR n) * sine_profile (2 * PI / k0) (INR i / INR n) * s.
Proof.
  pose (L := 2 * PI / k0).
  exists (fun i j => sine_profile L (INR j / INR n) * sine_profile L (INR i / INR n) * s). split; [|split].
  - unfold init_state, init_noise. cbn [String.eqb Ascii.eqb Bool.eqb]. fold L. rewrite c51_value, mul_grid_sc. reflexivity.
  - intros i j. unfold sine_profile. rewrite !Rabs_mult.
    generalize (2 * PI * L * (INR j / INR n) + 1), (2 * PI * L * (INR i / INR n) + 1). intros x y.
    assert (B : forall t, Rabs (sin t) <= 1) by (intros; apply Rabs_le; apply SIN_bound).
    pose proof (B x). pose proof (B y). pose proof (Rabs_pos (sin x)). pose proof (Rabs_pos (sin y)). pose proof (Rabs_pos s).
    assert (Rabs (sin x) * Rabs (sin y) <= 1) by nra. nra.
  - reflexivity.
Qed.
Lemma init_state_draw ty n k0 s draws : ty = "random"%string \/ ty = "normal"%string ->
  init_state ty n k0 s draws = Ok (grid n n (fun i j => fst (draws 0%nat) i j * s), grid n n (fun i j => fst (draws 1%nat) i j * s), grid n n (fun i j => fst (draws 2%nat) i j * s)).
Proof.
  intros [->| ->]; unfold init_state, init_noise; cbn [String.eqb Ascii.eqb Bool.eqb]; rewrite !mul_grid_sc; reflexivity.
Qed.
Lemma init_state_unknown ty n k0 s draws : ~ In ty ["fourier"; "sine"; "random"; "normal"]%string ->
  init_state ty n k0 s draws = Exn KeyError.
Proof.
  intros N. unfold init_state, init_noise.
  repeat match goal with |- context [String.eqb ty ?x] => let E := fresh in destruct (String.eqb_spec ty x) as [E|E]; [exfalso; apply N; subst; cbn; tauto|] end.
  reflexivity.
Qed.

Lemma c50_assertion ny nx re_ im_ size scale f0 f1 l0 l1 factor : (0 < ny)%nat -> (0 < nx)%nat ->
  (get_fft_noise ny nx re_ im_ size scale f0 f1 l0 l1 factor = Exn AssertionError <->
   (low_freq f0 l1 <> 0 /\ high_freq f1 l0 <> 0 /\ high_freq f1 l0 < low_freq f0 l1)).
Proof.
  intros P Q. split; [|intros (A & B & C); now apply noise_rejected].
  unfold get_fft_noise. cbv zeta. destruct (mask_ok ny nx _) eqn:E; cbn [negb].
  - intros H. exfalso. revert H. unfold normalise. destruct (Req_EM_T _ 0); discriminate.
  - intros _.
    assert (N : ~ (low_freq f0 l1 = 0 \/ high_freq f1 l0 = 0 \/ low_freq f0 l1 <= high_freq f1 l0)).
    { intros H. apply (mask_ok_band ny nx _ _ (noise_k ny nx size scale factor) P Q) in H. congruence. }
    repeat split; try tauto. destruct (Rlt_le_dec (high_freq f1 l0) (low_freq f0 l1)); tauto.
Qed.
Lemma c51_shape_refuted : ~ (forall a b L, exists v, get_2d_sine a b L = Ok v /\ shape v = [b; a]).
Proof. intros H. destruct (H 2%nat 3%nat 1) as (v & E & S). injection E as <-. discriminate. Qed.
Lemma c75_short_kept :
  exists n L a, let dx := L / INR n in
    L / INR a < 12 * dx /\ 9 / 10 < gain (low_freq 0 (dx * INR n * 100)) (high_freq 0 (dx * 12)) (wave_sq n n L a 0).
Proof.
  exists 120%nat, 40, 18%nat. cbv zeta. replace (INR 120) with 120 by (rewrite INR_IZR_INZ; reflexivity). replace (INR 18) with 18 by (rewrite INR_IZR_INZ; reflexivity).
  split; [lra|]. unfold low_freq, high_freq. rewrite !nonzero_ne by lra. unfold wave_sq. cbn [sfreq Nat.ltb].
  change (sfreq 120 18) with 18%Z. change (sfreq 120 0) with 0%Z.
  apply Rlt_le_trans with (1 - 2 / (1 + 1000 * (4 / 100))); [lra|]. apply gain_pass; [lra| |]; right; lra.
Qed.
Lemma c75_long_damped : 1 / 4 < 1 / 3 /\ gain 0 (high_freq 0 (1 / 4)) (wave_sq 8 8 1 3 0) < 1 / 1000.
Proof.
  split; [lra|]. unfold high_freq, wave_sq. rewrite nonzero_ne by lra. change (sfreq 8 3) with 3%Z. change (sfreq 8 0) with 0%Z.
  apply Rle_lt_trans with (1 / (1 + 1000 * 4)); [|lra]. apply gain_stop; [lra|left; reflexivity|]. right. split; lra.
Qed.
Lemma c76_default : ~ (forall s, sine_profile (2 * PI / (15 / 100)) (s + 1) = sine_profile (2 * PI / (15 / 100)) s).
Proof. intros H. apply sine_period in H. revert H. exact c51_default_box. Qed.

(** *** the waves of the initial fields of a run *)
Lemma c76_spectrum n k0 s draws : (0 < n)%nat -> 0 < k0 ->
  (forall m, (m < 3)%nat -> some_wave n n (fst (draws m)) (snd (draws m))) ->
  exists d o p cd co cp, init_state "fourier" n k0 s draws = Ok (grid n n d, grid n n o, grid n n p) /\
    (0 < cd /\ 0 < co /\ 0 < cp) /\
    init_wave n (2 * PI / k0) s cd (draws 0%nat) d /\ init_wave n (2 * PI / k0) s co (draws 1%nat) o /\ init_wave n (2 * PI / k0) s cp (draws 2%nat) p.
Proof.
  intros P K W. pose proof PI_RGT_0 as PP. assert (LP : 0 < 2 * PI / k0) by (apply Rdiv_lt_0_compat; lra).
  assert (NP : 0 < INR n) by (apply lt_0_INR; lia).
  assert (G : forall m, (m < 3)%nat -> exists v c, mul_ (init_noise "fourier" n k0 (fst (draws m)) (snd (draws m))) (sc s) = Ok (grid n n v) /\
     0 < c /\ init_wave n (2 * PI / k0) s c (draws m) v).
  { intros m Hm. destruct (c75_spectrum n n (fst (draws m)) (snd (draws m)) (2 * PI / k0) 0 0 (domain_dx k0 n * 12) (domain_dx k0 n * INR n * 100)) as (v & c & E & Hc & H);
      try assumption; [lra|now apply run_band'|now apply W|].
    eexists _, c. split; [|split; [exact Hc|]].
    - unfold init_noise. cbn [String.eqb Ascii.eqb Bool.eqb]. rewrite E, mul_grid_sc. reflexivity.
    - intros a b Ha Hb N q. specialize (H a b Ha Hb N). cbv zeta in H. fold q in H.
      assert (El : low_freq 0 (domain_dx k0 n * INR n * 100) = / (100 * (2 * PI / k0))).
      { unfold low_freq, nonzero, domain_dx. destruct (Req_EM_T _ 0) as [Z|_]; [|field; repeat split; lra]. exfalso.
        replace (2 * PI / k0 / INR n * INR n * 100) with (2 * PI / k0 * 100) in Z by (field; lra). lra. }
      assert (Eh : high_freq 0 (domain_dx k0 n * 12) = INR n / (12 * (2 * PI / k0))).
      { unfold high_freq, nonzero, domain_dx. destruct (Req_EM_T _ 0) as [Z|_]; [|field; repeat split; lra]. exfalso.
        assert (0 < 2 * PI / k0 / INR n) by (apply Rdiv_lt_0_compat; assumption). lra. }
      rewrite El, Eh in H.
      rewrite (dft2_ext n n _ (fun i j => Cadd (Cmul (RtoC s) (cfield v i j)) (Cmul C0 C0))).
      2:{ intros i j Hi Hj. apply C_eq; cbn; ring. }
      rewrite (dft2_lin n n (RtoC s) C0 (cfield v) (fun _ _ => C0)), H. apply C_eq; cbn; ring. }
  destruct (G 0%nat ltac:(lia)) as (d & cd & Ed & Pd & Gd). destruct (G 1%nat ltac:(lia)) as (o & co & Eo & Po & Go).
  destruct (G 2%nat ltac:(lia)) as (p & cp & Ep & Pp & Gp).
  exists d, o, p, cd, co, cp. split; [|tauto]. unfold init_state. rewrite Ed. cbn [bind]. rewrite Eo. cbn [bind]. rewrite Ep. reflexivity.
Qed.
