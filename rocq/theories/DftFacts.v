(** Roots of unity and the DFT: orthogonality, inversion, Parseval, real and
    even multipliers, translation and reflection. *)
From Coq Require Import Bool List Arith ZArith Lia Reals Lra Psatz.
From Verif Require Import Num NdArray NdFacts Spec GradFacts SumFacts Cplx.
Import ListNotations.
Local Open Scope R_scope.

Lemma C_eq a b : re a = re b -> im a = im b -> a = b.
Proof. destruct a, b; cbn; intros; subst; reflexivity. Qed.

Ltac cring := apply C_eq; cbn; ring.

Lemma C_ring_theory : ring_theory C0 C1 Cadd Cmul Csub Copp eq.
Proof. constructor; intros; try cring. Qed.
Add Ring Cring : C_ring_theory.

Lemma Cadd_comm a b : Cadd a b = Cadd b a. Proof. ring. Qed.
Lemma Cadd_assoc a b c : Cadd a (Cadd b c) = Cadd (Cadd a b) c. Proof. ring. Qed.
Lemma Cadd_0_l a : Cadd C0 a = a. Proof. ring. Qed.

Lemma csum_bsum n f : csum n f = bsum C C0 Cadd n f.
Proof. reflexivity. Qed.
Local Ltac gen H := intros; rewrite ?csum_bsum; apply H; auto using Cadd_comm, Cadd_0_l, Cadd_assoc.
Lemma csum_ext n f g : (forall i, (i < n)%nat -> f i = g i) -> csum n f = csum n g.
Proof. gen bsum_ext. Qed.
Lemma csum_S_l n f : csum (S n) f = Cadd (f 0%nat) (csum n (fun i => f (S i))).
Proof. gen bsum_S_l. Qed.
Lemma csum_zero n : csum n (fun _ => C0) = C0.
Proof. gen bsum_zero. Qed.
Lemma csum_add n f g : csum n (fun i => Cadd (f i) (g i)) = Cadd (csum n f) (csum n g).
Proof. gen bsum_add. Qed.
Lemma csum_swap n m f : csum n (fun i => csum m (fun j => f i j)) = csum m (fun j => csum n (fun i => f i j)).
Proof. gen bsum_swap. Qed.
Lemma csum_shift n k f : (0 < n)%nat -> csum n (fun i => f (sh n i k)) = csum n f.
Proof. gen bsum_shift. Qed.
Lemma csum_neg n f : csum n (fun i => f (pidx n (- Z.of_nat i))) = csum n f.
Proof. gen bsum_neg. Qed.
Lemma csum_single n k f : (k < n)%nat -> (forall i, (i < n)%nat -> i <> k -> f i = C0) -> csum n f = f k.
Proof. gen bsum_single. Qed.
Lemma csum_mul n c f : csum n (fun i => Cmul c (f i)) = Cmul c (csum n f).
Proof. induction n as [|n IH]; cbn [csum]; [ring|]. rewrite IH; ring. Qed.
Lemma csum_mul_r n c f : csum n (fun i => Cmul (f i) c) = Cmul (csum n f) c.
Proof. induction n as [|n IH]; cbn [csum]; [ring|]. rewrite IH; ring. Qed.
Lemma csum_scal n c f : csum n (fun i => Cscal c (f i)) = Cscal c (csum n f).
Proof. induction n as [|n IH]; cbn [csum]; [cring|]. rewrite IH; cring. Qed.
Lemma csum_conj n f : Cconj (csum n f) = csum n (fun i => Cconj (f i)).
Proof. induction n as [|n IH]; cbn [csum]; [cring|]. rewrite <- IH; cring. Qed.
Lemma csum_re n f : re (csum n f) = rsum n (fun i => re (f i)).
Proof. induction n as [|n IH]; cbn [csum rsum]; [reflexivity|]. cbn. now rewrite IH. Qed.
Lemma csum_im n f : im (csum n f) = rsum n (fun i => im (f i)).
Proof. induction n as [|n IH]; cbn [csum rsum]; [reflexivity|]. cbn. now rewrite IH. Qed.

Lemma Cscal_mul c a b : Cmul (Cscal c a) b = Cscal c (Cmul a b). Proof. cring. Qed.
Lemma Cscal_mul_r c a b : Cmul a (Cscal c b) = Cscal c (Cmul a b). Proof. cring. Qed.
Lemma Cscal_Cscal c d a : Cscal c (Cscal d a) = Cscal (c * d) a. Proof. cring. Qed.
Lemma Cscal_1 a : Cscal 1 a = a. Proof. cring. Qed.
Lemma Cscal_RtoC c a : Cscal c a = Cmul (RtoC c) a. Proof. cring. Qed.
Lemma Cconj_mul a b : Cconj (Cmul a b) = Cmul (Cconj a) (Cconj b). Proof. cring. Qed.
Lemma Cconj_RtoC r : Cconj (RtoC r) = RtoC r. Proof. cring. Qed.
Lemma Cconj_conj a : Cconj (Cconj a) = a. Proof. cring. Qed.

Lemma Cconj_fix a : Cconj a = a -> im a = 0.
Proof. intros E. apply (f_equal im) in E. cbn in E. lra. Qed.

(** ** roots of unity *)
Lemma cis_add a b : cis (a + b) = Cmul (cis a) (cis b).
Proof. apply C_eq; cbn; [rewrite cos_plus | rewrite sin_plus]; ring. Qed.
Lemma cis_0 : cis 0 = C1.
Proof. apply C_eq; cbn; [apply cos_0|apply sin_0]. Qed.
Lemma cis_2kpi (k : Z) t : cis (t + 2 * IZR k * PI) = cis t.
Proof.
  apply C_eq; cbn.
  - destruct k as [|p|p]; [f_equal; ring| |].
    + rewrite <- (positive_nat_Z p), <- INR_IZR_INZ. apply cos_period.
    + rewrite <- Pos2Z.opp_pos, opp_IZR, <- (positive_nat_Z p), <- INR_IZR_INZ.
      rewrite <- (cos_period _ (Pos.to_nat p)). f_equal. ring.
  - destruct k as [|p|p]; [f_equal; ring| |].
    + rewrite <- (positive_nat_Z p), <- INR_IZR_INZ. apply sin_period.
    + rewrite <- Pos2Z.opp_pos, opp_IZR, <- (positive_nat_Z p), <- INR_IZR_INZ.
      rewrite <- (sin_period _ (Pos.to_nat p)). f_equal. ring.
Qed.

Lemma INR_pos n : (0 < n)%nat -> 0 < INR n.
Proof. intros H. apply lt_0_INR. lia. Qed.

Lemma wn_add n a b : wn n (a + b) = Cmul (wn n a) (wn n b).
Proof. unfold wn. rewrite <- cis_add. f_equal. rewrite plus_IZR. unfold Rdiv. ring. Qed.
Lemma wn_0 n : wn n 0 = C1.
Proof. unfold wn. replace (2 * PI * 0 / INR n) with 0 by (unfold Rdiv; ring). apply cis_0. Qed.
Lemma wn_period n z k : (0 < n)%nat -> wn n (z + k * Z.of_nat n) = wn n z.
Proof.
  intros Hn. unfold wn. rewrite plus_IZR, mult_IZR, <- INR_IZR_INZ.
  pose proof (INR_pos n Hn).
  replace (2 * PI * (IZR z + IZR k * INR n) / INR n) with (2 * PI * IZR z / INR n + 2 * IZR k * PI) by (field; lra).
  apply cis_2kpi.
Qed.
Lemma wn_mult n k : (0 < n)%nat -> wn n (k * Z.of_nat n) = C1.
Proof. intros Hn. rewrite <- (wn_0 n), <- (wn_period n 0 k Hn). f_equal. Qed.
Lemma wn_eqm n a b : (0 < n)%nat -> (a mod Z.of_nat n = b mod Z.of_nat n)%Z -> wn n a = wn n b.
Proof.
  intros Hn E.
  rewrite (Z.div_mod a (Z.of_nat n)), (Z.div_mod b (Z.of_nat n)) by lia. rewrite E.
  rewrite Z.add_comm, Z.mul_comm, wn_period by exact Hn.
  rewrite (Z.add_comm (_ * _)), Z.mul_comm, wn_period by exact Hn. reflexivity.
Qed.
Lemma wn_conj n a : Cconj (wn n a) = wn n (- a).
Proof.
  unfold wn. rewrite opp_IZR.
  replace (2 * PI * - IZR a / INR n) with (- (2 * PI * IZR a / INR n)) by (unfold Rdiv; ring).
  apply C_eq; cbn; [now rewrite cos_neg|now rewrite sin_neg].
Qed.
Lemma wn_opp n a : Cmul (wn n a) (wn n (- a)) = C1.
Proof. rewrite <- wn_add. replace (a + - a)%Z with 0%Z by lia. apply wn_0. Qed.

Lemma wn_ne_1 n k : (0 < n)%nat -> (k mod Z.of_nat n <> 0)%Z -> re (wn n k) <> 1.
Proof.
  intros Hn Hk.
  rewrite (wn_eqm n k (k mod Z.of_nat n)) by (try exact Hn; now rewrite Z.mod_mod by lia).
  pose proof (Z.mod_pos_bound k (Z.of_nat n) ltac:(lia)) as Hb.
  set (r := (k mod Z.of_nat n)%Z) in *. cbn.
  pose proof (INR_pos n Hn) as Hp.
  replace (2 * PI * IZR r / INR n) with (2 * (PI * (IZR r / INR n))) by (field; lra).
  rewrite cos_2a_sin.
  assert (Hq : 0 < IZR r / INR n < 1).
  { split.
    - apply Rdiv_lt_0_compat; [apply IZR_lt; lia|exact Hp].
    - apply Rmult_lt_reg_r with (INR n); [exact Hp|].
      unfold Rdiv. rewrite Rmult_assoc, Rinv_l, Rmult_1_r, Rmult_1_l by lra.
      rewrite INR_IZR_INZ. apply IZR_lt. lia. }
  pose proof PI_RGT_0 as HPI.
  assert (0 < sin (PI * (IZR r / INR n))) by (apply sin_gt_0; nra). nra.
Qed.

(** geometric sum *)
Lemma csum_wn n k : (0 < n)%nat ->
  csum n (fun i => wn n (k * Z.of_nat i)) =
  if (k mod Z.of_nat n =? 0)%Z then RtoC (INR n) else C0.
Proof.
  intros Hn. destruct (Z.eqb_spec (k mod Z.of_nat n) 0) as [E|E].
  - rewrite (csum_ext n _ (fun _ => C1)).
    + clear. induction n as [|n IH]; [reflexivity|]. cbn [csum]. rewrite IH, S_INR. cring.
    + intros i _. rewrite <- (wn_mult n 0 Hn). apply wn_eqm; [exact Hn|].
      rewrite Z.mul_mod, E by lia. reflexivity.
  - assert (G : forall m, Cmul (Csub (wn n k) C1) (csum m (fun i => wn n (k * Z.of_nat i))) =
        Csub (wn n (k * Z.of_nat m)) C1).
    { induction m as [|m IH]; [cbn [csum]; rewrite Z.mul_0_r, wn_0; ring|].
      cbn [csum]. replace (k * Z.of_nat (S m))%Z with (k + k * Z.of_nat m)%Z by lia.
      rewrite wn_add.
      transitivity (Cadd (Cmul (Csub (wn n k) C1) (csum m (fun i => wn n (k * Z.of_nat i))))
         (Cmul (Csub (wn n k) C1) (wn n (k * Z.of_nat m)))); [ring|]. rewrite IH. ring. }
    specialize (G n). rewrite wn_mult in G by exact Hn.
    assert (Hw : re (wn n k) <> 1) by (apply wn_ne_1; assumption).
    revert G Hw. generalize (csum n (fun i => wn n (k * Z.of_nat i))) (wn n k). intros S w G Hw.
    assert (H1 : (re w - 1) * re S - im w * im S = 0).
    { apply (f_equal re) in G. cbn in G. lra. }
    assert (H2 : (re w - 1) * im S + im w * re S = 0).
    { apply (f_equal im) in G. cbn in G. lra. }
    assert (D : (re w - 1) * (re w - 1) + im w * im w <> 0).
    { assert (0 < (re w - 1) * (re w - 1)) by (apply Rlt_0_sqr; lra).
      assert (0 <= im w * im w) by apply Rle_0_sqr. lra. }
    apply C_eq; cbn.
    + apply Rmult_eq_reg_l with ((re w - 1) * (re w - 1) + im w * im w); [|exact D].
      transitivity ((re w - 1) * ((re w - 1) * re S - im w * im S) + im w * ((re w - 1) * im S + im w * re S)); [ring|].
      rewrite H1, H2. ring.
    + apply Rmult_eq_reg_l with ((re w - 1) * (re w - 1) + im w * im w); [|exact D].
      transitivity ((re w - 1) * ((re w - 1) * im S + im w * re S) - im w * ((re w - 1) * re S - im w * im S)); [ring|].
      rewrite H1, H2. ring.
Qed.

Lemma diff_mod n i j : (i < n)%nat -> (j < n)%nat ->
  (((Z.of_nat i - Z.of_nat j) mod Z.of_nat n =? 0)%Z = (i =? j)%nat).
Proof.
  intros Hi Hj. destruct (Nat.eqb_spec i j) as [->|Hne].
  - rewrite Z.sub_diag, Z.mod_0_l by lia. reflexivity.
  - apply Z.eqb_neq. intros E. apply Z.mod_divide in E; [|lia]. destruct E as [q Hq].
    assert (q = 0)%Z by nia. lia.
Qed.

(** ** two-dimensional sums over C *)
Definition gcsum (ny nx : nat) (f : nat -> nat -> C) : C :=
  csum ny (fun i => csum nx (fun j => f i j)).
Lemma gcsum_ext ny nx f g :
  (forall i j, (i < ny)%nat -> (j < nx)%nat -> f i j = g i j) -> gcsum ny nx f = gcsum ny nx g.
Proof. intros H. apply csum_ext; intros i Hi. apply csum_ext; intros j Hj. now apply H. Qed.
Lemma gcsum_add ny nx f g : gcsum ny nx (fun i j => Cadd (f i j) (g i j)) = Cadd (gcsum ny nx f) (gcsum ny nx g).
Proof. unfold gcsum. rewrite <- csum_add. apply csum_ext; intros. apply csum_add. Qed.
Lemma gcsum_mul ny nx c f : gcsum ny nx (fun i j => Cmul c (f i j)) = Cmul c (gcsum ny nx f).
Proof. unfold gcsum. rewrite <- csum_mul. apply csum_ext; intros. apply csum_mul. Qed.
Lemma gcsum_mul_r ny nx c f : gcsum ny nx (fun i j => Cmul (f i j) c) = Cmul (gcsum ny nx f) c.
Proof. unfold gcsum. rewrite <- csum_mul_r. apply csum_ext; intros. apply csum_mul_r. Qed.
Lemma gcsum_scal ny nx c f : gcsum ny nx (fun i j => Cscal c (f i j)) = Cscal c (gcsum ny nx f).
Proof. unfold gcsum. rewrite <- csum_scal. apply csum_ext; intros. apply csum_scal. Qed.
Lemma gcsum_swap ny nx my mx (f : nat -> nat -> nat -> nat -> C) :
  gcsum ny nx (fun i j => gcsum my mx (fun k l => f i j k l)) =
  gcsum my mx (fun k l => gcsum ny nx (fun i j => f i j k l)).
Proof.
  unfold gcsum.
  transitivity (csum ny (fun i => csum my (fun k => csum nx (fun j => csum mx (fun l => f i j k l))))).
  { apply csum_ext; intros. apply csum_swap. }
  rewrite csum_swap. apply csum_ext; intros k Hk.
  transitivity (csum ny (fun i => csum mx (fun l => csum nx (fun j => f i j k l)))).
  { apply csum_ext; intros. apply csum_swap. }
  apply csum_swap.
Qed.
Lemma gcsum_conj ny nx f : Cconj (gcsum ny nx f) = gcsum ny nx (fun i j => Cconj (f i j)).
Proof. unfold gcsum. rewrite csum_conj. apply csum_ext; intros. apply csum_conj. Qed.
Lemma gcsum_re ny nx f : re (gcsum ny nx f) = gsum ny nx (fun i j => re (f i j)).
Proof. unfold gcsum, gsum. rewrite csum_re. apply rsum_ext; intros. apply csum_re. Qed.
Lemma gcsum_im ny nx f : im (gcsum ny nx f) = gsum ny nx (fun i j => im (f i j)).
Proof. unfold gcsum, gsum. rewrite csum_im. apply rsum_ext; intros. apply csum_im. Qed.
Lemma gcsum_zero ny nx : gcsum ny nx (fun _ _ => C0) = C0.
Proof. unfold gcsum. rewrite (csum_ext ny _ (fun _ => C0)) by (intros; apply csum_zero). apply csum_zero. Qed.
Lemma gcsum_single ny nx a b f : (a < ny)%nat -> (b < nx)%nat ->
  (forall i j, (i < ny)%nat -> (j < nx)%nat -> (i <> a \/ j <> b) -> f i j = C0) -> gcsum ny nx f = f a b.
Proof.
  intros Ha Hb H. unfold gcsum. rewrite (csum_single ny a _ Ha).
  - apply (csum_single nx b _ Hb). intros j Hj Hne. apply H; auto.
  - intros i Hi Hne. rewrite (csum_ext nx _ (fun _ => C0)); [apply csum_zero|].
    intros j Hj. apply H; auto.
Qed.
Lemma gcsum_shift ny nx ky kx f : (0 < ny)%nat -> (0 < nx)%nat ->
  gcsum ny nx (fun i j => f (sh ny i ky) (sh nx j kx)) = gcsum ny nx f.
Proof.
  intros Hy Hx. unfold gcsum.
  transitivity (csum ny (fun i => csum nx (fun j => f (sh ny i ky) j))).
  - apply csum_ext; intros i Hi. exact (csum_shift nx kx (fun j => f (sh ny i ky) j) Hx).
  - exact (csum_shift ny ky (fun i => csum nx (fun j => f i j)) Hy).
Qed.
Lemma gcsum_neg ny nx f :
  gcsum ny nx (fun i j => f (pidx ny (- Z.of_nat i)) (pidx nx (- Z.of_nat j))) = gcsum ny nx f.
Proof.
  unfold gcsum.
  transitivity (csum ny (fun i => csum nx (fun j => f (pidx ny (- Z.of_nat i)) j))).
  - apply csum_ext; intros i Hi. exact (csum_neg nx (fun j => f (pidx ny (- Z.of_nat i)) j)).
  - exact (csum_neg ny (fun i => csum nx (fun j => f i j))).
Qed.

(** the plane wave exp(2 pi i (k i / ny + l j / nx)) *)
Definition pw (ny nx : nat) (k l : Z) (i j : Z) : C := Cmul (wn ny (k * i)) (wn nx (l * j)).

Lemma dft2_gc ny nx f k l :
  dft2 ny nx f k l = gcsum ny nx (fun i j => Cmul (f i j) (pw ny nx (-k) (-l) (Z.of_nat i) (Z.of_nat j))).
Proof.
  apply gcsum_ext. intros i j _ _. unfold pw. f_equal. f_equal; f_equal; ring.
Qed.
Lemma idft2_gc ny nx F i j :
  idft2 ny nx F i j = Cscal (/ (INR ny * INR nx))
    (gcsum ny nx (fun k l => Cmul (F k l) (pw ny nx (Z.of_nat k) (Z.of_nat l) (Z.of_nat i) (Z.of_nat j)))).
Proof. reflexivity. Qed.

Lemma pw_mul ny nx k l k' l' i j : Cmul (pw ny nx k l i j) (pw ny nx k' l' i j) = pw ny nx (k + k') (l + l') i j.
Proof.
  unfold pw. replace ((k + k') * i)%Z with (k * i + k' * i)%Z by ring.
  replace ((l + l') * j)%Z with (l * j + l' * j)%Z by ring. rewrite !wn_add. ring.
Qed.
Lemma pw_swap ny nx k l i j : pw ny nx k l i j = pw ny nx i j k l.
Proof. unfold pw. f_equal; f_equal; ring. Qed.
Lemma pw_conj ny nx k l i j : Cconj (pw ny nx k l i j) = pw ny nx (-k) (-l) i j.
Proof. unfold pw. rewrite Cconj_mul, !wn_conj. f_equal; f_equal; ring. Qed.
Lemma pw_00 ny nx i j : pw ny nx 0 0 i j = C1.
Proof. unfold pw. rewrite !Z.mul_0_l, !wn_0. ring. Qed.
Lemma pw_eqm ny nx k l k' l' i j : (0 < ny)%nat -> (0 < nx)%nat ->
  (k mod Z.of_nat ny = k' mod Z.of_nat ny)%Z -> (l mod Z.of_nat nx = l' mod Z.of_nat nx)%Z ->
  pw ny nx k l i j = pw ny nx k' l' i j.
Proof.
  intros Hy Hx Ek El. unfold pw. f_equal; apply wn_eqm; auto.
  - rewrite Z.mul_mod, Ek, <- Z.mul_mod by lia. reflexivity.
  - rewrite Z.mul_mod, El, <- Z.mul_mod by lia. reflexivity.
Qed.

Lemma gcsum_pw ny nx k l : (0 < ny)%nat -> (0 < nx)%nat ->
  gcsum ny nx (fun i j => pw ny nx k l (Z.of_nat i) (Z.of_nat j)) =
  if ((k mod Z.of_nat ny =? 0)%Z && (l mod Z.of_nat nx =? 0)%Z)%bool then RtoC (INR ny * INR nx) else C0.
Proof.
  intros Hy Hx. unfold gcsum, pw.
  rewrite (csum_ext ny _ (fun i => Cmul (wn ny (k * Z.of_nat i)) (csum nx (fun j => wn nx (l * Z.of_nat j)))))
    by (intros; apply csum_mul).
  rewrite csum_mul_r, !csum_wn by assumption.
  destruct (k mod Z.of_nat ny =? 0)%Z, (l mod Z.of_nat nx =? 0)%Z; cbn [andb]; cring.
Qed.

(** orthogonality in index form *)
Lemma gcsum_pw_diff ny nx a b c d : (a < ny)%nat -> (b < nx)%nat -> (c < ny)%nat -> (d < nx)%nat ->
  gcsum ny nx (fun i j => pw ny nx (Z.of_nat a - Z.of_nat c) (Z.of_nat b - Z.of_nat d) (Z.of_nat i) (Z.of_nat j)) =
  if ((a =? c)%nat && (b =? d)%nat)%bool then RtoC (INR ny * INR nx) else C0.
Proof.
  intros Ha Hb Hc Hd. rewrite gcsum_pw by lia. now rewrite !diff_mod by assumption.
Qed.

Lemma INR2_ne ny nx : (0 < ny)%nat -> (0 < nx)%nat -> INR ny * INR nx <> 0.
Proof. intros Hy Hx. pose proof (INR_pos ny Hy). pose proof (INR_pos nx Hx). nra. Qed.

(** ** inversion *)
Lemma idft2_dft2 ny nx f a b : (a < ny)%nat -> (b < nx)%nat ->
  idft2 ny nx (fun k l => dft2 ny nx f (Z.of_nat k) (Z.of_nat l)) a b = f a b.
Proof.
  intros Ha Hb. rewrite idft2_gc.
  transitivity (Cscal (/ (INR ny * INR nx)) (gcsum ny nx (fun i j => Cmul (f i j)
     (gcsum ny nx (fun k l => pw ny nx (Z.of_nat a - Z.of_nat i) (Z.of_nat b - Z.of_nat j) (Z.of_nat k) (Z.of_nat l)))))).
  - f_equal.
    rewrite (gcsum_ext ny nx _ (fun k l => gcsum ny nx (fun i j => Cmul (f i j)
      (pw ny nx (Z.of_nat a - Z.of_nat i) (Z.of_nat b - Z.of_nat j) (Z.of_nat k) (Z.of_nat l))))).
    + rewrite gcsum_swap. apply gcsum_ext; intros i j Hi Hj. apply gcsum_mul.
    + intros k l Hk Hl. rewrite dft2_gc, <- gcsum_mul_r. apply gcsum_ext; intros i j Hi Hj.
      transitivity (Cmul (f i j) (Cmul (pw ny nx (- Z.of_nat k) (- Z.of_nat l) (Z.of_nat i) (Z.of_nat j))
        (pw ny nx (Z.of_nat k) (Z.of_nat l) (Z.of_nat a) (Z.of_nat b)))); [ring|]. f_equal.
      unfold pw.
      transitivity (Cmul (Cmul (wn ny (- Z.of_nat k * Z.of_nat i)) (wn ny (Z.of_nat k * Z.of_nat a)))
         (Cmul (wn nx (- Z.of_nat l * Z.of_nat j)) (wn nx (Z.of_nat l * Z.of_nat b)))); [ring|].
      rewrite <- !wn_add. f_equal; f_equal; ring.
  - rewrite (gcsum_single ny nx a b _ Ha Hb).
    + rewrite gcsum_pw_diff by assumption. rewrite !Nat.eqb_refl. cbn [andb].
      pose proof (INR2_ne ny nx ltac:(lia) ltac:(lia)). apply C_eq; cbn; field; split; apply not_0_INR; lia.
    + intros i j Hi Hj Hne. rewrite gcsum_pw_diff by assumption.
      destruct (Nat.eqb_spec a i), (Nat.eqb_spec b j); cbn [andb]; try ring. lia.
Qed.

Lemma dft2_idft2 ny nx F a b : (a < ny)%nat -> (b < nx)%nat ->
  dft2 ny nx (idft2 ny nx F) (Z.of_nat a) (Z.of_nat b) = F a b.
Proof.
  intros Ha Hb. rewrite dft2_gc.
  transitivity (Cscal (/ (INR ny * INR nx)) (gcsum ny nx (fun k l => Cmul (F k l)
     (gcsum ny nx (fun i j => pw ny nx (Z.of_nat k - Z.of_nat a) (Z.of_nat l - Z.of_nat b) (Z.of_nat i) (Z.of_nat j)))))).
  - rewrite <- gcsum_scal.
    rewrite (gcsum_ext ny nx _ (fun i j => gcsum ny nx (fun k l => Cscal (/ (INR ny * INR nx)) (Cmul (F k l)
      (pw ny nx (Z.of_nat k - Z.of_nat a) (Z.of_nat l - Z.of_nat b) (Z.of_nat i) (Z.of_nat j)))))).
    + rewrite gcsum_swap. apply gcsum_ext; intros k l Hk Hl. rewrite gcsum_scal, gcsum_mul. reflexivity.
    + intros i j Hi Hj. rewrite idft2_gc. rewrite Cscal_mul, <- gcsum_mul_r, gcsum_scal.
      f_equal. apply gcsum_ext; intros k l Hk Hl.
      replace (Z.of_nat k - Z.of_nat a)%Z with (Z.of_nat k + - Z.of_nat a)%Z by lia.
      replace (Z.of_nat l - Z.of_nat b)%Z with (Z.of_nat l + - Z.of_nat b)%Z by lia.
      rewrite <- pw_mul. ring.
  - rewrite (gcsum_single ny nx a b _ Ha Hb).
    + rewrite gcsum_pw_diff by assumption. rewrite !Nat.eqb_refl. cbn [andb].
      apply C_eq; cbn; field; split; apply not_0_INR; lia.
    + intros k l Hk Hl Hne. rewrite gcsum_pw_diff by assumption.
      destruct (Nat.eqb_spec k a), (Nat.eqb_spec l b); cbn [andb]; try ring. lia.
Qed.

Lemma dft2_ext ny nx f g k l : (forall i j, (i < ny)%nat -> (j < nx)%nat -> f i j = g i j) ->
  dft2 ny nx f k l = dft2 ny nx g k l.
Proof. intros H. rewrite !dft2_gc. apply gcsum_ext; intros. now rewrite H. Qed.
Lemma idft2_ext ny nx F G i j : (forall k l, (k < ny)%nat -> (l < nx)%nat -> F k l = G k l) ->
  idft2 ny nx F i j = idft2 ny nx G i j.
Proof. intros H. rewrite !idft2_gc. f_equal. apply gcsum_ext; intros. now rewrite H. Qed.

Lemma dft2_eqm ny nx f k l k' l' : (0 < ny)%nat -> (0 < nx)%nat ->
  (k mod Z.of_nat ny = k' mod Z.of_nat ny)%Z -> (l mod Z.of_nat nx = l' mod Z.of_nat nx)%Z ->
  dft2 ny nx f k l = dft2 ny nx f k' l'.
Proof.
  intros Hy Hx Ek El. rewrite !dft2_gc. apply gcsum_ext; intros i j _ _. f_equal.
  apply pw_eqm; auto.
  - rewrite <- !Z.sub_0_l. rewrite Zminus_mod, Ek, <- Zminus_mod. reflexivity.
  - rewrite <- !Z.sub_0_l. rewrite Zminus_mod, El, <- Zminus_mod. reflexivity.
Qed.

(** transform of a real field: conjugate symmetry *)
Definition cfield (f : nat -> nat -> R) : nat -> nat -> C := fun i j => RtoC (f i j).
Lemma dft2_real_conj ny nx f k l :
  Cconj (dft2 ny nx (cfield f) k l) = dft2 ny nx (cfield f) (-k) (-l).
Proof.
  rewrite !dft2_gc, gcsum_conj. apply gcsum_ext; intros i j _ _.
  rewrite Cconj_mul, pw_conj. unfold cfield. now rewrite Cconj_RtoC.
Qed.

(** the zero frequency is the sum *)
Lemma dft2_00 ny nx f : dft2 ny nx f 0 0 = gcsum ny nx f.
Proof. rewrite dft2_gc. apply gcsum_ext; intros i j _ _. change (-0)%Z with 0%Z. rewrite pw_00. ring. Qed.
Lemma gcsum_cfield ny nx f : gcsum ny nx (cfield f) = RtoC (gsum ny nx f).
Proof.
  apply C_eq; cbn; [rewrite gcsum_re; reflexivity|].
  rewrite gcsum_im. apply gsum_zero.
Qed.

(** linearity *)
Lemma dft2_lin ny nx a b f g k l :
  dft2 ny nx (fun i j => Cadd (Cmul a (f i j)) (Cmul b (g i j))) k l =
  Cadd (Cmul a (dft2 ny nx f k l)) (Cmul b (dft2 ny nx g k l)).
Proof.
  rewrite !dft2_gc, <- !gcsum_mul, <- gcsum_add. apply gcsum_ext; intros; ring.
Qed.
Lemma idft2_lin ny nx a b F G i j :
  idft2 ny nx (fun k l => Cadd (Cmul a (F k l)) (Cmul b (G k l))) i j =
  Cadd (Cmul a (idft2 ny nx F i j)) (Cmul b (idft2 ny nx G i j)).
Proof.
  rewrite !idft2_gc, !Cscal_mul_r, <- !gcsum_mul.
  transitivity (Cscal (/ (INR ny * INR nx)) (Cadd
    (gcsum ny nx (fun k l => Cmul a (Cmul (F k l) (pw ny nx (Z.of_nat k) (Z.of_nat l) (Z.of_nat i) (Z.of_nat j)))))
    (gcsum ny nx (fun k l => Cmul b (Cmul (G k l) (pw ny nx (Z.of_nat k) (Z.of_nat l) (Z.of_nat i) (Z.of_nat j))))))).
  - rewrite <- gcsum_add. f_equal. apply gcsum_ext; intros. ring.
  - cring.
Qed.

(** ** Parseval, in bilinear form *)
Lemma parseval ny nx f g : (0 < ny)%nat -> (0 < nx)%nat ->
  gcsum ny nx (fun k l => Cmul (dft2 ny nx f (Z.of_nat k) (Z.of_nat l))
                               (Cconj (dft2 ny nx g (Z.of_nat k) (Z.of_nat l)))) =
  Cscal (INR ny * INR nx) (gcsum ny nx (fun i j => Cmul (f i j) (Cconj (g i j)))).
Proof.
  intros Hy Hx.
  rewrite (gcsum_ext ny nx _ (fun k l => gcsum ny nx (fun i j =>
     Cmul (Cconj (g i j)) (Cmul (dft2 ny nx f (Z.of_nat k) (Z.of_nat l))
       (pw ny nx (Z.of_nat k) (Z.of_nat l) (Z.of_nat i) (Z.of_nat j)))))).
  - rewrite gcsum_swap, <- gcsum_scal. apply gcsum_ext; intros i j Hi Hj.
    rewrite gcsum_mul.
    pose proof (idft2_dft2 ny nx f i j Hi Hj) as E. rewrite idft2_gc in E.
    rewrite <- E. pose proof (INR2_ne ny nx Hy Hx).
    apply C_eq; cbn; field; split; apply not_0_INR; lia.
  - intros k l Hk Hl. rewrite (dft2_gc ny nx g), gcsum_conj, <- gcsum_mul.
    apply gcsum_ext; intros i j Hi Hj. rewrite Cconj_mul, pw_conj, !Z.opp_involutive. ring.
Qed.

(** ** Fourier multipliers *)
Definition mult (ny nx : nat) (m : nat -> nat -> R) (f : nat -> nat -> C) : nat -> nat -> C :=
  idft2 ny nx (fun k l => Cscal (m k l) (dft2 ny nx f (Z.of_nat k) (Z.of_nat l))).

Definition even_mult (ny nx : nat) (m : nat -> nat -> R) : Prop :=
  forall k l, (k < ny)%nat -> (l < nx)%nat ->
    m (pidx ny (- Z.of_nat k)) (pidx nx (- Z.of_nat l)) = m k l.

Lemma mult_ext ny nx m m' f f' i j :
  (forall k l, (k < ny)%nat -> (l < nx)%nat -> m k l = m' k l) ->
  (forall k l, (k < ny)%nat -> (l < nx)%nat -> f k l = f' k l) ->
  mult ny nx m f i j = mult ny nx m' f' i j.
Proof.
  intros Hm Hf. apply idft2_ext. intros k l Hk Hl. rewrite Hm by assumption. f_equal.
  now apply dft2_ext.
Qed.

Lemma dft2_mult ny nx m f k l : (k < ny)%nat -> (l < nx)%nat ->
  dft2 ny nx (mult ny nx m f) (Z.of_nat k) (Z.of_nat l) =
  Cscal (m k l) (dft2 ny nx f (Z.of_nat k) (Z.of_nat l)).
Proof. intros Hk Hl. unfold mult. now rewrite dft2_idft2. Qed.

Lemma mult_mult ny nx m m' f i j :
  mult ny nx m (mult ny nx m' f) i j = mult ny nx (fun k l => m k l * m' k l) f i j.
Proof.
  apply idft2_ext. intros k l Hk Hl. rewrite dft2_mult by assumption. apply Cscal_Cscal.
Qed.

Lemma mult_one ny nx f i j : (i < ny)%nat -> (j < nx)%nat ->
  mult ny nx (fun _ _ => 1) f i j = f i j.
Proof.
  intros Hi Hj. transitivity (idft2 ny nx (fun k l => dft2 ny nx f (Z.of_nat k) (Z.of_nat l)) i j); [|now apply idft2_dft2].
  apply idft2_ext. intros. apply Cscal_1.
Qed.

Lemma mult_lin ny nx m a b f g i j :
  mult ny nx m (fun i j => Cadd (Cmul a (f i j)) (Cmul b (g i j))) i j =
  Cadd (Cmul a (mult ny nx m f i j)) (Cmul b (mult ny nx m g i j)).
Proof.
  unfold mult. rewrite <- idft2_lin. apply idft2_ext. intros k l _ _.
  rewrite dft2_lin. cring.
Qed.

Lemma pidx_opp_mod n k : (k < n)%nat ->
  (Z.of_nat (pidx n (- Z.of_nat k)) mod Z.of_nat n = (- Z.of_nat k) mod Z.of_nat n)%Z.
Proof. intros H. rewrite pidx_mod by lia. apply Z.mod_mod. lia. Qed.

(** an even real multiplier maps real fields to real fields *)
Lemma mult_real ny nx m f i j : (0 < ny)%nat -> (0 < nx)%nat -> even_mult ny nx m ->
  im (mult ny nx m (cfield f) i j) = 0.
Proof.
  intros Hy Hx He.
  assert (E : Cconj (mult ny nx m (cfield f) i j) = mult ny nx m (cfield f) i j).
  { unfold mult. rewrite !idft2_gc.
    transitivity (Cscal (/ (INR ny * INR nx)) (gcsum ny nx (fun k l =>
      Cconj (Cmul (Cscal (m k l) (dft2 ny nx (cfield f) (Z.of_nat k) (Z.of_nat l)))
       (pw ny nx (Z.of_nat k) (Z.of_nat l) (Z.of_nat i) (Z.of_nat j)))))).
    { rewrite <- gcsum_conj. cring. }
    f_equal.
    rewrite <- (gcsum_neg ny nx (fun k l =>
       Cmul (Cscal (m k l) (dft2 ny nx (cfield f) (Z.of_nat k) (Z.of_nat l)))
         (pw ny nx (Z.of_nat k) (Z.of_nat l) (Z.of_nat i) (Z.of_nat j)))).
    apply gcsum_ext; intros k l Hk Hl.
    rewrite He by assumption. rewrite Cconj_mul, pw_conj.
    rewrite (pw_eqm ny nx (Z.of_nat (pidx ny (- Z.of_nat k))) (Z.of_nat (pidx nx (- Z.of_nat l)))
       (- Z.of_nat k) (- Z.of_nat l)) by (auto using pidx_opp_mod).
    rewrite (dft2_eqm ny nx _ (Z.of_nat (pidx ny (- Z.of_nat k))) (Z.of_nat (pidx nx (- Z.of_nat l)))
       (- Z.of_nat k) (- Z.of_nat l)) by (auto using pidx_opp_mod).
    rewrite <- dft2_real_conj. f_equal. cring. }
  now apply Cconj_fix.
Qed.

(** the real field computed by an even multiplier *)
Definition rmult (ny nx : nat) (m : nat -> nat -> R) (f : nat -> nat -> R) : nat -> nat -> R :=
  fun i j => re (mult ny nx m (cfield f) i j).

Lemma rmult_cfield ny nx m f i j : (0 < ny)%nat -> (0 < nx)%nat -> even_mult ny nx m ->
  mult ny nx m (cfield f) i j = cfield (rmult ny nx m f) i j.
Proof.
  intros Hy Hx He. apply C_eq; [reflexivity|]. cbn. now apply mult_real.
Qed.

Lemma rmult_ext ny nx m m' f f' i j :
  (forall k l, (k < ny)%nat -> (l < nx)%nat -> m k l = m' k l) ->
  (forall k l, (k < ny)%nat -> (l < nx)%nat -> f k l = f' k l) ->
  rmult ny nx m f i j = rmult ny nx m' f' i j.
Proof.
  intros Hm Hf. unfold rmult. f_equal. apply mult_ext; auto.
  intros k l Hk Hl. unfold cfield. now rewrite Hf.
Qed.

Lemma rmult_lin ny nx m a b f g i j :
  rmult ny nx m (fadd (fscale a f) (fscale b g)) i j = a * rmult ny nx m f i j + b * rmult ny nx m g i j.
Proof.
  unfold rmult.
  transitivity (re (mult ny nx m (fun i j => Cadd (Cmul (RtoC a) (cfield f i j)) (Cmul (RtoC b) (cfield g i j))) i j)).
  { f_equal. apply mult_ext; auto. intros k l _ _. unfold cfield, fadd, fscale. cring. }
  rewrite mult_lin. cbn. ring.
Qed.

Lemma rmult_rmult ny nx m m' f i j : (0 < ny)%nat -> (0 < nx)%nat -> even_mult ny nx m' ->
  rmult ny nx m (rmult ny nx m' f) i j = rmult ny nx (fun k l => m k l * m' k l) f i j.
Proof.
  intros Hy Hx He. unfold rmult at 1 3. rewrite <- mult_mult. f_equal.
  apply mult_ext; auto. intros k l Hk Hl. symmetry. now apply rmult_cfield.
Qed.

Lemma rmult_one ny nx f i j : (i < ny)%nat -> (j < nx)%nat -> rmult ny nx (fun _ _ => 1) f i j = f i j.
Proof. intros Hi Hj. unfold rmult. rewrite mult_one by assumption. reflexivity. Qed.

(** sum of the image: only the zero frequency counts *)
Lemma gsum_rmult ny nx m f : (0 < ny)%nat -> (0 < nx)%nat ->
  gsum ny nx (rmult ny nx m f) = m 0%nat 0%nat * gsum ny nx f.
Proof.
  intros Hy Hx. unfold rmult. rewrite <- gcsum_re, <- dft2_00.
  change 0%Z with (Z.of_nat 0). rewrite dft2_mult by assumption. cbn [Z.of_nat].
  rewrite dft2_00, gcsum_cfield. reflexivity.
Qed.

(** self-adjointness and the quadratic form *)
Lemma inner_rmult ny nx m f g : (0 < ny)%nat -> (0 < nx)%nat -> even_mult ny nx m ->
  inner ny nx f (rmult ny nx m g) =
  / (INR ny * INR nx) * gsum ny nx (fun k l => m k l *
     re (Cmul (dft2 ny nx (cfield f) (Z.of_nat k) (Z.of_nat l))
              (Cconj (dft2 ny nx (cfield g) (Z.of_nat k) (Z.of_nat l))))).
Proof.
  intros Hy Hx He.
  pose proof (parseval ny nx (cfield f) (cfield (rmult ny nx m g)) Hy Hx) as HP.
  apply (f_equal re) in HP.
  rewrite gcsum_re in HP. cbn [re Cscal] in HP. rewrite gcsum_re in HP.
  assert (E : gsum ny nx (fun i j => re (Cmul (cfield f i j) (Cconj (cfield (rmult ny nx m g) i j)))) =
              inner ny nx f (rmult ny nx m g)).
  { apply gsum_ext; intros. cbn. ring. }
  rewrite E in HP. clear E.
  assert (E : gsum ny nx (fun k l => re (Cmul (dft2 ny nx (cfield f) (Z.of_nat k) (Z.of_nat l))
        (Cconj (dft2 ny nx (cfield (rmult ny nx m g)) (Z.of_nat k) (Z.of_nat l))))) =
     gsum ny nx (fun k l => m k l * re (Cmul (dft2 ny nx (cfield f) (Z.of_nat k) (Z.of_nat l))
              (Cconj (dft2 ny nx (cfield g) (Z.of_nat k) (Z.of_nat l)))))).
  { apply gsum_ext; intros k l Hk Hl.
    rewrite (dft2_ext ny nx (cfield (rmult ny nx m g)) (mult ny nx m (cfield g)))
      by (intros; symmetry; now apply rmult_cfield).
    rewrite dft2_mult by assumption. cbn. ring. }
  rewrite E in HP. rewrite HP. field. split; apply not_0_INR; lia.
Qed.

Lemma rmult_selfadjoint ny nx m f g : (0 < ny)%nat -> (0 < nx)%nat -> even_mult ny nx m ->
  inner ny nx f (rmult ny nx m g) = inner ny nx (rmult ny nx m f) g.
Proof.
  intros Hy Hx He.
  assert (S : inner ny nx (rmult ny nx m f) g = inner ny nx g (rmult ny nx m f))
    by (apply gsum_ext; intros; ring).
  rewrite S, !inner_rmult by assumption. f_equal. apply gsum_ext; intros. f_equal. cbn. ring.
Qed.

Lemma inner_rmult_sq ny nx m f : (0 < ny)%nat -> (0 < nx)%nat -> even_mult ny nx m ->
  inner ny nx f (rmult ny nx m f) =
  / (INR ny * INR nx) * gsum ny nx (fun k l => m k l * Cnorm2 (dft2 ny nx (cfield f) (Z.of_nat k) (Z.of_nat l))).
Proof.
  intros Hy Hx He. rewrite inner_rmult by assumption. f_equal. apply gsum_ext; intros.
  f_equal. cbn. unfold Cnorm2. ring.
Qed.

(** Plancherel for real fields *)
Lemma plancherel ny nx f : (0 < ny)%nat -> (0 < nx)%nat ->
  gsum ny nx (fun k l => Cnorm2 (dft2 ny nx (cfield f) (Z.of_nat k) (Z.of_nat l))) =
  INR ny * INR nx * inner ny nx f f.
Proof.
  intros Hy Hx.
  assert (E : inner ny nx f f = inner ny nx f (rmult ny nx (fun _ _ => 1) f)).
  { apply gsum_ext; intros. now rewrite rmult_one. }
  rewrite E, inner_rmult_sq by (try assumption; intros ? ? ? ?; reflexivity).
  rewrite <- Rmult_assoc, Rinv_r, Rmult_1_l by now apply INR2_ne.
  apply gsum_ext; intros. ring.
Qed.

(** a field is determined by its transform *)
Lemma dft2_inj ny nx f g : 
  (forall k l, (k < ny)%nat -> (l < nx)%nat ->
     dft2 ny nx f (Z.of_nat k) (Z.of_nat l) = dft2 ny nx g (Z.of_nat k) (Z.of_nat l)) ->
  forall i j, (i < ny)%nat -> (j < nx)%nat -> f i j = g i j.
Proof.
  intros H i j Hi Hj. rewrite <- (idft2_dft2 ny nx f i j), <- (idft2_dft2 ny nx g i j) by assumption.
  now apply idft2_ext.
Qed.

(** ** translation *)
Lemma dft2_shift ny nx f sy sx k l : (0 < ny)%nat -> (0 < nx)%nat ->
  dft2 ny nx (fun i j => f (sh ny i sy) (sh nx j sx)) k l =
  Cmul (pw ny nx k l sy sx) (dft2 ny nx f k l).
Proof.
  intros Hy Hx. rewrite !dft2_gc, <- gcsum_mul.
  rewrite <- (gcsum_shift ny nx sy sx (fun i j => Cmul (pw ny nx k l sy sx)
      (Cmul (f i j) (pw ny nx (- k) (- l) (Z.of_nat i) (Z.of_nat j))))) by assumption.
  apply gcsum_ext; intros i j Hi Hj.
  assert (E : pw ny nx (-k) (-l) (Z.of_nat i) (Z.of_nat j) =
     Cmul (pw ny nx k l sy sx) (pw ny nx (- k) (- l) (Z.of_nat (sh ny i sy)) (Z.of_nat (sh nx j sx)))).
  { rewrite (pw_swap ny nx (-k) (-l) (Z.of_nat (sh _ _ _))).
    rewrite (pw_eqm ny nx (Z.of_nat (sh ny i sy)) (Z.of_nat (sh nx j sx)) (Z.of_nat i + sy) (Z.of_nat j + sx)).
    2,3: assumption.
    2,3: unfold sh; rewrite pidx_mod by assumption; apply Z.mod_mod; lia.
    unfold pw.
    transitivity (Cmul (Cmul (wn ny (k * sy)) (wn ny ((Z.of_nat i + sy) * - k)))
       (Cmul (wn nx (l * sx)) (wn nx ((Z.of_nat j + sx) * - l)))); [|ring].
    rewrite <- !wn_add. f_equal; f_equal; ring. }
  rewrite E. ring.
Qed.

Lemma mult_shift ny nx m f sy sx i j : (0 < ny)%nat -> (0 < nx)%nat ->
  mult ny nx m (fun i j => f (sh ny i sy) (sh nx j sx)) i j =
  mult ny nx m f (sh ny i sy) (sh nx j sx).
Proof.
  intros Hy Hx. unfold mult. rewrite !idft2_gc. f_equal. apply gcsum_ext; intros k l Hk Hl.
  rewrite dft2_shift by assumption.
  assert (E : pw ny nx (Z.of_nat k) (Z.of_nat l) (Z.of_nat (sh ny i sy)) (Z.of_nat (sh nx j sx)) =
     Cmul (pw ny nx (Z.of_nat k) (Z.of_nat l) (Z.of_nat i) (Z.of_nat j)) (pw ny nx (Z.of_nat k) (Z.of_nat l) sy sx)).
  { rewrite pw_swap.
    rewrite (pw_eqm ny nx (Z.of_nat (sh ny i sy)) (Z.of_nat (sh nx j sx)) (Z.of_nat i + sy) (Z.of_nat j + sx)).
    2,3: assumption.
    2,3: unfold sh; rewrite pidx_mod by assumption; apply Z.mod_mod; lia.
    rewrite (pw_swap ny nx (Z.of_nat k) (Z.of_nat l) (Z.of_nat i)), (pw_swap ny nx (Z.of_nat k) (Z.of_nat l) sy).
    now rewrite pw_mul. }
  rewrite E. cring.
Qed.

Lemma rmult_shift ny nx m f sy sx i j : (0 < ny)%nat -> (0 < nx)%nat ->
  rmult ny nx m (ftrans ny nx sy sx f) i j = ftrans ny nx sy sx (rmult ny nx m f) i j.
Proof.
  intros Hy Hx. unfold rmult, ftrans. f_equal.
  exact (mult_shift ny nx m (cfield f) sy sx i j Hy Hx).
Qed.

Lemma neg_mod_neg n l : (0 < n)%nat ->
  ((- (- Z.of_nat l mod Z.of_nat n)) mod Z.of_nat n = Z.of_nat l mod Z.of_nat n)%Z.
Proof.
  intros Hn. rewrite <- (Z.mod_add _ (- ((- Z.of_nat l) / Z.of_nat n))) by lia. f_equal.
  pose proof (Z.div_mod (- Z.of_nat l) (Z.of_nat n)). lia.
Qed.

(** ** reflection j -> -j of the second axis *)
Lemma dft2_mirror ny nx f k l : (0 < ny)%nat -> (0 < nx)%nat ->
  dft2 ny nx (fun i j => f i (pidx nx (- Z.of_nat j))) k l = dft2 ny nx f k (- l).
Proof.
  intros Hy Hx. rewrite !dft2_gc. unfold gcsum. apply csum_ext. intros i Hi.
  rewrite <- (csum_neg nx (fun j => Cmul (f i j) (pw ny nx (- k) (- - l) (Z.of_nat i) (Z.of_nat j)))).
  apply csum_ext. intros j Hj. f_equal. unfold pw. f_equal. apply wn_eqm; [assumption|].
  rewrite pidx_mod by assumption. rewrite Z.mul_mod_idemp_r by lia. f_equal. ring.
Qed.

Lemma mult_mirror ny nx m f i j : (0 < ny)%nat -> (0 < nx)%nat ->
  (forall k l, (k < ny)%nat -> (l < nx)%nat -> m k (pidx nx (- Z.of_nat l)) = m k l) ->
  mult ny nx m (fun i j => f i (pidx nx (- Z.of_nat j))) i j = mult ny nx m f i (pidx nx (- Z.of_nat j)).
Proof.
  intros Hy Hx Hm. unfold mult. rewrite !idft2_gc. f_equal. unfold gcsum. apply csum_ext. intros k Hk.
  rewrite <- csum_neg. apply csum_ext. intros l Hl. rewrite Hm by assumption. rewrite dft2_mirror by assumption.
  assert (E1 : dft2 ny nx f (Z.of_nat k) (- Z.of_nat (pidx nx (- Z.of_nat l))) = dft2 ny nx f (Z.of_nat k) (Z.of_nat l)).
  { apply dft2_eqm; auto. rewrite pidx_mod by assumption. now apply neg_mod_neg. }
  rewrite E1. f_equal. unfold pw. f_equal. apply wn_eqm; [assumption|].
  rewrite !pidx_mod by assumption. rewrite Z.mul_mod_idemp_l, Z.mul_mod_idemp_r by lia. f_equal. ring.
Qed.

Lemma rmult_mirror ny nx m f i j : (0 < ny)%nat -> (0 < nx)%nat ->
  (forall k l, (k < ny)%nat -> (l < nx)%nat -> m k (pidx nx (- Z.of_nat l)) = m k l) ->
  rmult ny nx m (fun i j => f i (pidx nx (- Z.of_nat j))) i j = rmult ny nx m f i (pidx nx (- Z.of_nat j)).
Proof.
  intros Hy Hx Hm. unfold rmult. f_equal. exact (mult_mirror ny nx m (cfield f) i j Hy Hx Hm).
Qed.
