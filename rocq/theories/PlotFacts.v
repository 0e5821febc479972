(** Facts about plots and movies. *)
From Coq Require Import Arith ZArith Bool Reals Lra Lia String List.
Import List.
From Verif Require Import Num NdArray ModelIO ModelRun ModelRunHW ModelPlot SpecPlot SpecDownsample.
Import ListNotations.
Local Open Scope string_scope.
Local Open Scope R_scope.
#[local] Existing Instance TimeR.

Lemma Int_part_eq x z : IZR z <= x < IZR z + 1 -> Int_part x = z.
Proof.
  intros [L U]. destruct (base_Int_part x) as [A B].
  assert (Int_part x < z + 1)%Z by (apply lt_IZR; rewrite plus_IZR; lra).
  assert (z < Int_part x + 1)%Z by (apply lt_IZR; rewrite plus_IZR; lra). lia.
Qed.
Lemma Int_part_IZR z : Int_part (IZR z) = z.
Proof. apply Int_part_eq. lra. Qed.
Lemma Int_part_bounds x : IZR (Int_part x) <= x < IZR (Int_part x) + 1.
Proof. destruct (base_Int_part x). lra. Qed.
Lemma R_trunc_pos x : 0 <= x -> R_trunc x = Int_part x.
Proof. intros H. unfold R_trunc. destruct (Rle_dec 0 x); [reflexivity|contradiction]. Qed.
Lemma R_trunc_IZR z : R_trunc (IZR z) = z.
Proof. unfold R_trunc. destruct (Rle_dec 0 (IZR z)); [apply Int_part_IZR|]. rewrite <- opp_IZR, Int_part_IZR. lia. Qed.
Lemma R_round_IZR z : R_round_even (IZR z) = z.
Proof. unfold R_round_even. rewrite Int_part_IZR. destruct (Rlt_dec (IZR z - IZR z) (1 / 2)); [reflexivity|lra]. Qed.
Lemma Rltb_true x y : Rltb x y = true <-> x < y.
Proof. unfold Rltb. destruct (Rlt_dec x y); intuition (discriminate || lra). Qed.
Lemma Rltb_false x y : Rltb x y = false <-> y <= x.
Proof. unfold Rltb. destruct (Rlt_dec x y); intuition (discriminate || lra). Qed.
Lemma Rleb_true x y : Rleb x y = true <-> x <= y.
Proof. unfold Rleb. destruct (Rle_dec x y); intuition (discriminate || lra). Qed.

(** *** minimum and maximum *)
Lemma fold_min l x : let m := fold_left Rmin l x in In m (x :: l) /\ forall y, In y (x :: l) -> m <= y.
Proof.
  revert x. induction l as [|a l IH]; intros x; cbn [fold_left].
  - split; [left; reflexivity|]. intros y [->|[]]. apply Rle_refl.
  - destruct (IH (Rmin x a)) as [A B]. split.
    + destruct A as [A|A]; [|right; right; exact A]. rewrite <- A. unfold Rmin. destruct (Rle_dec x a); [left|right; left]; reflexivity.
    + pose proof (B (Rmin x a) (or_introl eq_refl)) as C. pose proof (Rmin_l x a). pose proof (Rmin_r x a).
      intros y [->|[->|H']]; [lra|lra|]. apply B. now right.
Qed.
Lemma fold_max l x : let m := fold_left Rmax l x in In m (x :: l) /\ forall y, In y (x :: l) -> y <= m.
Proof.
  revert x. induction l as [|a l IH]; intros x; cbn [fold_left].
  - split; [left; reflexivity|]. intros y [->|[]]. apply Rle_refl.
  - destruct (IH (Rmax x a)) as [A B]. split.
    + destruct A as [A|A]; [|right; right; exact A]. rewrite <- A. unfold Rmax. destruct (Rle_dec x a); [right; left|left]; reflexivity.
    + pose proof (B (Rmax x a) (or_introl eq_refl)) as C. pose proof (Rmax_l x a). pose proof (Rmax_r x a).
      intros y [->|[->|H']]; [lra|lra|]. apply B. now right.
Qed.
Lemma np_min_ok l : l <> [] -> exists m, np_min l = Ok m /\ least m l.
Proof. destruct l as [|x l]; [contradiction|]. intros _. eexists. split; [reflexivity|]. exact (fold_min l x). Qed.
Lemma np_max_ok l : l <> [] -> exists m, np_max l = Ok m /\ greatest m l.
Proof. destruct l as [|x l]; [contradiction|]. intros _. eexists. split; [reflexivity|]. exact (fold_max l x). Qed.
Lemma least_unique m m' l : least m l -> least m' l -> m = m'.
Proof. intros [A B] [A' B']. apply Rle_antisym; auto. Qed.
Lemma greatest_unique m m' l : greatest m l -> greatest m' l -> m = m'.
Proof. intros [A B] [A' B']. apply Rle_antisym; auto. Qed.
Lemma np_min_eq l m : least m l -> np_min l = Ok m.
Proof.
  intros H. destruct (np_min_ok l) as (m' & E & H'); [destruct H as [H _]; destruct l; [destruct H|discriminate]|].
  now rewrite E, (least_unique m' m l).
Qed.
Lemma np_max_eq l m : greatest m l -> np_max l = Ok m.
Proof.
  intros H. destruct (np_max_ok l) as (m' & E & H'); [destruct H as [H _]; destruct l; [destruct H|discriminate]|].
  now rewrite E, (greatest_unique m' m l).
Qed.

(** *** zero line *)
Lemma zero_iff vals frac lo hi : least lo vals -> greatest hi vals ->
  is_zero_included vals frac = Ok true <-> lo <= frac * (hi - lo) <= hi.
Proof.
  intros L G. unfold is_zero_included. rewrite (np_min_eq _ _ L), (np_max_eq _ _ G). cbn [bind]. split.
  - intros H. injection H as H. apply andb_true_iff in H. destruct H as [A B]. apply Rleb_true in A, B. lra.
  - intros H. apply (f_equal Ok). apply andb_true_iff. rewrite !Rleb_true. lra.
Qed.
Lemma c53_covered : ~ (forall vals lo hi, least lo vals -> greatest hi vals -> lo <= 0 <= hi -> is_zero_included vals (25 / 1000) = Ok true).
Proof.
  intros H. assert (L : least (-1) [-1; 1 / 100]) by (split; [left; reflexivity|]; intros x [<-|[<-|[]]]; lra).
  assert (G : greatest (1 / 100) [-1; 1 / 100]) by (split; [right; left; reflexivity|]; intros x [<-|[<-|[]]]; lra).
  specialize (H _ _ _ L G ltac:(lra)). apply (zero_iff _ _ _ _ L G) in H. lra.
Qed.
(** mirrored data: the answer for -vals differs from the answer for vals *)
Lemma c53_mirror : ~ (forall vals, is_zero_included (map Ropp vals) (25 / 1000) = is_zero_included vals (25 / 1000)).
Proof.
  intros H. specialize (H [1 / 100; 1]).
  assert (L : least (1 / 100) [1 / 100; 1]) by (split; [left; reflexivity|]; intros x [<-|[<-|[]]]; lra).
  assert (G : greatest 1 [1 / 100; 1]) by (split; [right; left; reflexivity|]; intros x [<-|[<-|[]]]; lra).
  assert (L' : least (-1) (map Ropp [1 / 100; 1])) by (split; [right; left; lra|]; intros x [<-|[<-|[]]]; lra).
  assert (G' : greatest (- (1 / 100)) (map Ropp [1 / 100; 1])) by (split; [left; lra|]; intros x [<-|[<-|[]]]; lra).
  rewrite (proj2 (zero_iff _ _ _ _ L G)) in H by lra. apply (zero_iff _ _ _ _ L' G') in H. lra.
Qed.

(** *** arange *)
Lemma t_ceil_IZR z : t_ceil (IZR z) = Ok z.
Proof.
  unfold t_ceil. cbn [t_int TimeR bind]. rewrite R_trunc_IZR. cbn [nofZ nltb t_num TimeR NumR].
  destruct (Rlt_dec (IZR z) (IZR z)); [lra|reflexivity].
Qed.
Lemma arange_eq n t0 dt : dt <> 0 -> np_arange t0 (t0 + IZR (Z.of_nat n) * dt) dt = Ok (map (fun k => t0 + INR k * dt) (seq 0 n)).
Proof.
  intros D. unfold np_arange. unfold truthy. cbn [neqb nzero t_num TimeR NumR ndiv nsub nadd nmul nofZ].
  destruct (Req_EM_T dt 0); [contradiction|]. cbn [negb].
  replace ((t0 + IZR (Z.of_nat n) * dt - t0) / dt) with (IZR (Z.of_nat n)) by (field; exact D).
  rewrite t_ceil_IZR. cbn [bind]. rewrite Nat2Z.id. apply (f_equal Ok). apply map_ext. intros k.
  destruct k as [|[|k]]; [cbn [INR]; ring|cbn [INR]; ring|]. rewrite <- INR_IZR_INZ. ring.
Qed.
Lemma uniform_eq {X} (values : list X) t0 dt : dt <> 0 ->
  get_uniform_x values dt t0 = Ok (map (fun k => t0 + INR k * dt) (seq 0 (List.length values))).
Proof.
  intros D. unfold get_uniform_x. cbn [nadd nmul nofZ t_num TimeR NumR]. rewrite arange_eq by exact D. cbn [bind].
  rewrite firstn_all2; [reflexivity|]. rewrite map_length, seq_length. lia.
Qed.
Lemma uniform_float : ~ (forall (values : list unit) dt t0, nltb (Num := NumF64) (f64_ofZ 0) dt = true ->
    exists x, get_uniform_x (TN := TimeF64) values dt t0 = Ok x /\ List.length x = List.length values).
Proof.
  intros H. destruct (H [tt] (f64_ofZ 1) (f64_ofZ (2 ^ 53)) ltac:(reflexivity)) as (x & E & L).
  revert E L. vm_compute. intros E. injection E as <-. discriminate.
Qed.

(** *** plot_timeline *)
Lemma timeline_fails y x t0 : x <> [] -> y <> [] -> snd (plot_timeline y x t0) = Exn NameError.
Proof.
  intros Hx Hy. unfold plot_timeline, add_axes, is_zero_included.
  destruct (np_min_ok x Hx) as (a & -> & _). destruct (np_max_ok x Hx) as (b & -> & _).
  destruct (np_min_ok y Hy) as (c & -> & _). destruct (np_max_ok y Hy) as (d & -> & _). reflexivity.
Qed.

(** *** files *)
Section File.
Context {V : Type}.
Implicit Types f : h5 V R.
Lemma row_nums_map l : row_nums (V := V) (map RNum l) = Ok l.
Proof. induction l as [|x l IH]; [reflexivity|]. cbn. rewrite IH. reflexivity. Qed.
Lemma nums_holds f k l : holds f k l -> nums f k = Ok l.
Proof. intros H. unfold nums, dlook. rewrite H. cbn. apply row_nums_map. Qed.
Lemma rows_len_holds f k l : holds f k l -> rows_len f k = Ok (List.length l).
Proof. intros H. unfold rows_len, dlook. rewrite H. cbn. now rewrite map_length. Qed.
Lemma rows_len_has f k n : has_rows f k n -> rows_len f k = Ok n.
Proof. intros (l & H & <-). unfold rows_len, dlook. rewrite H. reflexivity. Qed.
Lemma fixed_attr f dt t : fixed_step f dt t -> attr_look f "frame_dt" = Ok dt.
Proof. intros H. unfold attr_look, dlook. rewrite (fx_dt _ _ _ H). reflexivity. Qed.
Lemma fixed_initial f dt t : fixed_step f dt t -> initial_time f = t.
Proof. intros H. unfold initial_time. rewrite (fx_in _ _ _ H). reflexivity. Qed.
Lemma fixed_adaptive f dt t : fixed_step f dt t -> is_adaptive f = false.
Proof. intros H. unfold is_adaptive. rewrite (fx_ad _ _ _ H). reflexivity. Qed.
Lemma adap_attr f dt t : adaptive_step f dt t -> attr_look f "frame_dt" = Ok dt.
Proof. intros H. unfold attr_look, dlook. rewrite (ad_dt _ _ _ H). reflexivity. Qed.
Lemma adap_initial f dt t : adaptive_step f dt t -> initial_time f = t.
Proof. intros H. unfold initial_time. rewrite (ad_in _ _ _ H). reflexivity. Qed.
Lemma adap_adaptive f dt t : adaptive_step f dt t -> is_adaptive f = true.
Proof. intros H. unfold is_adaptive. rewrite (ad_ad _ _ _ H). reflexivity. Qed.
Lemma titled_ok f : titled f -> generate_title f = Ok tt.
Proof.
  intros H. unfold generate_title. replace (forallb (dhas (attrs f)) title_keys) with true; [reflexivity|]. symmetry.
  apply forallb_forall. intros k Hk. destruct (H k Hk) as [a E]. unfold dhas. now rewrite E.
Qed.

Lemma floordiv_eq a b z : 0 < b -> IZR z * b <= a < (IZR z + 1) * b -> floordiv a b = Ok z.
Proof.
  intros B [L U]. unfold floordiv. destruct (Req_EM_T b 0); [lra|]. apply (f_equal Ok). apply Int_part_eq. split.
  - apply (Rmult_le_reg_r b); [exact B|]. unfold Rdiv. rewrite Rmult_assoc, Rinv_l by lra. lra.
  - apply (Rmult_lt_reg_r b); [exact B|]. unfold Rdiv. rewrite Rmult_assoc, Rinv_l by lra. lra.
Qed.
Lemma floordiv_ok a b : 0 < b -> exists z, floordiv a b = Ok z /\ IZR z * b <= a < (IZR z + 1) * b.
Proof.
  intros B. unfold floordiv. destruct (Req_EM_T b 0); [lra|]. eexists. split; [reflexivity|]. destruct (Int_part_bounds (a / b)) as [L U].
  assert (E : a = a / b * b) by (field; lra). split.
  - rewrite E at 2. apply Rmult_le_compat_r; lra.
  - rewrite E at 1. apply Rmult_lt_compat_r; lra.
Qed.

(** *** movie *)
Lemma show_map {X} (g : X -> res (nat * R)) (h : X -> nat * R) l : (forall x, In x l -> g x = Ok (h x)) -> show_frames g l = Ok (map h l).
Proof.
  induction l as [|x l IH]; intros H; [reflexivity|]. cbn. rewrite (H x (or_introl eq_refl)). cbn. rewrite IH; [reflexivity|].
  intros y Hy. apply H. now right.
Qed.
Lemma row_index_mod n i : (0 < n)%nat -> (- Z.of_nat n <= i < Z.of_nat n)%Z -> row_index n i = Ok (Z.to_nat (i mod Z.of_nat n)).
Proof.
  intros P H. unfold row_index. destruct (Z.leb_spec 0 i), (Z.ltb_spec i (Z.of_nat n)); cbn [andb]; try lia.
  - now rewrite Z.mod_small by lia.
  - destruct (Z.ltb_spec i 0), (Z.leb_spec (- Z.of_nat n) i); cbn [andb]; try lia.
    rewrite <- (Z_mod_plus i 1 (Z.of_nat n)) by lia. rewrite Z.mod_small by lia. do 2 f_equal. lia.
Qed.
Lemma time_to_length_eq z dt : dt <> 0 -> time_to_length (IZR z * dt) dt = Ok z.
Proof.
  intros D. unfold time_to_length. destruct (Req_EM_T dt 0); [contradiction|]. replace (IZR z * dt / dt) with (IZR z) by (field; exact D).
  now rewrite R_round_IZR.
Qed.
Lemma movie_equal f dt t_in m n (min_fps : Z) speed : fixed_step f dt t_in -> t_in = INR m * dt -> titled f -> has_rows f "density" n ->
  (0 < n)%nat -> (m <= n)%nat -> (0 < min_fps)%Z ->
  let s := skip_of speed dt min_fps in
  create_movie_equally_spaced f 0 None min_fps speed
  = Ok (IZR (R_trunc (speed / dt)) / INR s,
        map (fun k => (((n - m + k * s) mod n)%nat, (INR (k * s) - INR m) * dt)) (seq 0 (ceil_div n s))).
Proof.
  intros F Ft Ti Hn Pn Pm Pf s. unfold create_movie_equally_spaced. rewrite (titled_ok f Ti). cbn [bind].
  rewrite (rows_len_has _ _ _ Hn). cbn [bind]. rewrite (fixed_attr _ _ _ F). cbn [bind]. rewrite (fixed_initial _ _ _ F).
  assert (D : dt <> 0) by (pose proof (fx_pos _ _ _ F); lra).
  replace (0 - t_in) with (IZR (- Z.of_nat m) * dt) by (rewrite Ft, opp_IZR, <- INR_IZR_INZ; ring).
  replace ((INR n - 1) * dt - t_in) with (IZR (Z.of_nat n - 1 - Z.of_nat m) * dt) by (rewrite Ft, !minus_IZR, <- !INR_IZR_INZ; ring).
  rewrite !time_to_length_eq by exact D. cbn [bind]. destruct (Z.eqb_spec min_fps 0); [lia|].
  fold (skip_of speed dt min_fps). set (z := Z.max 1 (R_trunc (speed / dt) / min_fps)).
  assert (Es : Z.of_nat s = z) by (unfold s, skip_of; fold z; rewrite Z2Nat.id; lia).
  assert (Ps : (0 < s)%nat) by lia.
  rewrite row_index_mod by lia. cbn [bind].
  unfold py_range.
  replace ((Z.of_nat n - 1 - Z.of_nat m + 1 - - Z.of_nat m + z - 1) / z)%Z with (Z.of_nat (ceil_div n s)).
  2:{ unfold ceil_div. rewrite Nat2Z.inj_div, Nat2Z.inj_add, Nat2Z.inj_sub, Es by lia. f_equal; lia. }
  rewrite Nat2Z.id.
  assert (B : forall k, In k (seq 0 (ceil_div n s)) -> (k * s < n)%nat).
  { intros k Hk. apply in_seq in Hk. unfold ceil_div in Hk. assert (k < (n + (s - 1)) / s)%nat by lia.
    assert (s * ((n + (s - 1)) / s) <= n + (s - 1))%nat by (apply Nat.mul_div_le; lia). nia. }
  rewrite (show_map _ (fun i => (Z.to_nat (i mod Z.of_nat n), IZR i * dt))).
  - cbn [bind]. rewrite <- Es, <- INR_IZR_INZ. do 2 f_equal. rewrite map_map. apply map_ext_in. intros k Hk. specialize (B k Hk). f_equal.
    + replace (- Z.of_nat m + Z.of_nat k * Z.of_nat s)%Z with (Z.of_nat (n - m + k * s) + (-1) * Z.of_nat n)%Z by lia.
      rewrite Z_mod_plus_full, <- Nat2Z.inj_mod, Nat2Z.id. reflexivity.
    + rewrite plus_IZR, opp_IZR, mult_IZR, <- !INR_IZR_INZ, mult_INR. ring.
  - intros i Hi. apply in_map_iff in Hi. destruct Hi as (k & <- & Hk). specialize (B k Hk).
    rewrite row_index_mod by lia. reflexivity.
Qed.
Lemma movie_equal_far f dt t_in m n (min_fps : Z) speed : fixed_step f dt t_in -> t_in = INR m * dt -> titled f -> has_rows f "density" n ->
  (0 < n)%nat -> (n < m)%nat -> (0 < min_fps)%Z ->
  create_movie_equally_spaced f 0 None min_fps speed = Exn IndexError.
Proof.
  intros F Ft Ti Hn Pn Pm Pf. unfold create_movie_equally_spaced. rewrite (titled_ok f Ti). cbn [bind].
  rewrite (rows_len_has _ _ _ Hn). cbn [bind]. rewrite (fixed_attr _ _ _ F). cbn [bind]. rewrite (fixed_initial _ _ _ F).
  assert (D : dt <> 0) by (pose proof (fx_pos _ _ _ F); lra).
  replace (0 - t_in) with (IZR (- Z.of_nat m) * dt) by (rewrite Ft, opp_IZR, <- INR_IZR_INZ; ring).
  replace ((INR n - 1) * dt - t_in) with (IZR (Z.of_nat n - 1 - Z.of_nat m) * dt) by (rewrite Ft, !minus_IZR, <- !INR_IZR_INZ; ring).
  rewrite !time_to_length_eq by exact D. cbn [bind]. destruct (Z.eqb_spec min_fps 0); [lia|].
  set (z := Z.max 1 (R_trunc (speed / dt) / min_fps)). rewrite row_index_mod by lia. cbn [bind]. unfold py_range.
  assert (Q : (1 <= (Z.of_nat n - 1 - Z.of_nat m + 1 - - Z.of_nat m + z - 1) / z)%Z).
  { apply Z.div_le_lower_bound; lia. }
  destruct (Z.to_nat ((Z.of_nat n - 1 - Z.of_nat m + 1 - - Z.of_nat m + z - 1) / z)) eqn:E; [lia|].
  cbn [seq map show_frames]. replace (row_index n (- Z.of_nat m + Z.of_nat 0 * z)) with (@Exn nat IndexError); [reflexivity|].
  unfold row_index. destruct (Z.leb_spec 0 (- Z.of_nat m + Z.of_nat 0 * z)); [lia|]. cbn [andb].
  destruct (Z.ltb_spec (- Z.of_nat m + Z.of_nat 0 * z) 0), (Z.leb_spec (- Z.of_nat n) (- Z.of_nat m + Z.of_nat 0 * z)); cbn [andb]; lia || reflexivity.
Qed.

(** unequal spacing *)
Lemma searchsorted_spec times t : sorted times ->
  (searchsorted times t <= List.length times)%nat /\
  (forall i, (i < searchsorted times t)%nat -> nth i times 0 < t) /\
  (forall i, (searchsorted times t <= i < List.length times)%nat -> t <= nth i times 0).
Proof.
  unfold searchsorted. induction times as [|x l IH]; intros S.
  - cbn. repeat split; intros; lia.
  - assert (S' : sorted l) by (intros i j H; exact (S (Datatypes.S i) (Datatypes.S j) ltac:(cbn; lia))).
    destruct (IH S') as (A & B & C). cbn [filter]. destruct (Rltb x t) eqn:E; cbn [List.length].
    + apply Rltb_true in E. split; [lia|]. split.
      * intros [|i] H; [exact E|]. apply B. lia.
      * intros [|i] H; [lia|]. apply C. lia.
    + apply Rltb_false in E.
      assert (Z : List.length (filter (fun x0 => Rltb x0 t) l) = 0%nat).
      { destruct (List.length (filter (fun x0 => Rltb x0 t) l)) eqn:Z; [reflexivity|]. exfalso.
        specialize (B 0%nat ltac:(lia)). specialize (S 0%nat 1%nat). cbn in S.
        destruct l as [|y l]; [cbn in Z; lia|]. cbn in B. specialize (S ltac:(cbn; lia)). cbn in S. lra. }
      rewrite Z in *. split; [lia|]. split; [intros; lia|]. intros [|i] H; [exact E|]. apply C. lia.
Qed.
Lemma last_nth (l : list R) : l <> [] -> last l 0 = nth (List.length l - 1) l 0.
Proof.
  intros H. induction l as [|x l IH]; [contradiction|]. destruct l as [|y l]; [reflexivity|].
  change (last (x :: y :: l) 0) with (last (y :: l) 0). rewrite IH by discriminate. cbn. rewrite Nat.sub_0_r. reflexivity.
Qed.
Lemma movie_unequal f times t0 (min_fps speed : R) : titled f -> holds f "time" times -> sorted times -> times <> [] -> 0 <= nth 0 times 0 ->
  has_rows f "density" (List.length times) -> 0 < min_fps -> 0 < speed ->
  let tpf := speed / min_fps in
  let T := nth (List.length times - 1) times 0 in
  exists rows, create_movie_unequal_spaced_fine f t0 None min_fps speed = Ok (min_fps, map (fun r => (r, nth r times 0)) rows) /\
    List.length rows = S (Z.to_nat (Int_part (T / tpf))) /\
    forall k, (k < List.length rows)%nat -> let r := nth k rows 0%nat in
      (r < List.length times)%nat /\ INR k * tpf <= nth r times 0 /\ forall i, (i < r)%nat -> nth i times 0 < INR k * tpf.
Proof.
  intros Ti Ht S Ne P0 Hn Pf Ps tpf T.
  assert (Ptpf : 0 < tpf) by (apply Rdiv_lt_0_compat; lra).
  assert (Ln : (0 < List.length times)%nat) by (destruct times; [contradiction|cbn; lia]).
  assert (PT : 0 <= T). { apply Rle_trans with (nth 0 times 0); [exact P0|]. apply S. lia. }
  assert (PT' : 0 <= T / tpf). { apply Rmult_le_pos; [exact PT|]. left. now apply Rinv_0_lt_compat. }
  assert (Iz : (0 <= Int_part (T / tpf))%Z).
  { destruct (Int_part_bounds (T / tpf)). assert (-1 < Int_part (T / tpf))%Z by (apply lt_IZR; lra). lia. }
  exists (map (fun i => searchsorted times (INR i * tpf)) (seq 0 (Datatypes.S (Z.to_nat (Int_part (T / tpf)))))).
  assert (B : forall k, (k < Datatypes.S (Z.to_nat (Int_part (T / tpf))))%nat -> INR k * tpf <= T).
  { intros k Hk. destruct (Int_part_bounds (T / tpf)) as [L _].
    assert (INR k <= T / tpf). { rewrite INR_IZR_INZ. apply Rle_trans with (IZR (Int_part (T / tpf))); [|exact L]. apply IZR_le. lia. }
    replace T with (T / tpf * tpf) by (field; lra). apply Rmult_le_compat_r; lra. }
  assert (V' : forall k, (k < Datatypes.S (Z.to_nat (Int_part (T / tpf))))%nat -> (searchsorted times (INR k * tpf) < List.length times)%nat).
  { intros k Hk. specialize (B k Hk). destruct (searchsorted_spec times (INR k * tpf) S) as (A1 & A2 & A3).
    destruct (Nat.eq_dec (searchsorted times (INR k * tpf)) (List.length times)) as [E|E]; [|lia].
    specialize (A2 (List.length times - 1)%nat ltac:(lia)). fold T in A2. lra. }
  split; [|split].
  - unfold create_movie_unequal_spaced_fine. rewrite (titled_ok f Ti). cbn [bind]. rewrite (nums_holds _ _ _ Ht). cbn [bind].
    replace (match times with [] => Exn IndexError | _ => Ok (last times 0) end) with (Ok T).
    2:{ unfold T. rewrite <- last_nth by exact Ne. destruct times; [contradiction|reflexivity]. }
    cbn [bind]. destruct (Req_EM_T min_fps 0); [lra|]. fold tpf. destruct (Req_EM_T tpf 0); [lra|].
    rewrite (rows_len_has _ _ _ Hn). cbn [bind]. rewrite row_index_mod by lia. cbn [bind].
    rewrite R_trunc_pos by exact PT'. replace (Z.to_nat (Int_part (T / tpf) + 1)) with (Datatypes.S (Z.to_nat (Int_part (T / tpf)))) by lia.
    rewrite (show_map _ (fun r => (r, nth r times 0))); [reflexivity|].
    intros r Hr. apply in_map_iff in Hr. destruct Hr as (k & <- & Hk). apply in_seq in Hk. specialize (V' k ltac:(lia)).
    rewrite row_index_mod by lia. cbn [bind]. rewrite Z.mod_small, Nat2Z.id by lia.
    destruct (Nat.ltb_spec (searchsorted times (INR k * tpf)) (List.length times)); [reflexivity|lia].
  - now rewrite map_length, seq_length.
  - intros k Hk. rewrite map_length, seq_length in Hk. cbv zeta.
    rewrite (nth_indep _ 0%nat (searchsorted times (INR 0 * tpf))) by (rewrite map_length, seq_length; exact Hk).
    rewrite (map_nth (fun i => searchsorted times (INR i * tpf))). rewrite seq_nth by exact Hk. cbn [plus].
    destruct (searchsorted_spec times (INR k * tpf) S) as (A1 & A2 & A3). specialize (V' k Hk).
    split; [exact V'|]. split; [apply A3; lia|exact A2].
Qed.
Lemma movie_unequal_t0 f t0 t0' t1 (min_fps speed : R) :
  create_movie_unequal_spaced_fine f t0 t1 min_fps speed = create_movie_unequal_spaced_fine f t0' t1 min_fps speed.
Proof. reflexivity. Qed.
Lemma show_fail {X} (g : X -> res (nat * R)) l x e : In x l -> g x = Exn e -> exists e', show_frames g l = Exn e'.
Proof.
  intros H E. induction l as [|y l IH]; [destruct H|]. cbn. destruct (g y) as [a|e'] eqn:Ey; [|exists e'; reflexivity]. cbn.
  destruct H as [->|H]; [congruence|]. destruct (IH H) as [e' ->]. exists e'. reflexivity.
Qed.
End File.
