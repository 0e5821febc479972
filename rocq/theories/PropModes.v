(** Property C145: energy, enstrophy and fluxes as sums over modes. *)
From Coq Require Import List Arith ZArith Lia Bool Reals Lra Psatz String.
From Verif Require Import Num NdArray NdFacts Spec GradFacts SumFacts Cplx SpecFourier DftFacts ModelProperties SpecDiag DiagFacts DiagProps
  SpecHW SpecLinear LinearFacts SpecModes TriadFacts ModesFacts PropAdvect PropScale PropLinear PropReach PropTriad.
Import ListNotations.
Local Open Scope R_scope.

(** Energy, enstrophy and resistive dissipation are sums over the modes. *)
Theorem C145_modes rest ny nx (n p o : frames) c1 dx : (0 < ny)%nat -> (0 < nx)%nat -> dx <> 0 ->
  get_energy (Ok (stack rest ny nx n)) (Ok (stack rest ny nx p)) dx =
    Ok (build rest (fun r => gsum ny nx (fun k l => power ny nx k l (n r) + (wave2 ny dx k + wave2 nx dx l) * power ny nx k l (p r)) / 2)) /\
  get_enstrophy (Ok (stack rest ny nx n)) (Ok (stack rest ny nx o)) dx =
    Ok (build rest (fun r => gsum ny nx (fun k l => power ny nx k l (fun i j => n r i j - o r i j)) / 2)) /\
  get_gamma_c (Ok (stack rest ny nx n)) (Ok (stack rest ny nx p)) c1 dx =
    Ok (build rest (fun r => c1 * gsum ny nx (fun k l => power ny nx k l (fun i j => n r i j - p r i j)))) /\
  get_gamma_n (Ok (stack rest ny nx n)) (Ok (stack rest ny nx p)) dx None =
    Ok (build rest (fun r => gsum ny nx (fun k l => - (sin (2 * PI * INR k / INR ny) / dx) *
      (im (coefficient ny nx k l (n r)) * re (coefficient ny nx k l (p r)) - re (coefficient ny nx k l (n r)) * im (coefficient ny nx k l (p r)))) / (INR ny * INR nx) ^ 2)).
Proof.
  intros Hy Hx Hd. destruct (c29_values rest ny nx n p o c1 dx Hy Hx) as (V1 & V2 & V3 & V4). rewrite V1, V2, V3, V4.
  split; [|split; [|split]]; f_equal; apply build_ext; intros r _.
  - f_equal. rewrite !gmean_add. rewrite square_modes by assumption.
    rewrite (square_modes ny nx Hy Hx (fun i j => (p r i (sh nx j 1) - p r i (sh nx j (-1))) / (2 * dx))).
    rewrite (square_modes ny nx Hy Hx (fun i j => (p r (sh ny i 1) j - p r (sh ny i (-1)) j) / (2 * dx))).
    rewrite <- !gsum_add. apply gsum_ext. intros k l Hk Hl. rewrite power_cx, power_cy by assumption. ring.
  - f_equal. now rewrite (square_modes ny nx Hy Hx (fun i j => n r i j - o r i j)).
  - f_equal. now rewrite (square_modes ny nx Hy Hx (fun i j => n r i j - p r i j)).
  - rewrite (inner_modes ny nx Hy Hx (n r) (fun i j => (p r (sh ny i 1) j - p r (sh ny i (-1)) j) / (2 * dx))).
    match goal with |- - (?S / ?D) = _ => transitivity ((-1) * S / D); [unfold Rdiv; ring|] end. f_equal.
    rewrite <- gsum_scal. apply gsum_ext. intros k l Hk Hl. rewrite co_cy by assumption. cbn. ring.
Qed.
Print Assumptions C145_modes.
(** Parts without common modes contribute separately. *)
Theorem C145_parts rest ny nx (n p o n2 p2 o2 : frames) c1 dx : (0 < ny)%nat -> (0 < nx)%nat ->
  (forall r, inb rest r -> apart ny nx (n r) (n2 r) /\ apart ny nx (p r) (p2 r) /\ apart ny nx (o r) (o2 r) /\
     apart ny nx (n r) (p2 r) /\ apart ny nx (p r) (n2 r) /\ apart ny nx (n r) (o2 r) /\ apart ny nx (o r) (n2 r)) ->
  let both (f g : frames) : frames := fun r i j => f r i j + g r i j in
  exists e e2 u u2 c c2 g g2 : list nat -> R,
    get_energy (Ok (stack rest ny nx n)) (Ok (stack rest ny nx p)) dx = Ok (build rest e) /\
    get_energy (Ok (stack rest ny nx n2)) (Ok (stack rest ny nx p2)) dx = Ok (build rest e2) /\
    get_energy (Ok (stack rest ny nx (both n n2))) (Ok (stack rest ny nx (both p p2))) dx = Ok (build rest (fun r => e r + e2 r)) /\
    get_enstrophy (Ok (stack rest ny nx n)) (Ok (stack rest ny nx o)) dx = Ok (build rest u) /\
    get_enstrophy (Ok (stack rest ny nx n2)) (Ok (stack rest ny nx o2)) dx = Ok (build rest u2) /\
    get_enstrophy (Ok (stack rest ny nx (both n n2))) (Ok (stack rest ny nx (both o o2))) dx = Ok (build rest (fun r => u r + u2 r)) /\
    get_gamma_c (Ok (stack rest ny nx n)) (Ok (stack rest ny nx p)) c1 dx = Ok (build rest c) /\
    get_gamma_c (Ok (stack rest ny nx n2)) (Ok (stack rest ny nx p2)) c1 dx = Ok (build rest c2) /\
    get_gamma_c (Ok (stack rest ny nx (both n n2))) (Ok (stack rest ny nx (both p p2))) c1 dx = Ok (build rest (fun r => c r + c2 r)) /\
    get_gamma_n (Ok (stack rest ny nx n)) (Ok (stack rest ny nx p)) dx None = Ok (build rest g) /\
    get_gamma_n (Ok (stack rest ny nx n2)) (Ok (stack rest ny nx p2)) dx None = Ok (build rest g2) /\
    get_gamma_n (Ok (stack rest ny nx (both n n2))) (Ok (stack rest ny nx (both p p2))) dx None = Ok (build rest (fun r => g r + g2 r)).
Proof.
  intros Hy Hx A both.
  destruct (c29_values rest ny nx n p o c1 dx Hy Hx) as (V1 & V2 & V3 & V4).
  destruct (c29_values rest ny nx n2 p2 o2 c1 dx Hy Hx) as (W1 & W2 & W3 & W4).
  destruct (c29_values rest ny nx (both n n2) (both p p2) (both o o2) c1 dx Hy Hx) as (X1 & X2 & X3 & X4).
  do 8 eexists. rewrite V1, V2, V3, V4, W1, W2, W3, W4, X1, X2, X3, X4.
  assert (Z : forall a b : field, apart ny nx a b -> gmean ny nx (fun i j => a i j * b i j) = 0) by (intros a b Q; apply (orth ny nx Hy Hx a b a b Q); apply mem_id).
  assert (D : forall a b a2 b2 : field, apart ny nx a a2 -> apart ny nx b b2 -> apart ny nx a b2 -> apart ny nx b a2 ->
    gmean ny nx (fun i j => ((a i j + a2 i j) - (b i j + b2 i j)) ^ 2) = gmean ny nx (fun i j => (a i j - b i j) ^ 2) + gmean ny nx (fun i j => (a2 i j - b2 i j) ^ 2)).
  { intros a b a2 b2 Q1 Q2 Q3 Q4. rewrite <- (sq_add ny nx (fun i j => a i j - b i j) (fun i j => a2 i j - b2 i j)).
    - unfold gmean. f_equal. apply gsum_ext. intros. ring.
    - transitivity (gmean ny nx (fun i j => (a i j * a2 i j + b i j * b2 i j) + (-1) * (a i j * b2 i j + b i j * a2 i j))); [unfold gmean; f_equal; apply gsum_ext; intros; ring|].
      rewrite !gmean_add, gmean_scl, gmean_add, !Z by assumption. ring. }
  repeat match goal with |- _ /\ _ => split end; try reflexivity; f_equal; apply build_ext; intros r Hr; destruct (A r Hr) as (Q1 & Q2 & Q3 & Q4 & Q5 & Q6 & Q7); unfold both.
  - set (cx := fun f : field => fun i j => (f i (sh nx j 1) - f i (sh nx j (-1))) / (2 * dx)). set (cy := fun f : field => fun i j => (f (sh ny i 1) j - f (sh ny i (-1)) j) / (2 * dx)).
    transitivity ((gmean ny nx (fun i j => (n r i j + n2 r i j) ^ 2) + (gmean ny nx (fun i j => (cx (p r) i j + cx (p2 r) i j) ^ 2) + gmean ny nx (fun i j => (cy (p r) i j + cy (p2 r) i j) ^ 2))) / 2).
    + f_equal. rewrite <- !gmean_add. unfold gmean. f_equal. apply gsum_ext. intros i j _ _. unfold cx, cy, Rdiv. ring.
    + rewrite (sq_add ny nx (n r) (n2 r)) by now apply Z.
      rewrite (sq_add ny nx (cx (p r)) (cx (p2 r))) by (apply (orth ny nx Hy Hx (p r) (p2 r)); [assumption|now apply mem_cx..]).
      rewrite (sq_add ny nx (cy (p r)) (cy (p2 r))) by (apply (orth ny nx Hy Hx (p r) (p2 r)); [assumption|now apply mem_cy..]).
      rewrite !gmean_add. unfold cx, cy. lra.
  - rewrite D by assumption. lra.
  - rewrite D by assumption. lra.
  - set (cy := fun f : field => fun i j => (f (sh ny i 1) j - f (sh ny i (-1)) j) / (2 * dx)).
    transitivity (- gmean ny nx (fun i j => (n r i j * cy (p r) i j + n2 r i j * cy (p2 r) i j) + (n r i j * cy (p2 r) i j + n2 r i j * cy (p r) i j))).
    + f_equal. unfold gmean. f_equal. apply gsum_ext. intros i j _ _. unfold cy, Rdiv. ring.
    + rewrite !gmean_add. rewrite (orth ny nx Hy Hx (n r) (p2 r) (n r) (cy (p2 r)) Q4 (mem_id ny nx _) (mem_cy ny nx Hy Hx dx _)).
      assert (Q5' : apart ny nx (n2 r) (p r)) by (intros k l Hk Hl; destruct (Q5 k l Hk Hl); [now right|now left]).
      rewrite (orth ny nx Hy Hx (n2 r) (p r) (n2 r) (cy (p r)) Q5' (mem_id ny nx _) (mem_cy ny nx Hy Hx dx _)). unfold cy. ring.
Qed.
Print Assumptions C145_parts.
(** Parts with a common mode do not: twice the same field has four times its
    energy. *)
Theorem C145_common_mode_refuted : exists (f : field) (e : R), ~ apart 4 4 f f /\
  get_energy (Ok (grid 4 4 f)) (Ok (grid 4 4 f)) 1 = Ok (scal e) /\
  get_energy (Ok (grid 4 4 (fun i j => f i j + f i j))) (Ok (grid 4 4 (fun i j => f i j + f i j))) 1 <> Ok (scal (e + e)).
Proof.
  assert (Hy : (0 < 4)%nat) by lia.
  destruct (c29_values [] 4 4 (fun _ => flow4) (fun _ => flow4) (fun _ => flow4) 1 1 Hy Hy) as (_ & _ & V & _).
  destruct (c29_values [] 4 4 (fun _ i j => flow4 i j + flow4 i j) (fun _ i j => flow4 i j + flow4 i j) (fun _ => flow4) 1 1 Hy Hy) as (_ & _ & W & _).
  eexists flow4, _. split; [|split].
  - intros A. destruct (A 0%nat 1%nat) as [E|E]; [lia|lia| |]; apply (f_equal re) in E; revert E; unfold coefficient, dft2;
      cbn [csum Z.of_nat Z.mul Pos.of_succ_nat Pos.succ Pos.mul Pos.add Z.opp]; rewrite ?w4_0, ?w4_1, ?w4_2, ?w4_3, ?wm4, ?wm6, ?wm9; unfold flow4, co4; cbn; lra.
  - exact V.
  - intros E. unfold grid in E. change (build [4; 4]%nat _) with (stack [] 4 4 (fun _ i j => flow4 i j + flow4 i j)) in E. rewrite W in E.
    apply (f_equal (fun x => match x with Ok a => get a [] | _ => 0 end)) in E. revert E. unfold scal. cbn -[INR]. unfold gmean, gsum, flow4, co4. cbn. change (Pos.to_nat 1) with 1%nat. change (Pos.to_nat 2) with 2%nat. change (Pos.to_nat 3) with 3%nat. cbn. lra.
Qed.
Print Assumptions C145_common_mode_refuted.
(** a shear flow, which has modes with k = 0 and l <> 0, and a row, which has
    modes with l = 0 *)
Example C145_case : apart 4 4 flow4 row0 /\ power 4 4 0 1 flow4 <> 0 /\ power 4 4 1 0 row0 <> 0 /\ wave2 4 1 1 = 1.
Proof.
  split.
  { intros [|[|[|[|k]]]] [|[|[|[|l]]]] Hk Hl; try (exfalso; lia); first [left; unfold flow4, co4; modes4|right; unfold row0; modes4]. }
  split; [|split].
  - unfold power, coefficient, dft2; cbn [csum Z.of_nat Z.mul Pos.of_succ_nat Pos.succ Pos.mul Pos.add Z.opp]; rewrite ?w4_0, ?w4_1, ?w4_2, ?w4_3, ?wm4, ?wm6, ?wm9; unfold flow4, co4, Cnorm2; cbn; lra.
  - unfold power, coefficient, dft2; cbn [csum Z.of_nat Z.mul Pos.of_succ_nat Pos.succ Pos.mul Pos.add Z.opp]; rewrite ?w4_0, ?w4_1, ?w4_2, ?w4_3, ?wm4, ?wm6, ?wm9; unfold row0, Cnorm2; cbn; lra.
  - unfold wave2. replace (2 * PI * INR 1 / INR 4) with (PI / 2) by (cbn; field). rewrite sin_PI2. field.
Qed.
