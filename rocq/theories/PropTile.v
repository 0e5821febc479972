(** Property C138: a domain made of copies simulates one copy. *)
From Coq Require Import List Arith ZArith Lia Bool Reals Lra Psatz String.
From Verif Require Import Num NdArray NdFacts Spec SumFacts Cplx DftFacts ModelHW ModelBackend ModelProperties SpecDiag SpecHW SpecPlasma HWFacts StepFacts RhsFacts HWProps BalanceWit SpecZonal ZonalFacts
  SpecTile TileFacts TileTop SpecAdvect AdvectFacts PropAdvect PropScale.
Import ListNotations.
Local Open Scope R_scope.

(** On a grid of a x b copies of the initial fields, with the same spacing,
    any number of steps gives a x b copies of what one copy gives alone. *)
Theorem C138_copies ny nx a b dx : (0 < ny)%nat -> (0 < nx)%nat -> (0 < a)%nat -> (0 < b)%nat -> dx <> 0 ->
  forall bk dx0 test, backend_ok ny nx bk -> backend_ok (a * ny) (b * nx) bk ->
  forall step p pl PL n o phi t t2 dt m, step = rk4_step \/ step = euler_step ->
  plasma_ok test ny nx pl n o phi t -> agree ny nx phi (invlap ny nx dx o) ->
  plasma_ok test (a * ny) (b * nx) PL (tile ny nx n) (tile ny nx o) (tile ny nx phi) t2 ->
  exists pl' PL' n' o' phi',
    snd (steps (fun pl => step (hw_of bk p dx0 test) pl dt dx) m pl) = Ok pl' /\ plasma_ok test ny nx pl' n' o' phi' (t + INR m * dt) /\
    snd (steps (fun pl => step (hw_of bk p dx0 test) pl dt dx) m PL) = Ok PL' /\
    plasma_ok test (a * ny) (b * nx) PL' (tile ny nx n') (tile ny nx o') (tile ny nx phi') (t2 + INR m * dt).
Proof. exact (c138 ny nx a b dx). Qed.
Print Assumptions C138_copies.
(** Wavenumbers that are not multiples of a (in y) and b (in x) never appear
    if the initial fields do not have them. *)
Theorem C138_wavenumbers ny nx a b dx : (0 < ny)%nat -> (0 < nx)%nat -> (0 < a)%nat -> (0 < b)%nat -> dx <> 0 ->
  forall bk dx0 test, backend_ok (a * ny) (b * nx) bk -> forall step p pl n o phi t dt m, step = rk4_step \/ step = euler_step ->
  plasma_ok test (a * ny) (b * nx) pl n o phi t -> agree (a * ny) (b * nx) phi (invlap (a * ny) (b * nx) dx o) ->
  only_multiples a b (a * ny) (b * nx) n -> only_multiples a b (a * ny) (b * nx) o ->
  exists pl' n' o' phi', snd (steps (fun pl => step (hw_of bk p dx0 test) pl dt dx) m pl) = Ok pl' /\
    plasma_ok test (a * ny) (b * nx) pl' n' o' phi' (t + INR m * dt) /\
    only_multiples a b (a * ny) (b * nx) n' /\ only_multiples a b (a * ny) (b * nx) o' /\ only_multiples a b (a * ny) (b * nx) phi'.
Proof. exact (c138_modes ny nx a b dx). Qed.
Print Assumptions C138_wavenumbers.
(** Fluxes, energy and enstrophies are those of one copy, for every stack of
    frames. *)
Theorem C138_diagnostics rest ny nx a b (n p o : frames) c1 dx : (0 < ny)%nat -> (0 < nx)%nat -> (0 < a)%nat -> (0 < b)%nat ->
  let fr (f : frames) := Ok (stack rest ny nx f) in
  let big (f : frames) := Ok (stack rest (a * ny) (b * nx) (fun r => tile ny nx (f r))) in
  get_gamma_n (big n) (big p) dx None = get_gamma_n (fr n) (fr p) dx None /\ get_gamma_c (big n) (big p) c1 dx = get_gamma_c (fr n) (fr p) c1 dx /\
  get_energy (big n) (big p) dx = get_energy (fr n) (fr p) dx /\ get_enstrophy (big n) (big o) dx = get_enstrophy (fr n) (fr o) dx /\
  get_enstrophy_phi (big n) (big p) dx = get_enstrophy_phi (fr n) (fr p) dx.
Proof. exact (c138_diag rest ny nx a b n p o c1 dx). Qed.
Print Assumptions C138_diagnostics.
Lemma C138_row : dft2 4 4 (fun i j => RtoC (row0 i j)) 1 0 = RtoC 4.
Proof.
  unfold dft2. rewrite (csum_ext 4 _ (fun i => csum 4 (fun _ => match i with O => C1 | _ => C0 end))).
  - cbn. unfold Cadd, C1, C0, RtoC. cbn. f_equal; ring.
  - intros i Hi. apply csum_ext. intros j Hj. replace (- (0 * Z.of_nat j))%Z with 0%Z by lia. rewrite wn_0. destruct i as [|i]; cbn [row0].
    + replace (- (1 * Z.of_nat 0))%Z with 0%Z by lia. rewrite wn_0. unfold Cmul, C1, RtoC. cbn. f_equal; ring.
    + unfold Cmul, C1, C0, RtoC. cbn. f_equal; ring.
Qed.
(** 2 x 3 copies of the flow and the row of C135, and their wavenumbers: k = 2
    is present in y, k = 1 is not *)
Example C138_case : let n := tile 4 4 row0 in let o := tile 4 4 flow4 in
  plasma_ok true 8 12 (pl0 8 12 n o (tile 4 4 (invlap 4 4 1 flow4)) 0) n o (tile 4 4 (invlap 4 4 1 flow4)) 0 /\
  only_multiples 2 3 8 12 n /\ only_multiples 2 3 8 12 o /\
  dft2 8 12 (fun i j => RtoC (n i j)) 2 0 <> C0 /\ dft2 8 12 (fun i j => RtoC (n i j)) 1 0 = C0.
Proof.
  cbv zeta. split; [apply pl0_ok|].
  assert (M : forall f, only_multiples 2 3 8 12 (tile 4 4 f)) by (intros f; apply (tiled_multiples 4 4 2 3); lia).
  split; [apply M|]. split; [apply M|]. split.
  - intros E. pose proof (dft_tile 4 4 2 3 ltac:(lia) ltac:(lia) ltac:(lia) ltac:(lia) row0 (2 * 1) (3 * 0) ltac:(cbn; lia) ltac:(cbn; lia)) as D.
    rewrite (spr_mult 4 4 2 3) in D by lia. cbn [Nat.mul Nat.add] in D. change (Z.of_nat 2) with 2%Z in D. change (Z.of_nat 0) with 0%Z in D. rewrite E in D.
    change (Z.of_nat 1) with 1%Z in D. rewrite C138_row in D. apply (f_equal re) in D. cbn in D. lra.
  - apply (M row0 1%nat 0%nat); [lia|lia|left; cbn; lia].
Qed.
