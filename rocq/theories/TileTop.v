(** Consequences of TileFacts.v: wavenumbers and diagnostics. *)
From Coq Require Import List Arith ZArith Lia Bool Reals Lra Psatz String.
From Verif Require Import Num NdArray NdFacts Spec GradFacts SumFacts LapFacts Cplx SpecFourier DftFacts ModelHW ModelBackend ModelProperties SpecDiag DiagFacts DiagProps
  SpecHW SpecPlasma HWFacts StepFacts RhsFacts HWProps SymFacts SpecZonal ZonalFacts SpecTile TileFacts.
Import ListNotations.
Local Open Scope R_scope.

Section T.
Variables (ny nx a b : nat) (dx : R).
Hypothesis Hy : (0 < ny)%nat.
Hypothesis Hx : (0 < nx)%nat.
Hypothesis Ha : (0 < a)%nat.
Hypothesis Hb : (0 < b)%nat.
Hypothesis Hd : dx <> 0.
Local Notation NY := (a * ny)%nat.
Local Notation NX := (b * nx)%nat.
Local Notation tl := (tile ny nx).

Lemma tiled_multiples f : only_multiples a b NY NX (tl f).
Proof.
  intros k l Hk Hl H. rewrite dft_tile by assumption. destruct H; [now apply spr_off_y|now apply spr_off_x].
Qed.
Lemma multiples_tiled f : only_multiples a b NY NX f -> agree NY NX f (tl f).
Proof.
  intros H i j Hi Hj. set (F := fun k l => dft2 NY NX (fun i j => RtoC (f i j)) (Z.of_nat k) (Z.of_nat l)).
  set (G := fun k l => Cscal (/ (INR a * INR b)) (F (a * k)%nat (b * l)%nat)).
  assert (E : forall i j, (i < NY)%nat -> (j < NX)%nat -> f i j = re (idft2 ny nx G (i mod ny) (j mod nx))).
  { intros u v Hu Hv. transitivity (re (idft2 NY NX F u v)).
    - unfold F. rewrite idft2_dft2 by assumption. reflexivity.
    - rewrite <- (idft_spr ny nx a b) by assumption. f_equal. apply idft2_ext. intros K L HK HL.
      destruct (Nat.eq_dec (K mod a) 0) as [EK|EK]; [destruct (Nat.eq_dec (L mod b) 0) as [EL|EL]|].
      + apply Nat.mod_divides in EK; [|lia]. apply Nat.mod_divides in EL; [|lia]. destruct EK as [k ->], EL as [l ->].
        rewrite (spr_mult ny nx a b) by assumption. unfold G. rewrite Cscal_Cscal.
        pose proof (INR_pos _ Ha). pose proof (INR_pos _ Hb). replace (INR a * INR b * / (INR a * INR b)) with 1 by (field; lra). symmetry. apply Cscal_1.
      + rewrite (spr_off_x a b) by assumption. unfold F. apply H; [assumption..|now right].
      + rewrite (spr_off_y a b) by assumption. unfold F. apply H; [assumption..|now left]. }
  unfold tile. assert (M1 : (i mod ny < ny)%nat) by (apply Nat.mod_upper_bound; lia). assert (M2 : (j mod nx < nx)%nat) by (apply Nat.mod_upper_bound; lia).
  rewrite (E i j Hi Hj), (E (i mod ny)%nat (j mod nx)%nat) by nia. now rewrite !Nat.mod_mod by lia.
Qed.
Variables (bk : backend R) (dx0 : R) (test : bool).
Hypothesis HBK : backend_ok NY NX bk.
Lemma c138_modes step p pl n o phi t dt m : step = rk4_step \/ step = euler_step ->
  plasma_ok test NY NX pl n o phi t -> agree NY NX phi (invlap NY NX dx o) -> only_multiples a b NY NX n -> only_multiples a b NY NX o ->
  exists pl' n' o' phi', snd (steps (fun pl => step (hw_of bk p dx0 test) pl dt dx) m pl) = Ok pl' /\
    plasma_ok test NY NX pl' n' o' phi' (t + INR m * dt) /\
    only_multiples a b NY NX n' /\ only_multiples a b NY NX o' /\ only_multiples a b NY NX phi'.
Proof.
  assert (HY : (0 < NY)%nat) by nia. assert (HX : (0 < NX)%nat) by nia.
  intros Hs P A Mn Mo. destruct (code_e step Hs) as [e ->].
  destruct (traj NY NX dx HY HX Hd bk dx0 test HBK e p pl n o phi t dt m P A) as (pl' & phi2 & S2 & Q2 & B2).
  assert (E0 : sagree NY NX (n, o) (stile ny nx (n, o))) by (split; now apply multiples_tiled).
  destruct (tile_steps ny nx a b dx Hy Hx Ha Hb Hd e p dt m (n, o) (n, o) E0) as [En Eo].
  set (y := iter_step (spec_of e (hw_rhs p ny nx dx) dt) m (n, o)) in *.
  set (z := iter_step (spec_of e (hw_rhs p NY NX dx) dt) m (n, o)) in *.
  exists pl', (tl (fst y)), (tl (snd y)), (tl (invlap ny nx dx (snd y))). split; [exact S2|].
  split; [|split; [|split]; apply tiled_multiples].
  apply (plasma_ok_ext test NY NX _ _ _ _ _ _ _ _ Q2 En Eo).
  intros i j Hi Hj. rewrite (B2 i j Hi Hj), (invlap_ext NY NX dx _ _ i j Eo). cbn [stile snd]. now apply tile_invlap.
Qed.
End T.
Lemma c138_diag rest ny nx a b (n p o : frames) c1 dx : (0 < ny)%nat -> (0 < nx)%nat -> (0 < a)%nat -> (0 < b)%nat ->
  let fr (f : frames) := Ok (stack rest ny nx f) in
  let big (f : frames) := Ok (stack rest (a * ny) (b * nx) (fun r => tile ny nx (f r))) in
  get_gamma_n (big n) (big p) dx None = get_gamma_n (fr n) (fr p) dx None /\ get_gamma_c (big n) (big p) c1 dx = get_gamma_c (fr n) (fr p) c1 dx /\
  get_energy (big n) (big p) dx = get_energy (fr n) (fr p) dx /\ get_enstrophy (big n) (big o) dx = get_enstrophy (fr n) (fr o) dx /\
  get_enstrophy_phi (big n) (big p) dx = get_enstrophy_phi (fr n) (fr p) dx.
Proof.
  intros Hy Hx Ha Hb fr big. assert (HY : (0 < a * ny)%nat) by nia. assert (HX : (0 < b * nx)%nat) by nia.
  destruct (c29_values rest ny nx n p o c1 dx Hy Hx) as (A1 & A2 & A3 & A4).
  destruct (c29_values rest (a * ny) (b * nx) (fun r => tile ny nx (n r)) (fun r => tile ny nx (p r)) (fun r => tile ny nx (o r)) c1 dx HY HX) as (B1 & B2 & B3 & B4).
  unfold fr, big. rewrite A1, A2, A3, A4, B1, B2, B3, B4, !enstrophy_phi_stack by assumption.
  assert (G : forall f g, (forall i j, f i j = tile ny nx g i j) -> gmean (a * ny) (b * nx) f = gmean ny nx g).
  { intros f g E. rewrite <- (tile_gmean ny nx a b Hy Hx Ha Hb g). apply gm_ext. intros i j _ _. apply E. }
  assert (K : forall f g : list nat -> R, (forall r, f r = g r) -> Ok (build rest f) = Ok (build rest g)).
  { intros f g E. replace g with f; [reflexivity|]. now apply FunctionalExtensionality.functional_extensionality. }
  repeat split; apply K; intros r;
    [apply Ropp_eq_compat|apply (f_equal (Rmult c1))|apply (f_equal (fun x => x / 2))..];
    apply G; intros i j; unfold lap5, tile; rewrite ?sh_tile by assumption; reflexivity.
Qed.
