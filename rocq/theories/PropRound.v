(** C96-C98: rounding errors of the difference operators, of the right-hand
    side and of the conservation laws in binary64. *)
From Coq Require Import String List Arith ZArith Reals Lra Lia SpecFloat Bool.
From Verif Require Import Num NdArray ModelGradients ModelArakawa ModelHW Spec SpecHW SpecSmooth SpecRound ModelSchemes
  ArakawaFacts RoundTop RoundHW RoundCons.
Import List ListNotations.
Local Open Scope R_scope.
Local Existing Instance NumF64.

Theorem C96_gradient : forall ny nx (dx : f64), (0 < ny)%nat -> (0 < nx)%nat -> finite64 dx -> scale64 (fval dx) ->
  forall F f axis, scale64 F -> bounded64 ny nx F f -> (axis = 0 \/ axis = 1)%Z ->
  exists g, np_periodic_gradient (Ok (grid ny nx f)) dx axis = Ok (Some (grid ny nx g)) /\
    nb_periodic_gradient (Ok (grid ny nx f)) dx axis = Ok (Some (grid ny nx g)) /\
    forall i j, (i < ny)%nat -> (j < nx)%nat ->
      near (g i j) ((if (axis =? 0)%Z then cdy ny (fval dx) (values f) else cdx nx (fval dx) (values f)) i j)
        (4 * uro * F / fval dx).
Proof. exact c96_gradient. Qed.
Print Assumptions C96_gradient.

Theorem C96_laplace : forall ny nx (dx : f64), (0 < ny)%nat -> (0 < nx)%nat -> finite64 dx -> scale64 (fval dx) ->
  forall F f n, (forall k, (k < n)%nat -> scale64 ((8.01 / fval dx ^ 2) ^ k * F)) -> bounded64 ny nx F f ->
  exists g, nb_periodic_laplace_N (Ok (grid ny nx f)) dx (Z.of_nat n) = Ok (grid ny nx g) /\
    np_periodic_laplace_N (Ok (grid ny nx f)) dx (Z.of_nat n) = Ok (grid ny nx g) /\
    forall i j, (i < ny)%nat -> (j < nx)%nat ->
      near (g i j) (lap_iter n ny nx (fval dx) (values f) i j) (INR n * 6 * uro * ((8.01 / fval dx ^ 2) ^ n * F)).
Proof. exact c96_laplace. Qed.
Print Assumptions C96_laplace.

Theorem C96_bracket : forall ny nx (dx : f64), (0 < ny)%nat -> (0 < nx)%nat -> finite64 dx -> scale64 (fval dx) ->
  forall F G f g, scale64 F -> scale64 G -> bounded64 ny nx F f -> bounded64 ny nx G g ->
  (exists b, np_periodic_arakawa_vec (Ok (grid ny nx f)) (Ok (grid ny nx g)) dx = Ok (grid ny nx b) /\
    nb_periodic_arakawa_vec (Ok (grid ny nx f)) (Ok (grid ny nx g)) dx = Ok (grid ny nx b) /\
    nb_periodic_arakawa_stencil (Ok (grid ny nx f)) (Ok (grid ny nx g)) dx = Ok (grid ny nx b) /\
    forall i j, (i < ny)%nat -> (j < nx)%nat ->
      near (b i j) (jacobian ny nx (fval dx) (values f) (values g) i j) (22 * uro * (F * G) / fval dx ^ 2)) /\
  (exists b, (forall junk, np_periodic_arakawa junk (Ok (grid ny nx f)) (Ok (grid ny nx g)) dx = Ok (grid ny nx b)) /\
    nb_periodic_arakawa (Ok (grid ny nx f)) (Ok (grid ny nx g)) dx = Ok (grid ny nx b) /\
    forall i j, (i < ny)%nat -> (j < nx)%nat ->
      near (b i j) (jacobian ny nx (fval dx) (values f) (values g) i j) (22 * uro * (F * G) / fval dx ^ 2)).
Proof. exact c96_bracket. Qed.
Print Assumptions C96_bracket.

(** truncation and rounding together: computed slope against true derivative *)
Theorem C96_gradient_total : forall ny nx (dx : f64), (0 < ny)%nat -> (0 < nx)%nat -> finite64 dx -> scale64 (fval dx) ->
  forall F e f axis M u D, scale64 F -> bounded64 ny nx F f -> (axis = 0 \/ axis = 1)%Z ->
  smooth 3 M u D -> periodic (INR ny * fval dx) (INR nx * fval dx) u ->
  (forall i j, (i < ny)%nat -> (j < nx)%nat -> near (f i j) (u (INR i * fval dx) (INR j * fval dx)) e) ->
  exists g, np_periodic_gradient (Ok (grid ny nx f)) dx axis = Ok (Some (grid ny nx g)) /\
    nb_periodic_gradient (Ok (grid ny nx f)) dx axis = Ok (Some (grid ny nx g)) /\
    forall i j, (i < ny)%nat -> (j < nx)%nat ->
      near (g i j) ((if (axis =? 0)%Z then D 1%nat 0%nat else D 0%nat 1%nat) (INR i * fval dx) (INR j * fval dx))
        (M * fval dx ^ 2 / 6 + (e + 4 * uro * F) / fval dx).
Proof. exact c96_total. Qed.
Print Assumptions C96_gradient_total.

Theorem C97_gradient_2d : forall ny nx (dx : f64), (0 < ny)%nat -> (0 < nx)%nat -> finite64 dx -> scale64 (fval dx) ->
  forall solver b dx0 N c1 nu pb kap zon, b = np_schemes solver \/ b = nb_schemes solver ->
  finite64 c1 -> finite64 nu -> finite64 pb -> finite64 kap -> INR N <= 1000000 -> (zon = true -> INR ny <= 1000000) ->
  let p := mkPar N (fval c1) (fval nu) (fval pb) (fval kap) zon in
  forall phi n o P B O dt age, scale64 P -> scale64 B -> scale64 O ->
  bounded64 ny nx P phi -> bounded64 ny nx B n -> bounded64 ny nx O o ->
  (forall k, (k < N)%nat -> scale64 ((8.01 / fval dx ^ 2) ^ k * B)) ->
  (forall k, (k < N)%nat -> scale64 ((8.01 / fval dx ^ 2) ^ k * O)) ->
  exists lg d, gradient_2d (hw_init b dx0 (Z.of_nat N) c1 nu pb kap zon false)
      [("density", grid ny nx n); ("omega", grid ny nx o); ("age", scal age)]%string (Some (grid ny nx phi)) dt dx = (lg, Ok d) /\
    exists dn do_, ns_get d "density" = Ok (grid ny nx dn) /\ ns_get d "omega" = Ok (grid ny nx do_) /\
    forall Sn So i j, size_n p (fval dx) P B <= Sn -> scale64 Sn -> size_o p (fval dx) P B O <= So -> scale64 So ->
      (i < ny)%nat -> (j < nx)%nat ->
      near (dn i j) (rhs_n p ny nx (fval dx) (values phi) (values n) i j) (roundings p ny * uro * Sn) /\
      near (do_ i j) (rhs_o p ny nx (fval dx) (values phi) (values n) (values o) i j) (roundings p ny * uro * So).
Proof. exact c97. Qed.
Print Assumptions C97_gradient_2d.

Theorem C98_conservation : forall ny nx (dx : f64), (0 < ny)%nat -> (0 < nx)%nat -> finite64 dx -> scale64 (fval dx) ->
  forall F G f g, scale64 F -> scale64 G -> bounded64 ny nx F f -> bounded64 ny nx G g ->
  forall b junk,
  np_periodic_arakawa_vec (Ok (grid ny nx f)) (Ok (grid ny nx g)) dx = Ok (grid ny nx b) \/
  nb_periodic_arakawa_vec (Ok (grid ny nx f)) (Ok (grid ny nx g)) dx = Ok (grid ny nx b) \/
  nb_periodic_arakawa_stencil (Ok (grid ny nx f)) (Ok (grid ny nx g)) dx = Ok (grid ny nx b) \/
  np_periodic_arakawa junk (Ok (grid ny nx f)) (Ok (grid ny nx g)) dx = Ok (grid ny nx b) \/
  nb_periodic_arakawa (Ok (grid ny nx f)) (Ok (grid ny nx g)) dx = Ok (grid ny nx b) ->
  let e := 22 * uro * (F * G) / fval dx ^ 2 in
  Rabs (gsum ny nx (values b)) <= INR ny * INR nx * e /\
  Rabs (inner ny nx (values f) (values b)) <= INR ny * INR nx * (F * e) /\
  Rabs (inner ny nx (values g) (values b)) <= INR ny * INR nx * (G * e).
Proof. exact c98_cons. Qed.
Print Assumptions C98_conservation.

(** the sum over the grid is not exactly zero *)
Theorem C98_exact_refuted : ~ forall ny nx (dx : f64) f g b, (0 < ny)%nat -> (0 < nx)%nat -> finite64 dx -> scale64 (fval dx) ->
  (exists B, bounded64 ny nx B f /\ bounded64 ny nx B g) ->
  np_periodic_arakawa_vec (Ok (grid ny nx f)) (Ok (grid ny nx g)) dx = Ok (grid ny nx b) ->
  gsum ny nx (values b) = 0.
Proof. exact c98_refuted. Qed.
Print Assumptions C98_exact_refuted.

(** ** concrete cases: 3 x 3 fields of small integers, spacing 1 *)
Lemma sc z : (1 <= z <= 1000000)%Z -> scale64 (IZR z).
Proof.
  intros [A B]. apply IZR_le in A, B. unfold scale64. assert (H : 2 ^ 20 <= 2 ^ 200) by (apply Rle_pow; [lra|lia]).
  assert (1000000 <= 2 ^ 20) by lra. assert (1 <= 2 ^ 200) by lra.
  assert (/ 2 ^ 200 <= 1) by (rewrite <- Rinv_1; apply Rinv_le_contravar; lra). lra.
Qed.
Example C96_hyps : finite64 one64 /\ scale64 (fval one64) /\ scale64 6 /\ scale64 4 /\ bounded64 3 3 6 exf /\ bounded64 3 3 4 exg /\
  (forall k, (k < 2)%nat -> scale64 ((8.01 / fval one64 ^ 2) ^ k * 6)).
Proof.
  destruct one_scale as (A & B & C). destruct exf_bounded as [D E]. split; [exact A|]. split; [exact C|].
  split; [apply sc; lia|]. split; [apply sc; lia|]. split; [exact D|]. split; [exact E|].
  intros k Hk. rewrite B. pose proof (sc 6 ltac:(lia)) as [L U].
  assert (X : 100 <= 2 ^ 200) by (assert (2 ^ 20 <= 2 ^ 200) by (apply Rle_pow; [lra|lia]); lra).
  destruct k as [|[|k]]; [| |lia]; split; cbn [pow]; lra.
Qed.
(** what the program returns, and it is not what exact arithmetic gives: the
    second entry is 29/12 *)
Example C96_case : exists b, np_periodic_arakawa_vec (Ok (grid 3 3 exf)) (Ok (grid 3 3 exg)) one64 = Ok (grid 3 3 b) /\
  b 0%nat 1%nat = S754_finite false 5441849549739349 (-51) /\
  jacobian 3 3 1 (values exf) (values exg) 0 1 = 29 / 12 /\ fval (b 0%nat 1%nat) <> 29 / 12.
Proof.
  exists (ara 3 3 one64 exf exg). split; [vm_compute; reflexivity|]. split; [vm_compute; reflexivity|]. split.
  - unfold jacobian, jac_pp, jac_px, jac_xp, values. cbv zeta.
    rewrite !fval_zval by (vm_compute; reflexivity).
    repeat match goal with |- context [zval ?x] => let v := eval vm_compute in (zval x) in change (zval x) with v end. lra.
  - rewrite fval_zval by (vm_compute; reflexivity).
    match goal with |- context [zval ?x] => let v := eval vm_compute in (zval x) in change (zval x) with v end. lra.
Qed.
(** a set of parameters and fields meeting all the hypotheses of C97 *)
Example C97_hyps : let p := mkPar 2 1 1 1 1 true in
  INR 2 <= 1000000 /\ INR 3 <= 1000000 /\ size_n p 1 6 4 <= 1000 /\ scale64 1000 /\ size_o p 1 6 4 6 <= 1000.
Proof.
  cbv zeta. unfold size_n, size_o, size_c. cbn [pc1 pN ppb pkap pnu pzon]. rewrite !Rabs_R1.
  split; [cbn; lra|]. split; [cbn; lra|]. split; [lra|]. split; [apply sc; lia|lra].
Qed.
