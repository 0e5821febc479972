(** Energy and enstrophy balance of one gradient evaluation (C23, C24, ...). *)
From Coq Require Import List Arith ZArith Lia Bool Reals Lra Psatz String.
From Verif Require Import Num NdArray NdFacts ModelGradients Spec GradFacts SumFacts LapFacts GradProps
  ModelArakawa ArakawaFacts Cplx DftFacts SpecFourier ModelPoisson PoissonFacts PoissonProps
  ModelProperties ModelHW ModelBackend SpecHW SpecPlasma HWFacts StepFacts RhsFacts SymFacts HWProps.
Import ListNotations.
Local Open Scope R_scope.

Lemma get_enstrophy_grid ny nx n o d : get_enstrophy (Ok (grid ny nx n)) (Ok (grid ny nx o)) d =
  Ok (scal (gmean ny nx (fun i j => (n i j - o i j) ^ 2) / 2)).
Proof.
  unfold get_enstrophy, sub_, powk, div_. rewrite lift2_grid, map1_grid, mean2_grid, sc_scal. apply lift2_scal.
Qed.

Section B.
Variables (p : par) (ny nx : nat) (dx : R).
Hypothesis Hy : (0 < ny)%nat.
Hypothesis Hx : (0 < nx)%nat.
Hypothesis Hd : dx <> 0.
Local Notation J := (jacobian ny nx dx).
Local Notation S := (invlap ny nx dx).
Local Notation mn := (gmean ny nx).
Local Notation D := (hyper p ny nx dx).
Local Notation dy := (cdy ny dx).
Implicit Types f g phi n o : field.

Lemma mn_ext f g : (forall i j, (i < ny)%nat -> (j < nx)%nat -> f i j = g i j) -> mn f = mn g.
Proof. intros H. unfold gmean. f_equal. now apply gsum_ext. Qed.
Lemma mn_add f g : mn (fun i j => f i j + g i j) = mn f + mn g.
Proof. unfold gmean. rewrite gsum_add. unfold Rdiv. ring. Qed.
Lemma mn_sub f g : mn (fun i j => f i j - g i j) = mn f - mn g.
Proof. unfold gmean. rewrite gsum_sub. unfold Rdiv. ring. Qed.
Lemma mn_scal c f : mn (fun i j => c * f i j) = c * mn f.
Proof. unfold gmean. rewrite gsum_scal. unfold Rdiv. ring. Qed.
Lemma mn_inner f g : mn (fun i j => f i j * g i j) = inner ny nx f g / (INR ny * INR nx).
Proof. reflexivity. Qed.
Lemma mn_jac_l f g : mn (fun i j => f i j * J f g i j) = 0.
Proof. rewrite mn_inner. rewrite inner_jac_l by assumption. unfold Rdiv. ring. Qed.
Lemma mn_jac_r f g : mn (fun i j => g i j * J f g i j) = 0.
Proof. rewrite mn_inner. rewrite inner_jac_r by assumption. unfold Rdiv. ring. Qed.
Lemma mn_o_dy o : mn (fun i j => o i j * dy (S o) i j) = 0.
Proof. rewrite mn_inner. rewrite inner_o_cdy_phi by assumption. unfold Rdiv. ring. Qed.
Lemma mn_S f g : mn (fun i j => f i j * S g i j) = mn (fun i j => S f i j * g i j).
Proof. rewrite !mn_inner. now rewrite invlap_selfadjoint. Qed.
Lemma mn_phi_dy phi : mn (fun i j => phi i j * dy phi i j) = 0.
Proof.
  rewrite mn_inner. pose proof (inner_cdy ny nx dx phi phi Hy) as E. rewrite (inner_sym ny nx (dy phi)) in E.
  replace (inner ny nx phi (dy phi)) with 0 by lra. unfold Rdiv. ring.
Qed.

(** difference of the two right-hand sides *)
Lemma rhs_diff phi n o i j :
  rhs_n p ny nx dx phi n i j - rhs_o p ny nx dx phi n o i j =
  - ppb p * J phi (fsub n o) i j - pkap p * dy phi i j + (D n i j - D o i j).
Proof. unfold rhs_n, rhs_o. rewrite jac_sub_r by assumption. ring. Qed.

(** the true enstrophy rate *)
Definition U_rate phi n o : R :=
  mn (fun i j => (n i j - o i j) * (rhs_n p ny nx dx phi n i j - rhs_o p ny nx dx phi n o i j)).
Lemma U_rate_eq n o : let phi := S o in
  U_rate phi n o = - pkap p * mn (fun i j => n i j * dy phi i j) + mn (fun i j => (n i j - o i j) * (D n i j - D o i j)).
Proof.
  intros phi. unfold U_rate.
  rewrite (mn_ext _ (fun i j => (- ppb p * (fsub n o i j * J phi (fsub n o) i j)
     - pkap p * (n i j * dy phi i j - o i j * dy phi i j)) + (n i j - o i j) * (D n i j - D o i j))).
  2:{ intros. rewrite rhs_diff. unfold fsub. ring. }
  rewrite mn_add, mn_sub, !mn_scal, mn_jac_r, mn_sub. unfold phi. rewrite mn_o_dy. ring.
Qed.
Lemma U_expand n o dn dd e :
  mn (fun i j => ((n i j + e * dn i j) - (o i j + e * dd i j)) ^ 2) / 2 =
  mn (fun i j => (n i j - o i j) ^ 2) / 2 + e * mn (fun i j => (n i j - o i j) * (dn i j - dd i j))
  + e ^ 2 / 2 * mn (fun i j => (dn i j - dd i j) ^ 2).
Proof.
  rewrite (mn_ext (fun i j => ((n i j + e * dn i j) - (o i j + e * dd i j)) ^ 2)
   (fun i j => ((n i j - o i j) ^ 2 + (2 * e) * ((n i j - o i j) * (dn i j - dd i j))) + e ^ 2 * (dn i j - dd i j) ^ 2)).
  2:{ intros. ring. }
  rewrite !mn_add, !mn_scal. field.
Qed.

(** the energy whose kinetic part is taken in Fourier space, and its rate *)
Local Notation E_spec := (spec_energy ny nx dx).
Lemma E_expand n o dn dd e :
  E_spec (fadd n (fscale e dn)) (fadd o (fscale e dd)) =
  E_spec n o + e * (mn (fun i j => n i j * dn i j) - mn (fun i j => S o i j * dd i j))
  + e ^ 2 * E_spec dn dd.
Proof.
  unfold spec_energy.
  rewrite (mn_ext (fun i j => fadd n (fscale e dn) i j ^ 2)
    (fun i j => n i j ^ 2 + (2 * e) * (n i j * dn i j) + e ^ 2 * dn i j ^ 2)).
  2:{ intros. unfold fadd, fscale. ring. }
  rewrite (mn_ext (fun i j => S (fadd o (fscale e dd)) i j * fadd o (fscale e dd) i j)
    (fun i j => S o i j * o i j + e * (S o i j * dd i j) + e * (o i j * S dd i j) + e ^ 2 * (S dd i j * dd i j))).
  2:{ intros. rewrite (invlap_ext ny nx dx _ (fadd (fscale 1 o) (fscale e dd))).
      - rewrite invlap_lin by assumption. unfold fadd, fscale. ring.
      - intros a c _ _. unfold fadd, fscale. ring. }
  rewrite !mn_add, !mn_scal, (mn_S o dd). field.
Qed.
Definition E_rate phi n o : R :=
  mn (fun i j => n i j * rhs_n p ny nx dx phi n i j) - mn (fun i j => phi i j * rhs_o p ny nx dx phi n o i j).
Lemma E_rate_eq phi n o :
  E_rate phi n o = pc1 p * mn (fun i j => (n i j - phi i j) * coupling p ny phi n i j)
   - pkap p * mn (fun i j => n i j * dy phi i j)
   + mn (fun i j => n i j * D n i j) - mn (fun i j => phi i j * D o i j).
Proof.
  unfold E_rate.
  rewrite (mn_ext (fun i j => n i j * rhs_n p ny nx dx phi n i j)
    (fun i j => (pc1 p * (n i j * coupling p ny phi n i j) - ppb p * (n i j * J phi n i j)
      - pkap p * (n i j * dy phi i j)) + n i j * D n i j)) by (intros; unfold rhs_n; ring).
  rewrite (mn_ext (fun i j => phi i j * rhs_o p ny nx dx phi n o i j)
    (fun i j => (pc1 p * (phi i j * coupling p ny phi n i j) - ppb p * (phi i j * J phi o i j))
       + phi i j * D o i j)) by (intros; unfold rhs_o; ring).
  rewrite (mn_ext (fun i j => (n i j - phi i j) * coupling p ny phi n i j)
    (fun i j => n i j * coupling p ny phi n i j - phi i j * coupling p ny phi n i j)) by (intros; ring).
  rewrite !mn_add, !mn_sub, !mn_scal, mn_jac_r, mn_jac_l. ring.
Qed.
(** the coupling as a sink *)
Lemma coupling_nonzonal phi n : pzon p = false ->
  mn (fun i j => (n i j - phi i j) * coupling p ny phi n i j) = - mn (fun i j => (n i j - phi i j) ^ 2).
Proof.
  intros Hz. transitivity (mn (fun i j => -1 * (n i j - phi i j) ^ 2)); [|rewrite mn_scal; ring].
  apply mn_ext. intros. unfold coupling. rewrite Hz. ring.
Qed.
Lemma gsum_yavg_ydev (c : nat -> R) f : gsum ny nx (fun i j => c j * ydev ny f i j) = 0.
Proof.
  rewrite gsum_swap. unfold gsum. rewrite (rsum_ext nx _ (fun _ => 0)); [apply rsum_zero|].
  intros j _. rewrite rsum_scal. rewrite rsum_ydev by assumption. ring.
Qed.
Lemma coupling_zonal phi n : pzon p = true ->
  mn (fun i j => (n i j - phi i j) * coupling p ny phi n i j) = - mn (fun i j => ydev ny (fsub n phi) i j ^ 2).
Proof.
  intros Hz.
  assert (Ey : forall i j, ydev ny phi i j - ydev ny n i j = - ydev ny (fsub n phi) i j).
  { intros i j. unfold ydev, yavg, fsub. rewrite rsum_sub. unfold Rdiv. ring. }
  transitivity (mn (fun i j => -1 * ydev ny (fsub n phi) i j ^ 2)
     - mn (fun i j => yavg ny (fsub n phi) j * ydev ny (fsub n phi) i j)).
  - rewrite <- mn_sub. apply mn_ext. intros i j _ _. unfold coupling. rewrite Hz, Ey.
    unfold ydev. generalize (yavg ny (fsub n phi) j). intros c. unfold fsub. ring.
  - rewrite mn_scal. unfold gmean at 2. rewrite gsum_yavg_ydev. unfold Rdiv. ring.
Qed.
End B.

(** ** what gradient_2d reports *)
Section Rep.
Variables (b : backend R) (p : par) (ny nx : nat) (dx : R).
Hypothesis Hy : (0 < ny)%nat.
Hypothesis Hx : (0 < nx)%nat.
Hypothesis Hd : dx <> 0.
Hypothesis Hb : backend_ok ny nx b.
Local Notation h := (hw_of b p dx true).
Local Notation mn := (gmean ny nx).

Lemma mn_ext2 f g : agree ny nx f g -> mn f = mn g.
Proof. intros H. now apply mn_ext. Qed.

Lemma hyper_nu0 f i j : pnu p = 0 -> hyper p ny nx dx f i j = 0.
Proof. intros E. unfold hyper. rewrite E. ring. Qed.

Lemma rep_dU_true phi n o : agree ny nx phi (invlap ny nx dx o) ->
  rep_dU p dx ny nx dx phi n o - U_rate p ny nx dx phi n o =
  (pkap p - 1) * mn (fun i j => n i j * cdy ny dx phi i j)
  + mn (fun i j => (n i j - o i j) * (hyper p ny nx dx o i j - hyper p ny nx dx phi i j)).
Proof.
  intros Hp.
  assert (E : U_rate p ny nx dx phi n o = U_rate p ny nx dx (invlap ny nx dx o) n o).
  { unfold U_rate. apply mn_ext. intros i j Hi Hj.
    rewrite (rhs_n_ext p ny nx dx Hy Hx Hd phi n (invlap ny nx dx o) n), (rhs_o_ext p ny nx dx Hy Hx Hd phi n o (invlap ny nx dx o) n o); auto using (SymFacts.agree_refl ny nx). }
  assert (E2 : mn (fun i j => n i j * cdy ny dx phi i j) = mn (fun i j => n i j * cdy ny dx (invlap ny nx dx o) i j)).
  { apply mn_ext. intros i j Hi Hj. now rewrite (cdy_ext ny nx dx Hy phi (invlap ny nx dx o)). }
  rewrite E, U_rate_eq by assumption. unfold rep_dU. rewrite <- E2.
  assert (E3 : mn (fun i j => (n i j - o i j) * (hyper p ny nx dx n i j - hyper p ny nx dx phi i j)) =
     mn (fun i j => (n i j - o i j) * (hyper p ny nx dx n i j - hyper p ny nx dx o i j)) +
     mn (fun i j => (n i j - o i j) * (hyper p ny nx dx o i j - hyper p ny nx dx phi i j))).
  { rewrite <- mn_add. apply mn_ext. intros. ring. }
  rewrite E3. ring.
Qed.

Lemma rep_dE_true phi n o :
  rep_dE p dx ny nx dx phi n - E_rate p ny nx dx phi n o =
  (pkap p - 1) * mn (fun i j => n i j * cdy ny dx phi i j)
  - pc1 p * (mn (fun i j => (n i j - phi i j) ^ 2) + mn (fun i j => (n i j - phi i j) * coupling p ny phi n i j))
  - 2 * mn (fun i j => n i j * hyper p ny nx dx n i j)
  + mn (fun i j => phi i j * (hyper p ny nx dx o i j + hyper p ny nx dx phi i j)).
Proof.
  rewrite E_rate_eq by assumption. unfold rep_dE. rewrite mn_sub.
  rewrite (mn_ext ny nx (fun i j => phi i j * (hyper p ny nx dx o i j + hyper p ny nx dx phi i j))
     (fun i j => phi i j * hyper p ny nx dx o i j + phi i j * hyper p ny nx dx phi i j)) by (intros; ring).
  rewrite mn_add. ring.
Qed.

Lemma c23 y n o phi dt : args_ok ny nx y n o -> agree ny nx phi (invlap ny nx dx o) ->
  pnu p = 0 -> pkap p = 1 ->
  exists lg d dn dd U dU, gradient_2d h y (Some (grid ny nx phi)) dt dx = (lg, Ok d) /\
    ns_get d "density" = Ok (grid ny nx dn) /\ ns_get d "omega" = Ok (grid ny nx dd) /\
    ns_get d "dU" = Ok (scal dU) /\
    get_enstrophy (Ok (grid ny nx n)) (Ok (grid ny nx o)) dx = Ok (scal U) /\
    forall e, get_enstrophy (Ok (grid ny nx (fadd n (fscale e dn)))) (Ok (grid ny nx (fadd o (fscale e dd)))) dx =
      Ok (scal (U + e * dU + e ^ 2 / 2 * mn (fun i j => (dn i j - dd i j) ^ 2))).
Proof.
  intros Ha Hp Hn Hk. destruct (c18 b p dx true ny nx dx Hy Hx Hd Hb y n o phi dt Ha) as (lg & d & E & En & Eo & _ & Et).
  destruct (Et eq_refl) as [_ EU].
  eexists lg, d, _, _, _, _. split; [exact E|]. split; [exact En|]. split; [exact Eo|]. split; [exact EU|].
  split; [apply get_enstrophy_grid|]. intros e. rewrite get_enstrophy_grid. do 2 f_equal.
  unfold fadd, fscale. rewrite U_expand. do 2 f_equal.
  pose proof (rep_dU_true phi n o Hp) as R. unfold U_rate in R. rewrite Hk in R.
  rewrite (mn_ext ny nx (fun i j => (n i j - o i j) * (hyper p ny nx dx o i j - hyper p ny nx dx phi i j)) (fun i j => 0 * n i j)) in R
    by (intros; rewrite !hyper_nu0 by assumption; ring).
  rewrite mn_scal in R. f_equal. lra.
Qed.

(** E(y + e dy) expands with the true rate *)
Lemma c24_rate y n o phi dt : args_ok ny nx y n o -> agree ny nx phi (invlap ny nx dx o) ->
  exists lg d dn dd dE, gradient_2d h y (Some (grid ny nx phi)) dt dx = (lg, Ok d) /\
    ns_get d "density" = Ok (grid ny nx dn) /\ ns_get d "omega" = Ok (grid ny nx dd) /\
    ns_get d "dE" = Ok (scal dE) /\
    (forall e, spec_energy ny nx dx (fadd n (fscale e dn)) (fadd o (fscale e dd)) =
      spec_energy ny nx dx n o + e * (mn (fun i j => n i j * dn i j) - mn (fun i j => phi i j * dd i j))
      + e ^ 2 * spec_energy ny nx dx dn dd) /\
    dE - (mn (fun i j => n i j * dn i j) - mn (fun i j => phi i j * dd i j)) =
      (pkap p - 1) * mn (fun i j => n i j * cdy ny dx phi i j)
      - pc1 p * (mn (fun i j => (n i j - phi i j) ^ 2) + mn (fun i j => (n i j - phi i j) * coupling p ny phi n i j))
      - 2 * mn (fun i j => n i j * hyper p ny nx dx n i j)
      + mn (fun i j => phi i j * (hyper p ny nx dx o i j + hyper p ny nx dx phi i j)).
Proof.
  intros Ha Hp. destruct (c18 b p dx true ny nx dx Hy Hx Hd Hb y n o phi dt Ha) as (lg & d & E & En & Eo & _ & Et).
  destruct (Et eq_refl) as [EE _].
  eexists lg, d, _, _, _. split; [exact E|]. split; [exact En|]. split; [exact Eo|]. split; [exact EE|].
  split.
  - intros e. rewrite E_expand by assumption. do 2 f_equal. f_equal. f_equal. apply mn_ext. intros i j Hi Hj. now rewrite Hp.
  - apply rep_dE_true.
Qed.

Lemma c24_ideal y n o phi dt : args_ok ny nx y n o -> agree ny nx phi (invlap ny nx dx o) ->
  pnu p = 0 -> pkap p = 1 -> pzon p = false ->
  exists lg d dn dd dE, gradient_2d h y (Some (grid ny nx phi)) dt dx = (lg, Ok d) /\
    ns_get d "density" = Ok (grid ny nx dn) /\ ns_get d "omega" = Ok (grid ny nx dd) /\
    ns_get d "dE" = Ok (scal dE) /\
    dE = mn (fun i j => n i j * dn i j) - mn (fun i j => phi i j * dd i j) /\
    (forall e, spec_energy ny nx dx (fadd n (fscale e dn)) (fadd o (fscale e dd)) =
      spec_energy ny nx dx n o + e * dE + e ^ 2 * spec_energy ny nx dx dn dd).
Proof.
  intros Ha Hp Hn Hk Hz. destruct (c24_rate y n o phi dt Ha Hp) as (lg & d & dn & dd & dE & E & En & Eo & EE & R & Dif).
  assert (X : dE = mn (fun i j => n i j * dn i j) - mn (fun i j => phi i j * dd i j)).
  { rewrite Hk, coupling_nonzonal in Dif by assumption.
    rewrite (mn_ext ny nx (fun i j => n i j * hyper p ny nx dx n i j) (fun i j => 0 * n i j)) in Dif
      by (intros; rewrite !hyper_nu0 by assumption; ring).
    rewrite (mn_ext ny nx (fun i j => phi i j * (hyper p ny nx dx o i j + hyper p ny nx dx phi i j)) (fun i j => 0 * n i j)) in Dif
      by (intros; rewrite !hyper_nu0 by assumption; ring).
    rewrite !mn_scal in Dif. lra. }
  exists lg, d, dn, dd, dE. repeat (split; [assumption|]). rewrite X. exact R.
Qed.
End Rep.
