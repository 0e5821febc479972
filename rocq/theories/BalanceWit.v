(** Concrete states used as witnesses for C05, C18-C26 and the refuted balances. *)
From Coq Require Import List Arith ZArith Lia Bool Reals Lra Psatz String.
From Verif Require Import Num NdArray NdFacts ModelGradients Spec GradFacts SumFacts LapFacts GradProps
  ModelArakawa ArakawaFacts Cplx DftFacts SpecFourier ModelPoisson PoissonFacts PoissonProps
  ModelProperties ModelHW ModelBackend SpecHW SpecPlasma HWFacts StepFacts RhsFacts SymFacts HWProps BalanceProps.
Import ListNotations.
Local Open Scope R_scope.

(** a keyword dictionary with the two fields *)
Definition kw (ny nx : nat) (n o : field) : ns R :=
  [("density", grid ny nx n); ("omega", grid ny nx o); ("age", scal 0)]%string.
Lemma kw_ok ny nx n o : args_ok ny nx (kw ny nx n o) n o.
Proof.
  constructor; try reflexivity.
  - intros k Hk Hi. cbn in Hk, Hi.
    repeat (destruct Hi as [<-|Hi]; [repeat (destruct Hk as [Hk|Hk]; [discriminate|]); exact Hk|]). exact Hi.
  - cbn. intros v E. injection E as <-. eauto.
Qed.
(** a plasma dictionary *)
Definition pl0 (ny nx : nat) (n o phi : field) (a : R) : ns R :=
  [("density", grid ny nx n); ("omega", grid ny nx o); ("phi", grid ny nx phi); ("age", scal a)]%string.
Lemma pl0_ok test ny nx n o phi a : plasma_ok test ny nx (pl0 ny nx n o phi a) n o phi a.
Proof.
  constructor; try reflexivity.
  - cbn. repeat constructor; cbn; intuition discriminate.
  - intros k Hk. left. exact Hk.
  - intros k v Hk. cbn in Hk. destruct Hk as [<-|[<-|[]]]; cbn; discriminate.
Qed.

Definition pW (c1 nu pb kap : R) (zon : bool) : par := mkPar 1 c1 nu pb kap zon.

Lemma lap5_zig ny i j : (0 < ny)%nat -> (j < 2)%nat -> lap5 ny 2 1 zig i j = -4 * zig i j.
Proof.
  intros Hy Hj. rewrite lap5_R. assert (j = 0%nat \/ j = 1%nat) as [-> | ->] by lia.
  - change (sh 2 0 1) with 1%nat. change (sh 2 0 (-1)) with 1%nat. unfold zig. field.
  - change (sh 2 1 1) with 0%nat. change (sh 2 1 (-1)) with 0%nat. unfold zig. field.
Qed.
Lemma cdy_zig ny i j : cdy ny 1 zig i j = 0.
Proof. rewrite cdy_R. unfold zig. destruct j; field. Qed.
Lemma zig_sq i j : zig i j * zig i j = 1.
Proof. unfold zig. destruct j; ring. Qed.
Lemma gmean_c ny nx c : (0 < ny)%nat -> (0 < nx)%nat -> gmean ny nx (fun _ _ => c) = c.
Proof. intros Hy Hx. unfold gmean. rewrite SumFacts.gsum_const. field. split; apply not_0_INR; lia. Qed.
Lemma hyper_zig c1 nu pb kap z ny i j : (0 < ny)%nat -> (j < 2)%nat ->
  hyper (pW c1 nu pb kap z) ny 2 1 zig i j = -4 * nu * zig i j.
Proof. intros Hy Hj. unfold hyper. cbn [pN pnu pW lap_iter]. rewrite lap5_zig by assumption. cbn [pow Nat.add]. ring. Qed.
Lemma hyper_c0 c1 nu pb kap z ny nx i j : hyper (pW c1 nu pb kap z) ny nx 1 (fconst 0) i j = 0.
Proof. unfold hyper. rewrite lap_iter_0. ring. Qed.

(** C24: with viscosity the reported dE is positive although the energy falls *)
Lemma c24_witness : exists p n o phi lg d dn dd dE,
  0 < pnu p /\ pkap p = 1 /\ pzon p = false /\
  args_ok 2 2 (kw 2 2 n o) n o /\ agree 2 2 phi (invlap 2 2 1 o) /\
  gradient_2d (hw_of np_backend p 1 true) (kw 2 2 n o) (Some (grid 2 2 phi)) 0 1 = (lg, Ok d) /\
  ns_get d "density" = Ok (grid 2 2 dn) /\ ns_get d "omega" = Ok (grid 2 2 dd) /\ ns_get d "dE" = Ok (scal dE) /\
  dE = 3 /\ gmean 2 2 (fun i j => n i j * dn i j) - gmean 2 2 (fun i j => phi i j * dd i j) = -5.
Proof.
  set (p := pW 1 1 1 1 false).
  assert (A0 : agree 2 2 (fconst 0) (invlap 2 2 1 (fconst 0))).
  { apply agree_sym, invlap_0; lia || lra. }
  destruct (c24_rate np_backend p 2 2 1 ltac:(lia) ltac:(lia) ltac:(lra) (or_introl eq_refl) (kw 2 2 zig (fconst 0)) zig (fconst 0) (fconst 0) 0
    (kw_ok _ _ _ _) A0) as (lg & d & dn & dd & dE & E & En & Eo & EE & _ & Dif).
  destruct (c18 np_backend p 1 true 2 2 1 ltac:(lia) ltac:(lia) ltac:(lra) (or_introl eq_refl) _ _ _ (fconst 0) 0 (kw_ok 2 2 zig (fconst 0)))
    as (lg' & d' & E' & En' & Eo' & _ & Et').
  rewrite E' in E. injection E as <- <-. destruct (Et' eq_refl) as [EE' _]. 
  assert (X : dE = 3).
  { rewrite EE' in EE. injection EE as <-. unfold rep_dE.
    rewrite (mn_ext 2 2 (fun i j => zig i j * cdy 2 1 (fconst 0) i j) (fun _ _ => 0)) by (intros; rewrite cdy_const; ring).
    rewrite (mn_ext 2 2 (fun i j => (zig i j - fconst 0 i j) ^ 2) (fun _ _ => 1)) by (intros; unfold fconst; rewrite <- (zig_sq i j); ring).
    rewrite (mn_ext 2 2 (fun i j => zig i j * hyper p 2 2 1 zig i j - fconst 0 i j * hyper p 2 2 1 (fconst 0) i j) (fun _ _ => -4)).
    2:{ intros i j _ Hj. unfold p. rewrite hyper_zig, hyper_c0 by (assumption || lia). unfold fconst.
        transitivity (-4 * (zig i j * zig i j)); [ring|rewrite zig_sq; ring]. }
    rewrite !gmean_c by lia. cbn. ring. }
  exists p, zig, (fconst 0), (fconst 0), lg', d', dn, dd, dE.
  split; [cbn; lra|]. split; [reflexivity|]. split; [reflexivity|].
  split; [apply kw_ok|]. split; [exact A0|]. split; [exact E'|]. split; [exact En|]. split; [exact Eo|]. split; [exact EE|].
  split; [exact X|].
  rewrite coupling_nonzonal in Dif by reflexivity.
  rewrite (mn_ext 2 2 (fun i j => zig i j * hyper p 2 2 1 zig i j) (fun _ _ => -4)) in Dif.
  2:{ intros i j _ Hj. unfold p. rewrite hyper_zig by (assumption || lia).
      transitivity (-4 * (zig i j * zig i j)); [ring|rewrite zig_sq; ring]. }
  assert (Z0 : forall g : field, gmean 2 2 (fun i j => fconst 0 i j * g i j) = 0)
    by (intros g; transitivity (gmean 2 2 (fun _ _ => 0)); [apply mn_ext; intros; unfold fconst; ring|apply gmean_c; lia]).
  rewrite (Z0 dd) in *. rewrite (Z0 (fun i j => hyper p 2 2 1 (fconst 0) i j + hyper p 2 2 1 (fconst 0) i j)) in Dif.
  rewrite !gmean_c in Dif by lia. rewrite X in Dif. change (pkap p) with 1 in Dif. change (pc1 p) with 1 in Dif. lra.
Qed.

(** zonal coupling: the reported dE has a sink -c1 mean((n-phi)^2), the true rate has none *)
Lemma c59_witness : exists p n o phi lg d dn dd dE,
  pnu p = 0 /\ pkap p = 1 /\ pzon p = true /\
  args_ok 2 2 (kw 2 2 n o) n o /\ agree 2 2 phi (invlap 2 2 1 o) /\
  gradient_2d (hw_of np_backend p 1 true) (kw 2 2 n o) (Some (grid 2 2 phi)) 0 1 = (lg, Ok d) /\
  ns_get d "density" = Ok (grid 2 2 dn) /\ ns_get d "omega" = Ok (grid 2 2 dd) /\ ns_get d "dE" = Ok (scal dE) /\
  dE = -1 /\ gmean 2 2 (fun i j => n i j * dn i j) - gmean 2 2 (fun i j => phi i j * dd i j) = 0.
Proof.
  set (p := pW 1 0 1 1 true).
  assert (A0 : agree 2 2 (fconst 0) (invlap 2 2 1 (fconst 0))).
  { apply agree_sym, invlap_0; lia || lra. }
  destruct (c24_rate np_backend p 2 2 1 ltac:(lia) ltac:(lia) ltac:(lra) (or_introl eq_refl) (kw 2 2 zig (fconst 0)) zig (fconst 0) (fconst 0) 0
    (kw_ok _ _ _ _) A0) as (lg & d & dn & dd & dE & E & En & Eo & EE & _ & Dif).
  destruct (c18 np_backend p 1 true 2 2 1 ltac:(lia) ltac:(lia) ltac:(lra) (or_introl eq_refl) _ _ _ (fconst 0) 0 (kw_ok 2 2 zig (fconst 0)))
    as (lg' & d' & E' & En' & Eo' & _ & Et').
  rewrite E' in E. injection E as <- <-. destruct (Et' eq_refl) as [EE' _]. 
  assert (X : dE = -1).
  { rewrite EE' in EE. injection EE as <-. unfold rep_dE.
    rewrite (mn_ext 2 2 (fun i j => zig i j * cdy 2 1 (fconst 0) i j) (fun _ _ => 0)) by (intros; rewrite cdy_const; ring).
    rewrite (mn_ext 2 2 (fun i j => (zig i j - fconst 0 i j) ^ 2) (fun _ _ => 1)) by (intros; unfold fconst; rewrite <- (zig_sq i j); ring).
    rewrite (mn_ext 2 2 (fun i j => zig i j * hyper p 2 2 1 zig i j - fconst 0 i j * hyper p 2 2 1 (fconst 0) i j) (fun _ _ => 0)).
    2:{ intros i j _ Hj. rewrite !hyper_nu0 by reflexivity. ring. }
    rewrite !gmean_c by lia. cbn. ring. }
  exists p, zig, (fconst 0), (fconst 0), lg', d', dn, dd, dE.
  split; [reflexivity|]. split; [reflexivity|]. split; [reflexivity|].
  split; [apply kw_ok|]. split; [exact A0|]. split; [exact E'|]. split; [exact En|]. split; [exact Eo|]. split; [exact EE|].
  split; [exact X|].
  rewrite (mn_ext 2 2 (fun i j => (zig i j - fconst 0 i j) * coupling p 2 (fconst 0) zig i j) (fun _ _ => 0)) in Dif.
  2:{ intros i j _ _. unfold coupling, ydev, yavg, fconst, zig. cbn. destruct j; field. }
  rewrite (mn_ext 2 2 (fun i j => zig i j * hyper p 2 2 1 zig i j) (fun _ _ => 0)) in Dif
    by (intros; rewrite hyper_nu0 by reflexivity; ring).
  rewrite (mn_ext 2 2 (fun i j => (zig i j - fconst 0 i j) ^ 2) (fun _ _ => 1)) in Dif by (intros; unfold fconst; rewrite <- (zig_sq i j); ring).
  assert (Z0 : forall g : field, gmean 2 2 (fun i j => fconst 0 i j * g i j) = 0)
    by (intros g; transitivity (gmean 2 2 (fun _ _ => 0)); [apply mn_ext; intros; unfold fconst; ring|apply gmean_c; lia]).
  rewrite (Z0 dd) in *. rewrite (Z0 (fun i j => hyper p 2 2 1 (fconst 0) i j + hyper p 2 2 1 (fconst 0) i j)) in Dif.
  rewrite !gmean_c in Dif by lia. rewrite X in Dif. change (pkap p) with 1 in Dif. change (pc1 p) with 1 in Dif. lra.
Qed.

(** viscosity: the reported dU is positive although the enstrophy falls *)
Lemma c58_witness : exists p n o phi lg d dn dd dU,
  0 < pnu p /\ pkap p = 1 /\
  args_ok 1 2 (kw 1 2 n o) n o /\ agree 1 2 phi (invlap 1 2 1 o) /\
  gradient_2d (hw_of np_backend p 1 true) (kw 1 2 n o) (Some (grid 1 2 phi)) 0 1 = (lg, Ok d) /\
  ns_get d "density" = Ok (grid 1 2 dn) /\ ns_get d "omega" = Ok (grid 1 2 dd) /\ ns_get d "dU" = Ok (scal dU) /\
  0 < dU /\ gmean 1 2 (fun i j => (n i j - o i j) * (dn i j - dd i j)) = -4.
Proof.
  set (p := pW 1 1 1 1 false). set (c := - (/ PI ^ 2)). set (phi := fun i j : nat => c * zig i j).
  pose proof PI_RGT_0 as HPI.
  assert (Hc : c < 0). { unfold c. assert (0 < / PI ^ 2) by (apply Rinv_0_lt_compat, pow_lt; assumption). lra. }
  assert (A0 : agree 1 2 phi (invlap 1 2 1 zig)).
  { intros i j Hi Hj. rewrite invlap_rmult, rmult_zig by (assumption || lia || lra).
    unfold inv_sym. cbn [is00 Nat.eqb andb]. rewrite lam_12. unfold phi, c. rewrite pow_1. field. lra. }
  destruct (c18 np_backend p 1 true 1 2 1 ltac:(lia) ltac:(lia) ltac:(lra) (or_introl eq_refl) _ _ _ phi 0 (kw_ok 1 2 (fconst 0) zig))
    as (lg' & d' & E' & En' & Eo' & _ & Et').
  destruct (Et' eq_refl) as [_ EU].
  assert (Hph : forall i j, (j < 2)%nat -> hyper p 1 2 1 phi i j = -4 * c * zig i j).
  { intros i j Hj. unfold hyper. cbn [pN pnu p pW lap_iter]. transitivity (1 * (c * lap5 1 2 1 zig i j)).
    - unfold phi. rewrite !lap5_R. cbn. field.
    - rewrite lap5_zig by (assumption || lia). ring. }
  assert (G0 : gmean 1 2 (fun i j => fconst 0 i j * cdy 1 1 phi i j) = 0).
  { transitivity (gmean 1 2 (fun _ _ => 0)); [apply mn_ext; intros; unfold fconst; ring|apply gmean_c; lia]. }
  eexists p, (fconst 0), zig, phi, lg', d', _, _, _.
  split; [cbn; lra|]. split; [reflexivity|].
  split; [apply kw_ok|]. split; [exact A0|]. split; [exact E'|]. split; [exact En'|]. split; [exact Eo'|]. split; [exact EU|].
  pose proof (rep_dU_true p 1 2 1 ltac:(lia) ltac:(lia) ltac:(lra) phi (fconst 0) zig A0) as R. rewrite G0 in R.
  assert (X : rep_dU p 1 1 2 1 phi (fconst 0) zig = -4 * c).
  { unfold rep_dU. rewrite G0.
    rewrite (mn_ext 1 2 (fun i j => (fconst 0 i j - zig i j) * (hyper p 1 2 1 (fconst 0) i j - hyper p 1 2 1 phi i j)) (fun _ _ => - 4 * c)).
    2:{ intros i j _ Hj. rewrite Hph by assumption. unfold p. rewrite hyper_c0. unfold fconst.
        transitivity (-4 * c * (zig i j * zig i j)); [ring|rewrite zig_sq; ring]. }
    rewrite gmean_c by lia. ring. }
  split; [lra|]. unfold U_rate in R. 
  rewrite (mn_ext 1 2 (fun i j => (fconst 0 i j - zig i j) * (hyper p 1 2 1 zig i j - hyper p 1 2 1 phi i j)) (fun _ _ => 4 - 4 * c)) in R.
  2:{ intros i j _ Hj. rewrite Hph by assumption. unfold p. rewrite hyper_zig by (assumption || lia). unfold fconst.
      transitivity ((4 - 4 * c) * (zig i j * zig i j)); [ring|rewrite zig_sq; ring]. }
  rewrite gmean_c in R by lia. rewrite X in R. change (pkap p) with 1 in R. lra.
Qed.

(** kappa: with all physics switched off nothing changes, yet rates are reported *)
Definition wcos : field := fun i _ => match i with 0%nat => 1 | 2%nat => -1 | _ => 0 end.
Definition wsin : field := fun i _ => match i with 1%nat => 1 | 3%nat => -1 | _ => 0 end.
Lemma c60_witness : exists p n o phi lg d dn dd dE dU,
  pnu p = 0 /\ pkap p = 0 /\ pzon p = false /\
  args_ok 4 1 (kw 4 1 n o) n o /\ agree 4 1 phi (invlap 4 1 1 o) /\
  gradient_2d (hw_of np_backend p 1 true) (kw 4 1 n o) (Some (grid 4 1 phi)) 0 1 = (lg, Ok d) /\
  ns_get d "density" = Ok (grid 4 1 dn) /\ ns_get d "omega" = Ok (grid 4 1 dd) /\
  ns_get d "dE" = Ok (scal dE) /\ ns_get d "dU" = Ok (scal dU) /\
  dE = 1 / 2 /\ dU = 1 / 2 /\ agree 4 1 dn (fconst 0) /\ agree 4 1 dd (fconst 0).
Proof.
  set (p := pW 0 0 0 0 false). set (o := fun i j : nat => rmult 4 1 (fun k l => lam 4 1 k l ^ 1) wcos i j).
  assert (G0 : gmean 4 1 wcos = 0) by (unfold gmean, gsum, wcos; cbn; field).
  assert (A0 : agree 4 1 wcos (invlap 4 1 1 o)).
  { intros i j Hi Hj. rewrite invlap_rmult by (lia || lra). unfold o. rewrite inv_lam by (assumption || lia). rewrite G0. ring. }
  destruct (c18 np_backend p 1 true 4 1 1 ltac:(lia) ltac:(lia) ltac:(lra) (or_introl eq_refl) _ _ _ wcos 0 (kw_ok 4 1 wsin o))
    as (lg' & d' & E' & En' & Eo' & _ & Et').
  destruct (Et' eq_refl) as [EE EU].
  assert (Z : forall f, gmean 4 1 (fun i j => 0 * f i j) = 0) by (intros f; rewrite mn_scal; ring).
  assert (Hg : gmean 4 1 (fun i j => wsin i j * cdy 4 1 wcos i j) = - (1 / 2)).
  { rewrite (mn_ext 4 1 _ (fun i j => wsin i j * ((wcos (sh 4 i 1) j - wcos (sh 4 i (-1)) j) / 2))).
    - unfold gmean, gsum. cbn [rsum]. change (sh 4 0 1) with 1%nat. change (sh 4 0 (-1)) with 3%nat. change (sh 4 1 1) with 2%nat. change (sh 4 1 (-1)) with 0%nat. change (sh 4 2 1) with 3%nat. change (sh 4 2 (-1)) with 1%nat. change (sh 4 3 1) with 0%nat. change (sh 4 3 (-1)) with 2%nat.
      unfold wsin, wcos. cbn. field.
    - intros. rewrite cdy_R. f_equal. unfold Rdiv. f_equal. f_equal. ring. }
  eexists p, wsin, o, wcos, lg', d', _, _, _, _.
  split; [reflexivity|]. split; [reflexivity|]. split; [reflexivity|].
  split; [apply kw_ok|]. split; [exact A0|]. split; [exact E'|]. split; [exact En'|]. split; [exact Eo'|].
  split; [exact EE|]. split; [exact EU|].
  split; [|split; [|split]].
  - unfold rep_dE. rewrite Hg.
    rewrite (mn_ext 4 1 (fun i j => wsin i j * hyper p 4 1 1 wsin i j - wcos i j * hyper p 4 1 1 wcos i j) (fun i j => 0 * wsin i j)).
    2:{ intros. rewrite !hyper_nu0 by reflexivity. ring. }
    rewrite Z. cbn [pc1 p pW]. lra.
  - unfold rep_dU. rewrite Hg.
    rewrite (mn_ext 4 1 (fun i j => (wsin i j - o i j) * (hyper p 4 1 1 wsin i j - hyper p 4 1 1 wcos i j)) (fun i j => 0 * wsin i j)).
    2:{ intros. rewrite !hyper_nu0 by reflexivity. ring. }
    rewrite Z. lra.
  - intros i j _ _. unfold rhs_n. rewrite hyper_nu0 by reflexivity. cbn [pc1 ppb pkap p pW]. unfold fconst. ring.
  - intros i j _ _. unfold rhs_o. rewrite hyper_nu0 by reflexivity. cbn [pc1 ppb pkap p pW]. unfold fconst. ring.
Qed.
