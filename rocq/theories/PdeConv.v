(** Convergence of the semi-discrete system to the partial differential
    equations: energy estimate for the error. *)
From Coquelicot Require Import Coquelicot.
From Coq Require Import List Arith ZArith Lia Bool Reals Lra Psatz.
From Verif Require Import Num NdArray NdFacts Spec GradFacts SumFacts LapFacts Cplx DftFacts SpecFourier PoissonFacts SpecHW SpecPlasma SpecConv HWFacts StepFacts
  RhsFacts SpecSmooth SmoothFacts SmoothStencil SmoothBracket OdeExist NormFacts SymbolFacts PdeStab SpecPde.
Import ListNotations.
Local Open Scope R_scope.

Lemma rsum_der n (f : nat -> R -> R) f' t : (forall i, (i < n)%nat -> derivable_pt_lim (f i) t (f' i)) ->
  derivable_pt_lim (fun s => rsum n (fun i => f i s)) t (rsum n f').
Proof.
  induction n as [|n IH]; intros H; cbn [rsum]; [apply dpl_const|]. apply dpl_plus; [apply IH; intros; apply H; lia|apply H; lia].
Qed.
Lemma ip_der ny nx (e : R -> field) (e' : field) t : (forall i j, (i < ny)%nat -> (j < nx)%nat -> derivable_pt_lim (fun s => e s i j) t (e' i j)) ->
  derivable_pt_lim (fun s => ip ny nx (e s) (e s)) t (2 * ip ny nx (e t) e').
Proof.
  intros H. unfold ip, inner, gsum.
  apply dpl_eq with (/ (INR ny * INR nx) * rsum ny (fun i => rsum nx (fun j => e' i j * e t i j + e t i j * e' i j))).
  - apply (dpl_ext (fun s => / (INR ny * INR nx) * rsum ny (fun i => rsum nx (fun j => e s i j * e s i j)))); [intros; unfold Rdiv; ring|].
    apply dpl_scal. apply (rsum_der ny (fun i s => rsum nx (fun j => e s i j * e s i j)) (fun i => rsum nx (fun j => e' i j * e t i j + e t i j * e' i j))). intros i Hi. apply (rsum_der nx (fun j s => e s i j * e s i j) (fun j => e' i j * e t i j + e t i j * e' i j)). intros j Hj.
    apply (derivable_pt_lim_mult (fun s => e s i j) (fun s => e s i j)); now apply H.
  - rewrite (rsum_ext ny _ (fun i => 2 * rsum nx (fun j => e t i j * e' i j))).
    + rewrite rsum_scal. unfold Rdiv. ring.
    + intros i _. rewrite <- rsum_scal. apply rsum_ext. intros. ring.
Qed.

(** the constant of the estimate *)
Definition Ag (p : par) (M g : R) : R := Rabs (pc1 p) + (Rabs (pc1 p) + Rabs (ppb p) * (2 * M) + Rabs (pkap p)) * (1 + / g + pcon g M) + err_n p M M + err_o p M M M.

Section E.
Variables (p : par) (ny nx : nat) (h M : R).
Hypothesis Hy : (0 < ny)%nat.
Hypothesis Hx : (0 < nx)%nat.
Hypothesis Hh : 0 < h.
Hypothesis Hnu : 0 <= pnu p.
Local Notation rms := (nm ny nx).
Local Notation grn := (gn ny nx h).
Local Notation J := (jacobian ny nx h).
Local Notation per := (periodic (INR ny * h) (INR nx * h)).
Local Notation H2 := (h ^ 2).
Let g := gap ny nx h.
Let Acon := Ag p M g.

Variables (u v w : pfield) (P Q O : nat -> nat -> pfield) (PU QU : pfield) (c : R).
Hypothesis Su : smooth (6 + 2 * pN p) M u P.
Hypothesis Sv : smooth (6 + 2 * pN p) M v Q.
Hypothesis Sw : smooth (6 + 2 * pN p) M w O.
Hypothesis Pu : per u.
Hypothesis Pv : per v.
Hypothesis Pw : per w.
Hypothesis Hz : pzon p = true -> antider_y u PU /\ antider_y v QU.
Hypothesis Hpo : forall y x, dlap P 0%nat 0%nat y x = w y x - c.
Hypothesis Hme : is_RInt (fun x => RInt (fun y => u y x) 0 (INR ny * h)) 0 (INR nx * h) 0.
Variables (n o : field).
Let phi := invlap ny nx h o.
Let en := fsub n (sample h v).
Let eo := fsub o (sample h w).
Let psi := fsub phi (sample h u).
Let dn : field := fun i j => rhs_n p ny nx h phi n i j - pde_n p (INR ny * h) P Q PU QU (INR i * h) (INR j * h).
Let do_ : field := fun i j => rhs_o p ny nx h phi n o i j - pde_o p (INR ny * h) P Q O PU QU (INR i * h) (INR j * h).
Let hn : h <> 0. Proof. lra. Qed.

Lemma psi_bd : rms psi <= (1 + / g) * rms eo + pcon g M * H2 /\ grn psi <= (1 + / g) * rms eo + pcon g M * H2.
Proof.
  assert (S6 : smooth 6 M u P) by (eapply smooth_le; [|exact Su]; lia).
  destruct (poisson_err ny nx h Hy Hx Hh M u P w c S6 Pu Hpo Hme) as [R1 R2].
  assert (A : agree ny nx psi (fadd (invlap ny nx h eo) (fsub (invlap ny nx h (sample h w)) (sample h u)))).
  { intros i j Hi Hj. unfold psi, phi, fadd, fsub.
    assert (E : invlap ny nx h eo i j = invlap ny nx h (fadd (fscale 1 o) (fscale (-1) (sample h w))) i j).
    { apply invlap_ext; try assumption. intros a b _ _. unfold eo, fsub, fadd, fscale. ring. }
    rewrite E, (invlap_lin ny nx h Hy Hx hn). ring. }
  pose proof (invlap_nm ny nx h Hy Hx Hh eo) as B1. pose proof (invlap_gn ny nx h Hy Hx Hh eo) as B2. fold g in B1, B2, R1, R2.
  pose proof (nm_pos ny nx eo). split.
  - rewrite (nm_ext ny nx _ _ A). eapply Rle_trans; [apply nm_add; assumption|]. lra.
  - rewrite (gn_ext ny nx h _ _ A). eapply Rle_trans; [apply gn_add; assumption|]. lra.
Qed.
Lemma jac_diff f f' k k' i j : J f k i j - J f' k' i j = J f (fsub k k') i j + J (fsub f f') k' i j.
Proof.
  assert (E1 : J f (fsub k k') i j = J f (fadd (fscale 1 k) (fscale (-1) k')) i j).
  { apply jac_ext; auto; intros a b _ _; unfold fsub, fadd, fscale; ring. }
  assert (E2 : J (fsub f f') k' i j = J (fadd (fscale 1 f) (fscale (-1) f')) k' i j).
  { apply jac_ext; auto; intros a b _ _; unfold fsub, fadd, fscale; ring. }
  rewrite E1, E2, (jac_lin_r ny nx h hn), (jac_lin_l ny nx h hn). ring.
Qed.
Lemma coupling_diff i j : coupling p ny phi n i j - coupling p ny (sample h u) (sample h v) i j = coupling p ny psi en i j.
Proof.
  assert (E : forall f g, ydev ny (fsub f g) i j = ydev ny f i j - ydev ny g i j).
  { intros f k. unfold ydev, yavg, fsub. rewrite rsum_sub. unfold Rdiv. ring. }
  unfold coupling. destruct (pzon p); [|unfold psi, en, fsub; ring]. unfold psi, en. rewrite !E. ring.
Qed.
Lemma hyper_diff f k i j : hyper p ny nx h f i j - hyper p ny nx h k i j = hyper p ny nx h (fadd (fscale 1 f) (fscale (-1) k)) i j.
Proof. rewrite hyper_lin by assumption. ring. Qed.
Lemma cdy_diff f k i j : cdy ny h f i j - cdy ny h k i j = cdy ny h (fsub f k) i j.
Proof. rewrite !cdy_R. unfold fsub. field. exact hn. Qed.
Lemma fsub_lin f k : agree ny nx (fadd (fscale 1 f) (fscale (-1) k)) (fsub f k).
Proof. intros i j _ _. unfold fadd, fscale, fsub. ring. Qed.

Let tn : field := fun i j => rhs_n p ny nx h (sample h u) (sample h v) i j - pde_n p (INR ny * h) P Q PU QU (INR i * h) (INR j * h).
Let to : field := fun i j => rhs_o p ny nx h (sample h u) (sample h v) (sample h w) i j - pde_o p (INR ny * h) P Q O PU QU (INR i * h) (INR j * h).
Lemma HM : 0 <= M. Proof. eapply (smooth_pos ny nx Hy Hx); exact Su. Qed.
Lemma zerr_pos : 0 <= zerr p M M.
Proof. pose proof HM. unfold zerr. destruct (pzon p); [|lra]. apply Rmult_le_pos; [|lra]. apply Rmult_le_pos; [apply Rabs_pos|lra]. Qed.
Lemma dterm_pos : 0 <= Rabs (pnu p) * (INR (pN p) * 2 ^ pN p / 12 * M).
Proof. pose proof HM. apply Rmult_le_pos; [apply Rabs_pos|]. apply Rmult_le_pos; [|assumption]. apply Rmult_le_pos; [|lra]. apply Rmult_le_pos; [apply pos_INR|apply pow_le; lra]. Qed.
Lemma err_n_pos : 0 <= err_n p M M.
Proof.
  pose proof HM. unfold err_n. pose proof zerr_pos. pose proof dterm_pos. pose proof (Rabs_pos (ppb p)). pose proof (Rabs_pos (pkap p)).
  assert (0 <= 4 * M * M) by nra. assert (0 <= Rabs (ppb p) * (4 * M * M)) by nra. assert (0 <= Rabs (pkap p) * (M / 6)) by (apply Rmult_le_pos; lra). lra.
Qed.
Lemma err_o_pos : 0 <= err_o p M M M.
Proof.
  pose proof HM. unfold err_o. pose proof zerr_pos. pose proof dterm_pos. pose proof (Rabs_pos (ppb p)).
  assert (0 <= 4 * M * M) by nra. assert (0 <= Rabs (ppb p) * (4 * M * M)) by nra. lra.
Qed.
Lemma tn_bd : rms tn <= err_n p M M * H2.
Proof.
  apply nm_bd; [assumption|assumption|apply Rmult_le_pos; [apply err_n_pos|nra]|]. intros i j Hi Hj.
  apply (rhs_n_smooth ny nx h Hy Hx Hh p M M u v P Q PU QU i j); auto; (eapply smooth_le; [|eassumption]; lia).
Qed.
Lemma to_bd : rms to <= err_o p M M M * H2.
Proof.
  apply nm_bd; [assumption|assumption|apply Rmult_le_pos; [apply err_o_pos|nra]|]. intros i j Hi Hj.
  apply (rhs_o_smooth ny nx h Hy Hx Hh p M M M u v w P Q O PU QU i j); auto; (eapply smooth_le; [|eassumption]; lia).
Qed.
Lemma ip_jac0 f k : ip ny nx k (J f k) = 0.
Proof. unfold ip. rewrite inner_jac_r by (try assumption; exact hn). unfold Rdiv. ring. Qed.
Lemma ip_lin5 e a b c1 c2 c3 f1 f2 f3 f4 f5 f6 :
  ip ny nx e (fun i j => a * f1 i j - b * (f2 i j + f3 i j) - c1 * f4 i j + c2 * f5 i j + c3 * f6 i j) =
  a * ip ny nx e f1 - b * (ip ny nx e f2 + ip ny nx e f3) - c1 * ip ny nx e f4 + c2 * ip ny nx e f5 + c3 * ip ny nx e f6.
Proof.
  rewrite (ip_ext ny nx e e _ (fadd (fscale a f1) (fadd (fscale (- b) (fadd f2 f3)) (fadd (fscale (- c1) f4) (fadd (fscale c2 f5) (fscale c3 f6))))));
    [|intros i j _ _; reflexivity|intros i j _ _; unfold fadd, fscale; ring].
  rewrite !ip_add, !ip_scale, !ip_add. ring.
Qed.
Lemma abs_term c0 x B : 0 <= B -> Rabs x <= B -> c0 * x <= Rabs c0 * B.
Proof. intros HB H. eapply Rle_trans; [apply Rle_abs|]. rewrite Rabs_mult. apply Rmult_le_compat_l; [apply Rabs_pos|exact H]. Qed.

Lemma work_n : ip ny nx en dn <= Rabs (pc1 p) * (rms en * (rms psi + rms en)) + Rabs (ppb p) * (rms en * (2 * M * grn psi))
   + Rabs (pkap p) * (rms en * grn psi) + rms en * (err_n p M M * H2).
Proof.
  pose proof HM as PM. pose proof (nm_pos ny nx en) as Pe. pose proof (nm_pos ny nx psi) as Pp. assert (Pg : 0 <= grn psi) by apply sqrt_pos.
  rewrite (ip_ext ny nx en en dn (fun i j => pc1 p * coupling p ny psi en i j - ppb p * (J phi en i j + J psi (sample h v) i j)
     - pkap p * cdy ny h psi i j + 1 * hyper p ny nx h (fadd (fscale 1 n) (fscale (-1) (sample h v))) i j + 1 * tn i j)).
  2:{ intros i j _ _; reflexivity. }
  2:{ intros i j Hi Hj. unfold dn, tn, rhs_n. rewrite <- coupling_diff, <- hyper_diff. unfold psi, en. rewrite <- jac_diff, <- cdy_diff. ring. }
  rewrite ip_lin5, ip_jac0.
  rewrite (ip_ext ny nx en en (hyper p ny nx h (fadd (fscale 1 n) (fscale (-1) (sample h v)))) (hyper p ny nx h en));
    [|intros i j _ _; reflexivity|apply hyper_ext; try assumption; apply fsub_lin].
  pose proof (hyper_ip ny nx h Hy Hx Hh p en Hnu) as Hv.
  assert (T1 : pc1 p * ip ny nx en (coupling p ny psi en) <= Rabs (pc1 p) * (rms en * (rms psi + rms en))).
  { apply abs_term; [apply Rmult_le_pos; lra|]. eapply Rle_trans; [apply ip_cs; assumption|]. apply Rmult_le_compat_l; [exact Pe|]. now apply coupling_rms. }
  assert (T2 : (- ppb p) * ip ny nx en (J psi (sample h v)) <= Rabs (- ppb p) * (rms en * (2 * M * grn psi))).
  { apply abs_term; [apply Rmult_le_pos; [exact Pe|]; apply Rmult_le_pos; lra|]. eapply Rle_trans; [apply ip_cs; assumption|]. apply Rmult_le_compat_l; [exact Pe|].
    apply (jac_bound ny nx h Hy Hx Hh M v Q); [eapply smooth_le; [|exact Sv]; lia|exact Pv]. }
  assert (T3 : (- pkap p) * ip ny nx en (cdy ny h psi) <= Rabs (- pkap p) * (rms en * grn psi)).
  { apply abs_term; [apply Rmult_le_pos; lra|]. eapply Rle_trans; [apply ip_cs; assumption|]. apply Rmult_le_compat_l; [exact Pe|]. now apply cdy_bound. }
  assert (T4 : ip ny nx en tn <= rms en * (err_n p M M * H2)).
  { eapply Rle_trans; [apply ip_bd; assumption|]. apply Rmult_le_compat_l; [exact Pe|exact tn_bd]. }
  rewrite Rabs_Ropp in T2, T3. lra.
Qed.
Lemma work_o : ip ny nx eo do_ <= Rabs (pc1 p) * (rms eo * (rms psi + rms en)) + Rabs (ppb p) * (rms eo * (2 * M * grn psi))
   + rms eo * (err_o p M M M * H2).
Proof.
  pose proof HM as PM. pose proof (nm_pos ny nx en) as Pn. pose proof (nm_pos ny nx eo) as Pe. pose proof (nm_pos ny nx psi) as Pp. assert (Pg : 0 <= grn psi) by apply sqrt_pos.
  rewrite (ip_ext ny nx eo eo do_ (fun i j => pc1 p * coupling p ny psi en i j - ppb p * (J phi eo i j + J psi (sample h w) i j)
     - 0 * cdy ny h psi i j + 1 * hyper p ny nx h (fadd (fscale 1 o) (fscale (-1) (sample h w))) i j + 1 * to i j)).
  2:{ intros i j _ _; reflexivity. }
  2:{ intros i j Hi Hj. unfold do_, to, rhs_o. rewrite <- coupling_diff, <- hyper_diff. unfold psi, eo. rewrite <- jac_diff. ring. }
  rewrite ip_lin5, ip_jac0.
  rewrite (ip_ext ny nx eo eo (hyper p ny nx h (fadd (fscale 1 o) (fscale (-1) (sample h w)))) (hyper p ny nx h eo));
    [|intros i j _ _; reflexivity|apply hyper_ext; try assumption; apply fsub_lin].
  pose proof (hyper_ip ny nx h Hy Hx Hh p eo Hnu) as Hv.
  assert (T1 : pc1 p * ip ny nx eo (coupling p ny psi en) <= Rabs (pc1 p) * (rms eo * (rms psi + rms en))).
  { apply abs_term; [apply Rmult_le_pos; lra|]. eapply Rle_trans; [apply ip_cs; assumption|]. apply Rmult_le_compat_l; [exact Pe|]. now apply coupling_rms. }
  assert (T2 : (- ppb p) * ip ny nx eo (J psi (sample h w)) <= Rabs (- ppb p) * (rms eo * (2 * M * grn psi))).
  { apply abs_term; [apply Rmult_le_pos; [exact Pe|]; apply Rmult_le_pos; lra|]. eapply Rle_trans; [apply ip_cs; assumption|]. apply Rmult_le_compat_l; [exact Pe|].
    apply (jac_bound ny nx h Hy Hx Hh M w O); [eapply smooth_le; [|exact Sw]; lia|exact Pw]. }
  assert (T4 : ip ny nx eo to <= rms eo * (err_o p M M M * H2)).
  { eapply Rle_trans; [apply ip_bd; assumption|]. apply Rmult_le_compat_l; [exact Pe|exact to_bd]. }
  rewrite Rabs_Ropp in T2. lra.
Qed.
Lemma pcon_pos : 0 <= pcon g M.
Proof.
  pose proof HM. pose proof (gap_pos ny nx h Hy Hx Hh) as G. fold g in G. assert (0 < / g) by (now apply Rinv_0_lt_compat). unfold pcon.
  assert (0 <= (1 + / g) * (M / 6)) by (apply Rmult_le_pos; lra). lra.
Qed.
Lemma Acon_pos : 0 <= Acon.
Proof.
  pose proof HM. pose proof (gap_pos ny nx h Hy Hx Hh) as G. fold g in G. assert (0 < / g) by (now apply Rinv_0_lt_compat). unfold Acon, Ag.
  pose proof pcon_pos. pose proof err_n_pos. pose proof err_o_pos. pose proof (Rabs_pos (pc1 p)). pose proof (Rabs_pos (ppb p)). pose proof (Rabs_pos (pkap p)).
  assert (0 <= Rabs (ppb p) * (2 * M)) by (apply Rmult_le_pos; lra).
  assert (0 <= (Rabs (pc1 p) + Rabs (ppb p) * (2 * M) + Rabs (pkap p)) * (1 + / g + pcon g M)) by (apply Rmult_le_pos; lra). lra.
Qed.
Lemma work : 2 * ip ny nx en dn + 2 * ip ny nx eo do_ <= 5 * Acon * (ip ny nx en en + ip ny nx eo eo) + 2 * Acon * H2 ^ 2.
Proof.
  pose proof HM as PM. pose proof work_n as Wn. pose proof work_o as Wo. destruct psi_bd as [B1 B2].
  pose proof (nm_pos ny nx en) as Pn. pose proof (nm_pos ny nx eo) as Pe. rewrite <- !(nm_sq ny nx Hy Hx).
  pose proof (gap_pos ny nx h Hy Hx Hh) as G. fold g in G. assert (IG : 0 < / g) by (now apply Rinv_0_lt_compat).
  pose proof pcon_pos as PC. pose proof err_n_pos as E1. pose proof err_o_pos as E2.
  pose proof (Rabs_pos (pc1 p)) as C1. pose proof (Rabs_pos (ppb p)) as C2. pose proof (Rabs_pos (pkap p)) as C3.
  assert (HH : 0 <= H2) by nra. pose proof (nm_pos ny nx psi) as Pp. assert (Pg : 0 <= grn psi) by apply sqrt_pos.
  assert (C2M : 0 <= Rabs (ppb p) * (2 * M)) by (apply Rmult_le_pos; lra).
  pose proof Acon_pos as PA. unfold Acon, Ag in *.
  set (a := rms en) in *. set (b := rms eo) in *. set (HH2 := H2) in *. set (k1 := Rabs (pc1 p)) in *. set (k3 := Rabs (pkap p)) in *.
  set (k2 := Rabs (ppb p) * (2 * M)) in *. set (q := 1 + / g) in *. set (r := pcon g M) in *. set (x1 := err_n p M M) in *. set (x2 := err_o p M M M) in *.
  set (y1 := rms psi) in *. set (y2 := grn psi) in *.
  replace (Rabs (ppb p) * (a * (2 * M * y2))) with (k2 * (a * y2)) in Wn by (unfold k2; ring).
  replace (Rabs (ppb p) * (b * (2 * M * y2))) with (k2 * (b * y2)) in Wo by (unfold k2; ring).
  set (S := k1 + k2 + k3) in *. set (L := q * b + r * HH2) in *.
  assert (Hq : 1 <= q) by (unfold q; lra).
  assert (L0 : 0 <= L) by (unfold L; apply Rplus_le_le_0_compat; apply Rmult_le_pos; lra).
  assert (S0 : 0 <= S) by (unfold S; lra).
  (* L <= (q + r) (b + H) *)
  assert (L1 : L <= (q + r) * (b + HH2)) by (unfold L; nra).
  assert (Wn' : ip ny nx en dn <= k1 * a ^ 2 + S * a * ((q + r) * (b + HH2)) + x1 * a * HH2).
  { apply Rle_trans with (1 := Wn). 
    assert (k1 * (a * (y1 + a)) <= k1 * a ^ 2 + k1 * a * L) by (assert (a * y1 <= a * L) by (now apply Rmult_le_compat_l); nra).
    assert (k2 * (a * y2) <= k2 * a * L) by (assert (a * y2 <= a * L) by (now apply Rmult_le_compat_l); nra).
    assert (k3 * (a * y2) <= k3 * a * L) by (assert (a * y2 <= a * L) by (now apply Rmult_le_compat_l); nra).
    assert (S * a * L <= S * a * ((q + r) * (b + HH2))) by (apply Rmult_le_compat_l; [now apply Rmult_le_pos|exact L1]).
    unfold S in *. nra. }
  assert (Wo' : ip ny nx eo do_ <= k1 * (a * b) + S * b * ((q + r) * (b + HH2)) + x2 * b * HH2).
  { apply Rle_trans with (1 := Wo). 
    assert (k1 * (b * (y1 + a)) <= k1 * (a * b) + k1 * b * L) by (assert (b * y1 <= b * L) by (now apply Rmult_le_compat_l); nra).
    assert (k2 * (b * y2) <= k2 * b * L) by (assert (b * y2 <= b * L) by (now apply Rmult_le_compat_l); nra).
    assert (0 <= k3 * b * L) by (repeat apply Rmult_le_pos; lra).
    assert (S * b * L <= S * b * ((q + r) * (b + HH2))) by (apply Rmult_le_compat_l; [now apply Rmult_le_pos|exact L1]).
    unfold S in *. nra. }
  set (U := S * (q + r)) in *. assert (U0 : 0 <= U) by (unfold U; apply Rmult_le_pos; lra).
  replace (S * a * ((q + r) * (b + HH2))) with (U * (a * (b + HH2))) in Wn' by (unfold U; ring).
  replace (S * b * ((q + r) * (b + HH2))) with (U * (b * (b + HH2))) in Wo' by (unfold U; ring).
  pose proof (pow2_ge_0 (a - b)) as Q1. pose proof (pow2_ge_0 (a - HH2)) as Q2. pose proof (pow2_ge_0 (b - HH2)) as Q3.
  assert (F1 : a * b <= (a ^ 2 + b ^ 2) / 2) by lra. assert (F2 : a * HH2 <= (a ^ 2 + HH2 ^ 2) / 2) by lra. assert (F3 : b * HH2 <= (b ^ 2 + HH2 ^ 2) / 2) by lra.
  pose proof (pow2_ge_0 a) as Pa2. pose proof (pow2_ge_0 b) as Pb2. pose proof (pow2_ge_0 HH2) as Ph2.
  set (a2 := a ^ 2) in *. set (b2 := b ^ 2) in *. set (h4 := HH2 ^ 2) in *.
  assert (G1 : U * (a * (b + HH2)) <= U * (a2 + b2 / 2 + h4 / 2)) by (apply Rmult_le_compat_l; [exact U0|]; rewrite Rmult_plus_distr_l; lra).
  assert (G2 : U * (b * (b + HH2)) <= U * (b2 * (3 / 2) + h4 / 2)) by (apply Rmult_le_compat_l; [exact U0|]; replace (b * (b + HH2)) with (b2 + b * HH2) by (unfold b2; ring); lra).
  assert (G3 : x1 * a * HH2 <= x1 * ((a2 + h4) / 2)) by (rewrite Rmult_assoc; apply Rmult_le_compat_l; lra).
  assert (G4 : x2 * b * HH2 <= x2 * ((b2 + h4) / 2)) by (rewrite Rmult_assoc; apply Rmult_le_compat_l; lra).
  assert (G5 : k1 * (a * b) <= k1 * ((a2 + b2) / 2)) by (apply Rmult_le_compat_l; lra).
  replace (S * (1 + / g + r)) with U by (unfold U, q; ring).
  assert (0 <= U * a2) by (now apply Rmult_le_pos). assert (0 <= U * b2) by (now apply Rmult_le_pos). assert (0 <= U * h4) by (now apply Rmult_le_pos).
  assert (0 <= k1 * a2) by (now apply Rmult_le_pos). assert (0 <= k1 * b2) by (now apply Rmult_le_pos). assert (0 <= k1 * h4) by (now apply Rmult_le_pos).
  assert (0 <= x1 * a2) by (now apply Rmult_le_pos). assert (0 <= x1 * b2) by (now apply Rmult_le_pos). assert (0 <= x1 * h4) by (now apply Rmult_le_pos).
  assert (0 <= x2 * a2) by (now apply Rmult_le_pos). assert (0 <= x2 * b2) by (now apply Rmult_le_pos). assert (0 <= x2 * h4) by (now apply Rmult_le_pos).
  lra.
Qed.
End E.

Lemma Derive_lim f t d : derivable_pt_lim f t d -> Derive f t = d.
Proof. intros H. apply is_derive_unique. now apply is_derive_Reals. Qed.
Lemma semi_energy p ny nx h M T Q O P Y : (0 < ny)%nat -> (0 < nx)%nat -> 0 < h -> 0 <= pnu p -> 0 <= T ->
  pde_solution p (INR ny * h) (INR nx * h) T M Q O P -> hw_solution p ny nx h Y T ->
  forall t, 0 <= t <= T -> msq2 ny nx (sdiff (Y t) (at_grid h Q O t)) <=
    (msq2 ny nx (sdiff (Y 0) (at_grid h Q O 0)) + 2 * Ag p M (gap ny nx h) * (h ^ 2) ^ 2 * t) * exp (5 * Ag p M (gap ny nx h) * t).
Proof.
  intros Hy Hx Hh Hnu HT HS HY t0 Ht0. set (A := Ag p M (gap ny nx h)).
  set (E := fun t => msq2 ny nx (sdiff (Y t) (at_grid h Q O t))).
  assert (EE : forall t, E t = ip ny nx (fsub (fst (Y t)) (sample h (Q t 0%nat 0%nat))) (fsub (fst (Y t)) (sample h (Q t 0%nat 0%nat)))
                             + ip ny nx (fsub (snd (Y t)) (sample h (O t 0%nat 0%nat))) (fsub (snd (Y t)) (sample h (O t 0%nat 0%nat)))).
  { intros t. unfold E, msq2. now rewrite <- !ip_msq. }
  destruct HS as [Sn So Sp Sdt Spo Sme].
  assert (PA : 0 <= A).
  { destruct (Sp 0) as [X _]; [lra|]. destruct (Sdt 0) as (PU & QU & Z & _); [lra|].
    exact (Acon_pos p ny nx h M Hy Hx Hh _ _ (P 0) PU QU X Z). }
  assert (KEY : forall t, 0 <= t <= T -> exists d, derivable_pt_lim E t d /\ d <= 5 * A * E t + 2 * A * (h ^ 2) ^ 2).
  { intros t Ht. destruct (Sn t Ht) as [Sn1 Sn2], (So t Ht) as [So1 So2], (Sp t Ht) as [Sp1 Sp2], (Sdt t Ht) as (PU & QU & Hz & Hd), (Spo t Ht) as (c & Hc).
    pose proof (Sme t Ht) as Hm.
    pose proof (work p ny nx h M Hy Hx Hh Hnu _ _ _ (P t) (Q t) (O t) PU QU c Sp1 Sn1 So1 Sp2 Sn2 So2 Hz Hc Hm (fst (Y t)) (snd (Y t))) as W.
    rewrite EE. eexists. split; [|exact W].
    apply (dpl_ext (fun t => ip ny nx (fsub (fst (Y t)) (sample h (Q t 0%nat 0%nat))) (fsub (fst (Y t)) (sample h (Q t 0%nat 0%nat)))
                             + ip ny nx (fsub (snd (Y t)) (sample h (O t 0%nat 0%nat))) (fsub (snd (Y t)) (sample h (O t 0%nat 0%nat))))); [intros; symmetry; apply EE|].
    apply dpl_plus.
    - apply (ip_der ny nx (fun t => fsub (fst (Y t)) (sample h (Q t 0%nat 0%nat)))). intros i j Hi Hj.
      apply (dpl_minus (fun s => fst (Y s) i j) (fun s => Q s 0%nat 0%nat (INR i * h) (INR j * h))); [apply (proj1 (HY t i j Ht Hi Hj))|apply Hd].
    - apply (ip_der ny nx (fun t => fsub (snd (Y t)) (sample h (O t 0%nat 0%nat)))). intros i j Hi Hj.
      apply (dpl_minus (fun s => snd (Y s) i j) (fun s => O s 0%nat 0%nat (INR i * h) (INR j * h))); [apply (proj2 (HY t i j Ht Hi Hj))|apply Hd]. }
  apply (gronwall E (Derive E) (5 * A) (2 * A * (h ^ 2) ^ 2) T); [lra| | | |exact Ht0].
  - apply Rmult_le_pos; [lra|]. apply pow2_ge_0.
  - intros t Ht. destruct (KEY t Ht) as (d & D1 & _). now rewrite (Derive_lim _ _ _ D1).
  - intros t Ht. destruct (KEY t Ht) as (d & D1 & D2). now rewrite (Derive_lim _ _ _ D1).
Qed.
