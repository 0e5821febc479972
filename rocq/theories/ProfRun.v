(** The statements of C127 from the facts of ProfFacts.v. *)
From Coq Require Import List Arith ZArith Lia Lqa QArith Bool String Permutation Sorted.
From Verif Require Import Num NdArray NdFacts ModelGradients ModelProperties ModelHW HWFacts LogProps ModelProfile SpecProfile ProfFacts.
Import ListNotations.
Local Open Scope string_scope.
Local Open Scope list_scope.

Lemma cdiv_Q a b : b <> 0%Z -> exists q, cdiv a b = CQ q /\ (q * inject_Z b == inject_Z a)%Q.
Proof.
  intros N. unfold cdiv. destruct (Z.eqb_spec b 0); [contradiction|]. eexists. split; [reflexivity|].
  field. intros E. apply N. unfold Qeq, inject_Z in E. cbn in E. lia.
Qed.

Section R.
Context {A : Type} {Nm : Num A}.
Variable clk : nat -> Z.
Variable h : hw A.
Variables (pl : ns A) (dt dx : A) (k : nat) (rows : list row).
Hypothesis HR : run_profile clk h pl dt dx k = Ok rows.

Lemma c127_table :
  Permutation (map r_name rows) watch_fncs /\
  (forall l1 r1 l2 r2 l3, rows = l1 ++ r1 :: l2 ++ r2 :: l3 ->
     (r_tpc r1 = CNaN -> r_tpc r2 = CNaN) /\
     (forall p q, r_tpc r1 = CQ p -> r_tpc r2 = CQ q -> (p <= q)%Q)) /\
  (forall r, In r rows ->
     r_calls r = expected_calls (truthy (hpb h)) (truthy (hnu h)) (htest h) (Z.of_nat k) (r_name r) /\
     (r_calls r = 0%Z -> r_time r = 0%Z /\ r_tpc r = CNaN) /\
     (r_calls r <> 0%Z -> exists q, r_tpc r = CQ q /\ (q * inject_Z (r_calls r) == inject_Z (r_time r))%Q)).
Proof.
  destruct (profile_inv _ _ _ _ _ _ _ HR) as (l & x & j & E & -> & N). split; [|split].
  - rewrite <- row_sort_perm. rewrite map_map. cbn. reflexivity.
  - intros l1 r1 l2 r2 l3 S. pose proof (row_sort_sorted (map (the_row l) watch_fncs)) as So. rewrite S in So.
    apply sorted_split in So. unfold rle in So. split.
    + intros E1. rewrite E1 in So. destruct (r_tpc r2); cbn in So; congruence.
    + intros p q E1 E2. rewrite E1, E2 in So. now apply Qle_bool_iff.
  - intros r I. apply (Permutation_in r (Permutation_sym (row_sort_perm _))) in I. apply in_map_iff in I.
    destruct I as (name & <- & _). cbn. split; [apply N|]. split.
    + intros Z. split; [now apply total_0|]. rewrite (total_0 name l Z), Z. reflexivity.
    + intros Z. now apply cdiv_Q.
Qed.

(** the five rows *)
Definition five (rf rp rd rg rb : row) : Prop :=
  Permutation rows [rf; rp; rd; rg; rb] /\
  r_name rf = "full_step" /\ r_name rp = "get_phi" /\ r_name rd = "diffuse" /\ r_name rg = "gradient_2d" /\
  r_name rb = "poisson_bracket".

Lemma five_inv : exists l x j, t_run clk h pl dt dx k O = (l, Ok x, j) /\
  five (the_row l "full_step") (the_row l "get_phi") (the_row l "diffuse") (the_row l "gradient_2d") (the_row l "poisson_bracket") /\
  (forall name, number name l = expected_calls (truthy (hpb h)) (truthy (hnu h)) (htest h) (Z.of_nat k) name) /\
  (forall e, In e l -> In (fst e) watch_fncs).
Proof.
  destruct (profile_inv _ _ _ _ _ _ _ HR) as (l & x & j & E & ER & N). exists l, x, j. repeat split; auto.
  - rewrite ER, <- row_sort_perm. reflexivity.
  - destruct (run_events _ _ _ _ _ _ _ _ _ E) as (_ & _ & _ & _ & M & X).
    exact (names_watched clk h _ _ _ _ _ M (ex_intro _ x X)).
Qed.

Lemma five_unique rf rp rd rg rb sf sp sd sg sb : five rf rp rd rg rb -> five sf sp sd sg sb ->
  rf = sf /\ rp = sp /\ rd = sd /\ rg = sg /\ rb = sb.
Proof.
  intros (P & F1 & F2 & F3 & F4 & F5) (Q & G1 & G2 & G3 & G4 & G5). rewrite P in Q.
  assert (forall r, In r [rf; rp; rd; rg; rb] -> In r [sf; sp; sd; sg; sb]) as I by (intros r; apply Permutation_in, Q).
  pose proof (I rf ltac:(cbn; tauto)) as I1. pose proof (I rp ltac:(cbn; tauto)) as I2. pose proof (I rd ltac:(cbn; tauto)) as I3.
  pose proof (I rg ltac:(cbn; tauto)) as I4. pose proof (I rb ltac:(cbn; tauto)) as I5. cbn [In] in I1, I2, I3, I4, I5.
  repeat split;
  match goal with
  | |- ?r = _ => match goal with K : (_ = r \/ _) |- _ => destruct K as [K|[K|[K|[K|[K|[]]]]]]; subst; auto; congruence end
  end.
Qed.

Lemma c127_shares rf rp rd rg rb : steady clk -> five rf rp rd rg rb ->
  (0 <= r_time rf /\ 0 <= r_time rp /\ 0 <= r_time rd /\ 0 <= r_time rg /\ 0 <= r_time rb)%Z /\
  (r_time rp + r_time rd + r_time rg + r_time rb <= r_time rf + (clk 1%nat - clk 0%nat))%Z /\
  (clk 1%nat - clk 0%nat <= r_time rp)%Z /\
  ((0 < r_time rf)%Z -> exists qp qd qg qb,
     (exists qf, r_pct rf = CQ qf /\ qf == 100) /\
     r_pct rp = CQ qp /\ r_pct rd = CQ qd /\ r_pct rg = CQ qg /\ r_pct rb = CQ qb /\
     0 <= qp /\ 0 <= qd <= 100 /\ 0 <= qg <= 100 /\ 0 <= qb <= 100 /\
     qd + qg + qb <= 100 /\
     qp + qd + qg + qb <= 100 + 100 * inject_Z (clk 1%nat - clk 0%nat) / inject_Z (r_time rf))%Q.
Proof.
  intros S F. destruct five_inv as (l & x & j & E & F' & N & W).
  destruct (five_unique _ _ _ _ _ _ _ _ _ _ F F') as (-> & -> & -> & -> & ->). clear F F'.
  destruct (run_events _ _ _ _ _ _ _ _ _ E) as (_ & V & (l' & El) & B & _ & _). specialize (B S). destruct B as [B _].
  rewrite (part_split _ W) in B.
  pose proof (ev_nonneg clk l S V) as V'.
  assert (0 <= total "get_phi" l' )%Z as H0 by (apply total_nonneg; rewrite El in V'; now inversion V').
  assert (total "get_phi" l = (clk 1%nat - clk 0%nat) + total "get_phi" l')%Z as Hp by (rewrite El; reflexivity).
  pose proof (total_nonneg "full_step" l V'). pose proof (total_nonneg "get_phi" l V').
  pose proof (total_nonneg "diffuse" l V'). pose proof (total_nonneg "gradient_2d" l V').
  pose proof (total_nonneg "poisson_bracket" l V').
  cbn [r_time the_row r_pct].
  generalize dependent (total "full_step" l). generalize dependent (total "get_phi" l).
  generalize dependent (total "diffuse" l). generalize dependent (total "gradient_2d" l).
  generalize dependent (total "poisson_bracket" l). generalize dependent (total "get_phi" l'). clear.
  set (d := (clk 1%nat - clk 0%nat)%Z). clearbody d. intros p' H0 b Hb g Hg e He p Ep Hp f Hbound Hf.
  split; [lia|]. split; [lia|]. split; [lia|]. intros Pf.
  unfold cdiv. destruct (Z.eqb_spec f 0); [lia|].
  do 4 eexists. split; [eexists; split; [reflexivity|]|].
  { field. intros E. unfold Qeq, inject_Z in E. cbn in E. lia. }
  do 4 (split; [reflexivity|]).
  assert (0 < inject_Z f)%Q as Qf by (change 0%Q with (inject_Z 0); now rewrite <- Zlt_Qlt).
  assert (forall z, (0 <= z)%Z -> 0 <= inject_Z z / inject_Z f * 100)%Q as Lo.
  { intros z Hz. apply Qmult_le_0_compat; [|discriminate]. apply Qle_shift_div_l; [exact Qf|].
    rewrite Qmult_0_l. change 0%Q with (inject_Z 0). now rewrite <- Zle_Qle. }
  assert (forall z, (z <= f)%Z -> inject_Z z / inject_Z f * 100 <= 100)%Q as Hi.
  { intros z Hz. assert (inject_Z z / inject_Z f <= 1)%Q; [|lra]. apply Qle_shift_div_r; [exact Qf|].
    rewrite Qmult_1_l. now rewrite <- Zle_Qle. }
  assert (forall u v, inject_Z u / inject_Z f * 100 + inject_Z v / inject_Z f * 100 == inject_Z (u + v) / inject_Z f * 100)%Q as Pl.
  { intros u v. rewrite inject_Z_plus. field. intros E. rewrite E in Qf. discriminate. }
  split; [apply Lo; lia|]. split; [split; [apply Lo; lia|apply Hi; lia]|]. split; [split; [apply Lo; lia|apply Hi; lia]|].
  split; [split; [apply Lo; lia|apply Hi; lia]|].
  split; [rewrite !Pl; apply Hi; lia|].
  rewrite !Pl. apply Qle_trans with (inject_Z (f + d) / inject_Z f * 100)%Q.
  - apply Qmult_le_compat_r; [|discriminate]. apply Qmult_le_compat_r; [rewrite <- Zle_Qle; lia|].
    apply Qlt_le_weak, Qinv_lt_0_compat, Qf.
  - rewrite inject_Z_plus. apply Qle_lteq. right. field. intros E. rewrite E in Qf. discriminate.
Qed.
End R.

Section N.
Context {A : Type} {Nm : Num A}.
Variable h : hw A.
Variables (pl : ns A) (dt dx : A).

Lemma c127_no_steps clk rows rf rp rd rg rb : run_profile clk h pl dt dx 0 = Ok rows -> (clk 0%nat < clk 1%nat)%Z ->
  five rows rf rp rd rg rb ->
  r_time rf = 0%Z /\ r_pct rf = CNaN /\ r_pct rp = CPInf /\ r_time rp = (clk 1%nat - clk 0%nat)%Z.
Proof.
  intros HR L F. destruct (five_inv _ _ _ _ _ _ _ HR) as (l & x & j & E & F' & N & W).
  destruct (five_unique _ _ _ _ _ _ _ _ _ _ _ F F') as (-> & -> & -> & -> & ->).
  destruct (run_events _ _ _ _ _ _ _ _ _ E) as (_ & _ & (l' & El) & _).
  assert (total "full_step" l = 0%Z) as Zf by (apply total_0; rewrite N; reflexivity).
  assert (number "get_phi" l' = 0%Z) as N'.
  { specialize (N "get_phi"). rewrite El in N. cbn [number] in N.
    destruct string_dec; [|congruence]. change (expected_calls _ _ _ _ _) with 1%Z in N. lia. }
  assert (total "get_phi" l = clk 1%nat - clk 0%nat)%Z as Hp.
  { rewrite El. cbn [total]. rewrite (total_0 _ _ N'). cbn. lia. }
  cbn [r_time the_row r_pct]. rewrite Zf, Hp. repeat split. unfold cdiv. cbn [Z.eqb].
  destruct (Z.eqb_spec (clk 1%nat - clk 0%nat) 0); [lia|]. destruct (Z.ltb_spec 0 (clk 1%nat - clk 0%nat)); [reflexivity|lia].
Qed.

(** times of a clock of which the readings 1, 2, ... are [s] apart, after a
    first interval of [d] *)
Definition tick (d s : Z) (i : nat) : Z := match i with O => 0 | S i => d + s * Z.of_nat i end%Z.

Lemma total_ge name m (l : events) : (0 <= m)%Z -> Forall (fun e => m <= snd e)%Z l -> (0 < number name l)%Z -> (m <= total name l)%Z.
Proof.
  intros M F. assert (0 <= total name l)%Z as P by (apply total_nonneg; eapply Forall_impl; [|exact F]; cbn; intros; lia).
  revert P. induction F as [|[n t] l H F IH]; cbn [total number]; [lia|]. cbn [snd] in H.
  assert (0 <= total name l)%Z by (apply total_nonneg; eapply Forall_impl; [|exact F]; cbn; intros; lia).
  destruct string_dec; intros; [lia|]. rewrite Z.add_0_l in *. now apply IH.
Qed.

Lemma c127_over k x : (0 < k)%nat -> snd (m_run h pl dt dx k) = Ok x ->
  exists clk rows rp q, steady clk /\ run_profile clk h pl dt dx k = Ok rows /\
  In rp rows /\ r_name rp = "get_phi" /\ r_pct rp = CQ q /\ (100 < q)%Q.
Proof.
  intros K X. destruct (m_run h pl dt dx k) as [lm r] eqn:Em. cbn in X. subst r.
  set (d := Z.of_nat (2 * List.length lm + 2)). set (clk := tick d 1).
  assert (steady clk) as S by (intros [|i]; unfold clk, tick; lia).
  assert (snd (m_run h pl dt dx k) = Ok x) as X by now rewrite Em.
  destruct (profile_ok clk h pl dt dx k x X) as (rows & HR).
  destruct (five_inv _ _ _ _ _ _ _ HR) as (l & x' & j & E & F & N & W).
  destruct (run_events _ _ _ _ _ _ _ _ _ E) as (J & V & (l' & El) & B & M & _). specialize (B S). destruct B as [_ B].
  rewrite Em in M. cbn in M. assert (List.length l = List.length lm) as Len by (rewrite <- M; now rewrite map_length).
  assert (List.length l = Datatypes.S (List.length l')) as Len' by (rewrite El; reflexivity).
  assert (clk j - clk 1%nat <= d)%Z as Bj by (unfold clk, tick, d; destruct j; lia).
  assert (d <= total "get_phi" l)%Z as P.
  { rewrite El. cbn [total]. assert (0 <= total "get_phi" l')%Z.
    { apply total_nonneg. pose proof (ev_nonneg clk l S V) as V'. rewrite El in V'. now inversion V'. }
    cbn. unfold clk, tick. lia. }
  assert (1 <= total "full_step" l)%Z as Pf.
  { apply total_ge; [lia| |rewrite N; cbn; lia]. eapply Forall_impl; [|exact V].
    intros e (a & b & L & ->). destruct a as [|a], b as [|b]; unfold clk, tick; lia. }
  assert (total "full_step" l < d)%Z as Lt by (unfold clk, tick in B; unfold d; destruct j; lia).
  destruct F as (F & _).
  exists clk, rows, (the_row l "get_phi"), (inject_Z (total "get_phi" l) / inject_Z (total "full_step" l) * 100)%Q.
  split; [exact S|]. split; [exact HR|]. split; [rewrite F; cbn; tauto|]. split; [reflexivity|]. split.
  - cbn. unfold cdiv. destruct (Z.eqb_spec (total "full_step" l) 0); [lia|reflexivity].
  - assert (0 < inject_Z (total "full_step" l))%Q as Qf by (change 0%Q with (inject_Z 0); rewrite <- Zlt_Qlt; lia).
    assert (1 < inject_Z (total "get_phi" l) / inject_Z (total "full_step" l))%Q; [|lra].
    apply Qlt_shift_div_l; [exact Qf|]. rewrite Qmult_1_l, <- Zlt_Qlt. lia.
Qed.

Lemma c127_back k x : (0 < k)%nat -> snd (m_run h pl dt dx k) = Ok x ->
  exists clk rows, run_profile clk h pl dt dx k = Ok rows /\
  forall r, In r rows -> r_calls r <> 0%Z -> (r_time r < 0)%Z.
Proof.
  intros K X. set (clk := fun i => (- Z.of_nat i)%Z). destruct (profile_ok clk h pl dt dx k x X) as (rows & HR).
  exists clk, rows. split; [exact HR|].
  destruct (profile_inv _ _ _ _ _ _ _ HR) as (l & x' & j & E & -> & N). intros r I Hc.
  apply (Permutation_in r (Permutation_sym (row_sort_perm _))) in I. apply in_map_iff in I. destruct I as (name & <- & _).
  cbn in *. destruct (run_events _ _ _ _ _ _ _ _ _ E) as (_ & V & _).
  assert (Forall (fun e => snd e <= -1)%Z l) as V' by (eapply Forall_impl; [|exact V]; intros e (a & b & L & ->); unfold clk; lia).
  clear - V' Hc. induction V' as [|[n t] l H F IH]; cbn [total number] in *; [congruence|]. cbn [snd] in H.
  assert (total name l <= 0)%Z by (clear - F; induction F as [|[n t] l H F IH]; cbn [total snd] in *; [lia|destruct string_dec; lia]).
  destruct string_dec; [lia|]. rewrite Z.add_0_l in *. now apply IH.
Qed.
End N.
