From Coq Require Import List Arith ZArith Reals Lra Lia SpecFloat Bool Permutation.
From Verif Require Import Num NdArray NdFacts ModelGradients ModelProperties ModelRun64 ModelProps64 Spec SpecRound SpecProps64 RoundFacts RoundHW Props64Facts.
Import List ListNotations.
Local Open Scope R_scope.
Local Existing Instance NumF64.

(** ** adding row by row, each row and the whole starting from 0 *)
Section Rows.
Context (out nx : nat).
Fixpoint row_order (k m : nat) : order := match m with O => Leaf out | S m => Plus (row_order k m) (Leaf (k + m)) end.
Fixpoint rows_order (ny : nat) : order := match ny with O => Leaf out | S i => Plus (rows_order i) (row_order (i * nx) nx) end.
Lemma row_total v k m : (List.length v <= out)%nat -> total (row_order k m) v = nsum m (fun j => nth (k + j) v nzero).
Proof. intros H. induction m as [|m IH]; cbn [row_order total nsum]; [now rewrite nth_overflow|]. now rewrite IH. Qed.
Lemma rows_total v ny : (List.length v <= out)%nat -> total (rows_order ny) v = nsum ny (fun i => nsum nx (fun j => nth (i * nx + j) v nzero)).
Proof. intros H. induction ny as [|ny IH]; cbn [rows_order total nsum]; [now rewrite nth_overflow|]. rewrite IH, row_total by assumption. reflexivity. Qed.
Lemma row_depth k m : depth (row_order k m) = m.
Proof. induction m as [|m IH]; cbn [row_order depth]; [reflexivity|]. rewrite IH. lia. Qed.
Lemma rows_depth ny : (depth (rows_order ny) <= ny + nx)%nat.
Proof. induction ny as [|ny IH]; cbn [rows_order depth]; [lia|]. rewrite row_depth. lia. Qed.
Lemma row_reads k m : (k + m <= out)%nat -> filter (fun i => i <? out)%nat (reads (row_order k m)) = seq k m.
Proof.
  induction m as [|m IH]; intros H; cbn [row_order reads filter]; [now rewrite Nat.ltb_irrefl|].
  rewrite filter_app, IH, seq_S by lia. cbn [filter]. replace (k + m <? out)%nat with true by (symmetry; apply Nat.ltb_lt; lia). reflexivity.
Qed.
Lemma rows_reads ny : (ny * nx <= out)%nat -> filter (fun i => i <? out)%nat (reads (rows_order ny)) = seq 0 (ny * nx).
Proof.
  induction ny as [|ny IH]; intros H; cbn [rows_order reads filter]; [now rewrite Nat.ltb_irrefl|].
  cbn [Nat.mul] in *. rewrite filter_app, IH, row_reads by lia. rewrite (Nat.add_comm nx), seq_app. reflexivity.
Qed.
End Rows.

Lemma nsum_ext {A} {Nm : Num A} m (f g : nat -> A) : (forall i, (i < m)%nat -> f i = g i) -> nsum m f = nsum m g.
Proof. induction m as [|m IH]; intros H; cbn [nsum]; [reflexivity|]. rewrite IH, H by auto with arith. reflexivity. Qed.

Lemma c123_rows ny nx : INR (ny * nx) <= 2 ^ 50 -> INR (ny + nx) <= 1000000000000 ->
  exists t, sum_of t ny nx /\ (depth t <= ny + nx)%nat /\ forall f : nat -> nat -> f64, mean_last2 (Ok (grid ny nx f)) = mean64 t (Ok (grid ny nx f)).
Proof.
  intros H1 H2. exists (rows_order (ny * nx) nx ny). pose proof (rows_depth (ny * nx) nx ny) as D. split; [|split; [exact D|]].
  - repeat split; [|assumption|].
    + unfold covers. rewrite rows_reads by lia. reflexivity.
    + apply le_INR in D. lra.
  - intros g. unfold mean_last2, mean64. cbn [bind shape grid stack build]. unfold scal. f_equal. cbn [build]. apply build_ext. intros ix Hix. inversion Hix; subst.
    f_equal. rewrite rows_total.
    + apply nsum_ext. intros i Hi. apply nsum_ext. intros j Hj. unfold get. cbn [shape data]. f_equal. cbn [grid stack build shape flat]. nia.
    + change (length (data (grid ny nx g)) <= ny * nx)%nat. rewrite len_grid. lia.
Qed.

(** ** a row of five cells, summed in two orders *)
Definition five (i j : nat) : f64 := match j with 0%nat => f64_ofZ (2 ^ 27) | _ => f64_ofZ 1 end.
Definition left_to_right : order := Plus (Plus (Plus (Plus (Leaf 0) (Leaf 1)) (Leaf 2)) (Leaf 3)) (Leaf 4).
Definition ones_first : order := Plus (Leaf 0) (Plus (Plus (Leaf 1) (Leaf 2)) (Plus (Leaf 3) (Leaf 4))).
Definition zeros (i j : nat) : f64 := f64_ofZ 0.
Lemma c123_order : sum_of left_to_right 1 5 /\ sum_of ones_first 1 5 /\
  exists a b, enstrophy_by (mean64 left_to_right) (Ok (grid 1 5 five)) (Ok (grid 1 5 zeros)) (f64_ofZ 1) = sc a /\
    enstrophy_by (mean64 ones_first) (Ok (grid 1 5 five)) (Ok (grid 1 5 zeros)) (f64_ofZ 1) = sc b /\ fval a <> fval b.
Proof.
  assert (N5 : INR (1 * 5) <= 2 ^ 50) by (cbn [Nat.mul Nat.add INR]; assert (2 ^ 3 <= 2 ^ 50) by (apply Rle_pow; [lra|lia]); lra).
  split; [|split].
  - repeat split; [exact (Permutation_refl _)|exact N5|cbn; lra].
  - repeat split; [exact (Permutation_refl _)|exact N5|cbn; lra].
  - eexists _, _. split; [vm_compute; reflexivity|]. split; [vm_compute; reflexivity|]. unfold fval. intros H. apply Rmult_eq_reg_r in H; [|unfold two; apply powerRZ_NOR; lra].
    lra.
Qed.
Lemma five_ok : bounded64 1 5 (2 ^ 27) five.
Proof.
  intros i j _ Hj. destruct (ofZ_exact (2 ^ 27)) as [A1 A2]; [lia|]. destruct (ofZ_exact 1) as [B1 B2]; [lia|]. unfold five. destruct j.
  - split; [exact A1|]. assert (E : fval (f64_ofZ (2 ^ 27)) = 2 ^ 27) by (etransitivity; [exact A2|]; change (2 ^ 27)%Z with 134217728%Z; lra).
    rewrite E. rewrite Rabs_right; [lra|apply Rle_ge, pow_le; lra].
  - split; [exact B1|]. assert (E : fval (f64_ofZ 1) = 1) by exact B2. rewrite E, Rabs_R1. apply pow_R1_Rle. lra.
Qed.
Lemma c123_hyps : finite64 (f64_ofZ 1) /\ scale64 (fval (f64_ofZ 1)) /\ scale64 (2 ^ 27) /\ bounded64 1 5 (2 ^ 27) five /\ sum_of ones_first 1 5 /\
  scale64 (2 ^ 27 / fval (f64_ofZ 1) ^ 2).
Proof.
  destruct (ofZ_exact 1) as [B1 B2]; [lia|]. assert (E : fval (f64_ofZ 1) = 1) by exact B2. rewrite E.
  assert (P : 1 <= 2 ^ 200) by (apply pow_R1_Rle; lra). assert (I : / 2 ^ 200 <= 1) by (rewrite <- Rinv_1; apply Rinv_le_contravar; lra).
  assert (S27 : scale64 (2 ^ 27)).
  { assert (1 <= 2 ^ 27) by (apply pow_R1_Rle; lra). split; [lra|apply Rle_pow; [lra|lia]]. }
  assert (S27' : scale64 (2 ^ 27 / 1 ^ 2)) by (replace (2 ^ 27 / 1 ^ 2) with (2 ^ 27) by (rewrite pow1; field); exact S27).
  split; [exact B1|]. split; [split; lra|]. split; [exact S27|]. split; [exact five_ok|]. split; [apply c123_order|exact S27'].
Qed.
