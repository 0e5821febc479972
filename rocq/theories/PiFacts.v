(** The binary64 number np.pi. *)
From Coq Require Import ZArith Reals Lra Lia SpecFloat Machin Ratan.
From Verif Require Import Num SpecRound RoundFacts.
Local Open Scope R_scope.

Definition pi64v : f64 := S754_finite false 7074237752028440 (-51).
Lemma pi64_finite : finite64 pi64v.
Proof. split; [vm_compute; reflexivity|exact I]. Qed.

Ltac zconst := repeat match goal with |- context [IZR ?z] =>
  lazymatch z with Z0 => fail | Zpos _ => fail | Zneg _ => fail | _ => let v := eval vm_compute in z in change (IZR z) with (IZR v) end end.
Lemma pi64_val : Rabs (fval pi64v - PI) <= uro * PI.
Proof.
  pose proof (PI_2_3_7_ineq 9) as [L U]. revert L U. unfold tg_alt, PI_2_3_7_tg, Ratan_seq. cbn [Nat.mul Nat.add sum_f_R0].
  rewrite !INR_IZR_INZ, !pow_inv, !pow_IZR. zconst.
  rewrite uro_num. unfold pi64v, fval, two. change (powerRZ 2 (-51)) with (/ 2 ^ Pos.to_nat 51). rewrite pow_IZR. zconst.
  intros L U. apply Rabs_le. lra.
Qed.
