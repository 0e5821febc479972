(** Property C104: the viscous terms get_D, get_DE, get_DU, get_dE_dt and
    get_dU_dt of numpy_properties.py on stacks of frames. *)
From Coq Require Import List Arith ZArith Lia Bool Reals Lra.
From Verif Require Import Num NdArray NdFacts ModelGradients Spec GradFacts SumFacts LapFacts
  ModelProperties SpecDiag DiagFacts InitFacts SinkProps.
Import ListNotations.
Local Open Scope R_scope.

(** C104: get_D is nu times the N-fold five-point Laplacian, frame by frame, in
    whatever arithmetic ... *)
Theorem C104_get_D {A} {N : Num A} rest ny nx (F : list nat -> nat -> nat -> A) nu n dx : (0 < ny)%nat -> (0 < nx)%nat ->
  get_D (Ok (stack rest ny nx F)) nu n dx = Ok (stack rest ny nx (fun r i j => nmul nu (lap_iter (Z.to_nat n) ny nx dx (F r) i j))).
Proof. exact (D_stack rest ny nx F nu n dx). Qed.
Print Assumptions C104_get_D.

(** ... the sinks are the integrals of their documentation, except that the one
    of DU carries a minus sign ... *)
Theorem C104_values rest ny nx n p o Dn Dp a b c :
  let S f := Ok (stack rest ny nx f) in
  get_DE (S n) (S p) (S Dn) (S Dp) = Ok (build rest (fun r => gmean ny nx (fun i j => n r i j * Dn r i j - p r i j * Dp r i j))) /\
  get_DU (S n) (S o) (S Dn) (S Dp) = Ok (build rest (fun r => - gmean ny nx (fun i j => (n r i j - o r i j) * (Dn r i j - Dp r i j)))) /\
  get_dE_dt (Ok (build rest a)) (Ok (build rest b)) (Ok (build rest c)) = Ok (build rest (fun r => a r - b r - c r)) /\
  get_dU_dt (Ok (build rest a)) (Ok (build rest b)) = Ok (build rest (fun r => a r - b r)).
Proof.
  exact (conj (DE_stack rest ny nx n p Dn Dp) (conj (DU_stack rest ny nx n o Dn Dp)
         (conj (dE_stack rest a b c) (dU_stack rest a b)))).
Qed.
Print Assumptions C104_values.

(** ... with the viscosity of HW (sign (-1)^(N+1)) DU is a sink: it is never
    negative, and zero on a frame only if density and vorticity differ by a
    constant there ... *)
Theorem C104_DU_sink rest ny nx n o nu N dx : (0 < ny)%nat -> (0 < nx)%nat -> dx <> 0 -> 0 <= nu ->
  let s := (-1) ^ (N + 1) * nu in let S f := Ok (stack rest ny nx f) in
  exists g, get_DU (S n) (S o) (get_D (S n) s (Z.of_nat N) dx) (get_D (S o) s (Z.of_nat N) dx) = Ok (build rest g) /\
    forall r, inb rest r -> 0 <= g r /\
      ((1 <= N)%nat -> 0 < nu -> (g r = 0 <-> is_const ny nx (fun i j => n r i j - o r i j))).
Proof. exact (fun Hy Hx => c104_DU rest ny nx Hy Hx n o nu N dx). Qed.
Print Assumptions C104_DU_sink.

(** ... but DE is not: it is never positive, so that get_dE_dt, which subtracts
    it, counts viscosity as a gain of energy ... *)
Theorem C104_DE_sink_refuted rest ny nx n p nu N dx : (0 < ny)%nat -> (0 < nx)%nat -> dx <> 0 -> 0 <= nu ->
  let s := (-1) ^ (N + 1) * nu in let S f := Ok (stack rest ny nx f) in
  exists g, get_DE (S n) (S p) (get_D (S n) s (Z.of_nat N) dx) (get_D (np_periodic_laplace (S p) dx) s (Z.of_nat N) dx) = Ok (build rest g) /\
    forall r, inb rest r -> g r <= 0 /\
      ((1 <= N)%nat -> 0 < nu -> (g r = 0 <-> is_const ny nx (n r) /\ is_const ny nx (p r))).
Proof. exact (fun Hy Hx => c104_DE rest ny nx Hy Hx n p nu N dx). Qed.
Print Assumptions C104_DE_sink_refuted.

(** ... and with the viscosity as stored in the file, without the sign, DU is
    not a sink either if N is even. *)
Theorem C104_DU_unsigned_refuted rest ny nx n o nu N dx : (0 < ny)%nat -> (0 < nx)%nat -> dx <> 0 -> 0 <= nu -> Nat.Even N ->
  let S f := Ok (stack rest ny nx f) in
  exists g, get_DU (S n) (S o) (get_D (S n) nu (Z.of_nat N) dx) (get_D (S o) nu (Z.of_nat N) dx) = Ok (build rest g) /\
    forall r, inb rest r -> g r <= 0 /\
      ((1 <= N)%nat -> 0 < nu -> (g r = 0 <-> is_const ny nx (fun i j => n r i j - o r i j))).
Proof. exact (fun Hy Hx => c104_DU_unsigned rest ny nx Hy Hx n o nu N dx). Qed.
Print Assumptions C104_DU_unsigned_refuted.

(** A stack of two frames of 1 x 2 cells, alternating and constant. *)
Example C104_nonvacuous : let F r (i j : nat) := match r with [0%nat] => 1 - 2 * INR j | _ => 5 end in
  get_D (Ok (stack [2%nat] 1 2 F)) 3 2 1 = Ok (stack [2%nat] 1 2 (fun r i j => match r with [0%nat] => 48 * (1 - 2 * INR j) | _ => 0 end)) /\
  inb [2%nat] [0%nat] /\ inb [2%nat] [1%nat] /\ is_const 1 2 (F [1%nat]) /\ ~ is_const 1 2 (F [0%nat]).
Proof.
  cbv zeta. split; [|split; [|split; [|split]]].
  - rewrite D_stack by lia. f_equal.
    unfold stack. apply build_ext. intros s Hs. 
    assert (P : forall s ix, inb s ix -> match s, ix with [], [] => True | m :: s', a :: ix' => (a < m)%nat /\ inb s' ix' | _, _ => False end)
      by (intros ? ? H; destruct H; auto).
    apply P in Hs. destruct s as [|a s]; [tauto|]. destruct Hs as [Ha Hs].
    apply P in Hs. destruct s as [|b s]; [tauto|]. destruct Hs as [Hb Hs].
    apply P in Hs. destruct s as [|c s]; [tauto|]. destruct Hs as [Hc Hs].
    apply P in Hs. destruct s; [|tauto].
    destruct a as [|[|?]]; [| |lia]; destruct b as [|?]; [| lia| |lia]; destruct c as [|[|?]]; try lia; cbn [skipn nth]; change (Z.to_nat 2) with 2%nat;
      cbn [lap_iter]; unfold lap5;
      repeat match goal with |- context [sh ?a ?b ?c] => let x := eval vm_compute in (sh a b c) in change (sh a b c) with x end;
      cbn; field.
  - repeat constructor.
  - repeat constructor.
  - intros i j i' j' _ _ _ _. reflexivity.
  - intros H. specialize (H 0%nat 0%nat 0%nat 1%nat ltac:(lia) ltac:(lia) ltac:(lia) ltac:(lia)). cbn in H. lra.
Qed.
