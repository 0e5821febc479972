(** The diagnostics of physical space act frame by frame, for every arithmetic. *)
From Coq Require Import List Arith ZArith Lia Bool.
From Verif Require Import Num NdArray NdFacts ModelGradients Spec GradFacts GradProps ModelProperties.
Import ListNotations.
Local Open Scope nat_scope.

(** a diagnostic of two arrays returns one number per frame, the one it
    returns for the two frames alone *)
Definition per_frame2 {A : Type} {N : Num A} (op : nd A -> nd A -> nd A) (rest : list nat) (a b : arr A) : Prop :=
  exists c, op (Ok a) (Ok b) = Ok c /\ wf c /\ shape c = rest /\
    forall r, inb rest r -> op (Ok (frame a r)) (Ok (frame b r)) = Ok (scal (get c r)).

(** the same for four arrays *)
Definition per_frame4 {A : Type} {N : Num A} (op : nd A -> nd A -> nd A -> nd A -> nd A) (rest : list nat)
    (a b c d : arr A) : Prop :=
  exists e, op (Ok a) (Ok b) (Ok c) (Ok d) = Ok e /\ wf e /\ shape e = rest /\
    forall r, inb rest r ->
      op (Ok (frame a r)) (Ok (frame b r)) (Ok (frame c r)) (Ok (frame d r)) = Ok (scal (get e r)).

Section Gen.
Context {A : Type} {N : Num A}.
Notation fr := (list nat -> nat -> nat -> A).

Lemma build_nil (g : list nat -> A) : build [] g = scal (g []).
Proof. reflexivity. Qed.

Lemma per2_of (op : nd A -> nd A -> nd A) nx ny rest (V : (nat -> nat -> A) -> (nat -> nat -> A) -> A) a b :
  wf a -> wf b -> shape a = nx :: ny :: rest -> shape b = nx :: ny :: rest ->
  (forall rs (F G : fr), op (Ok (stack rs ny nx F)) (Ok (stack rs ny nx G)) =
     Ok (build rs (fun r => V (F r) (G r)))) ->
  per_frame2 op rest a b.
Proof.
  intros Ha Hb Sa Sb H.
  set (F := fun r i j => get a (j :: i :: r)). set (G := fun r i j => get b (j :: i :: r)).
  pose proof (wf_stack a nx ny rest Ha Sa) as Ea. pose proof (wf_stack b nx ny rest Hb Sb) as Eb.
  fold F in Ea. fold G in Eb.
  exists (build rest (fun r => V (F r) (G r))). rewrite Ea, Eb. split; [apply H|]. split; [apply wf_build|].
  split; [reflexivity|]. intros r Hr. rewrite !frame_stack by exact Hr. rewrite get_build by exact Hr.
  exact (H [] (fun _ => F r) (fun _ => G r)).
Qed.

Lemma per4_of (op : nd A -> nd A -> nd A -> nd A -> nd A) nx ny rest
    (V : (nat -> nat -> A) -> (nat -> nat -> A) -> (nat -> nat -> A) -> (nat -> nat -> A) -> A) a b c d :
  wf a -> wf b -> wf c -> wf d -> shape a = nx :: ny :: rest -> shape b = nx :: ny :: rest ->
  shape c = nx :: ny :: rest -> shape d = nx :: ny :: rest ->
  (forall rs (F G H K : fr), op (Ok (stack rs ny nx F)) (Ok (stack rs ny nx G))
      (Ok (stack rs ny nx H)) (Ok (stack rs ny nx K)) =
     Ok (build rs (fun r => V (F r) (G r) (H r) (K r)))) ->
  per_frame4 op rest a b c d.
Proof.
  intros Ha Hb Hc Hd Sa Sb Sc Sd H.
  set (F := fun r i j => get a (j :: i :: r)). set (G := fun r i j => get b (j :: i :: r)).
  set (K := fun r i j => get c (j :: i :: r)). set (L := fun r i j => get d (j :: i :: r)).
  pose proof (wf_stack a nx ny rest Ha Sa) as Ea. pose proof (wf_stack b nx ny rest Hb Sb) as Eb.
  pose proof (wf_stack c nx ny rest Hc Sc) as Ec. pose proof (wf_stack d nx ny rest Hd Sd) as Ed.
  fold F in Ea. fold G in Eb. fold K in Ec. fold L in Ed.
  exists (build rest (fun r => V (F r) (G r) (K r) (L r))). rewrite Ea, Eb, Ec, Ed.
  split; [apply H|]. split; [apply wf_build|].
  split; [reflexivity|]. intros r Hr. rewrite !frame_stack by exact Hr. rewrite get_build by exact Hr.
  exact (H [] (fun _ => F r) (fun _ => G r) (fun _ => K r) (fun _ => L r)).
Qed.

(** the mean of a frame in this arithmetic *)
Let mn ny nx (f : nat -> nat -> A) : A :=
  ndiv (nsum ny (fun i => nsum nx (fun j => f i j))) (nofZ (Z.of_nat (ny * nx))).

Lemma isub_keep rest ny nx (F : fr) (g : list nat -> A) :
  isub (Ok (stack rest ny nx F)) (Ok (stack rest 1 1 (fun r _ _ => g r))) =
  Ok (stack rest ny nx (fun r i j => nsub (F r i j) (g r))).
Proof.
  unfold isub. cbn [bind].
  pose proof (lift2_stack_11 nsub rest ny nx F (fun r _ _ => g r)) as E.
  unfold lift2 in E. cbn [bind] in E. rewrite E. cbn [bind shape stack build].
  destruct (list_eq_dec Nat.eq_dec (nx :: ny :: rest) (nx :: ny :: rest)); [reflexivity|congruence].
Qed.

Variables (nx ny : nat) (rest : list nat).
Hypothesis Hy : 0 < ny.
Hypothesis Hx : 0 < nx.
Variables (a b : arr A).
Hypothesis Ha : wf a.
Hypothesis Hb : wf b.
Hypothesis Sa : shape a = nx :: ny :: rest.
Hypothesis Sb : shape b = nx :: ny :: rest.

Lemma pf_gamma_n dx : per_frame2 (fun n p => get_gamma_n n p dx None) rest a b.
Proof.
  apply (per2_of _ nx ny rest (fun n p => nopp (mn ny nx (fun i j => nmul (n i j) (cdy ny dx p i j))))); auto.
  intros rs F G. unfold get_gamma_n. rewrite np_grad_m2 by assumption. cbn [force bind]. unfold mul_.
  rewrite lift2_stack, mean_last2_eq. unfold neg_. rewrite map1_build. reflexivity.
Qed.
Lemma pf_gamma_c c1 dx : per_frame2 (fun n p => get_gamma_c n p c1 dx) rest a b.
Proof.
  apply (per2_of _ nx ny rest (fun n p => nmul c1 (mn ny nx (fun i j => npow (nsub (n i j) (p i j)) 2)))); auto.
  intros rs F G. unfold get_gamma_c, sub_, powk, mul_. rewrite lift2_stack, map1_stack, mean_last2_eq.
  apply lift2_scl.
Qed.
Lemma pf_energy dx : per_frame2 (fun n p => get_energy n p dx) rest a b.
Proof.
  apply (per2_of _ nx ny rest (fun n p => ndiv (mn ny nx (fun i j =>
    nadd (npow (n i j) 2) (nadd (npow (cdx nx dx p i j) 2) (npow (cdy ny dx p i j) 2)))) (nofZ 2))); auto.
  intros rs F G. unfold get_energy. rewrite np_grad_m2, np_grad_m1 by assumption. cbn [force bind].
  unfold add_, powk, div_. rewrite !map1_stack, !lift2_stack, mean_last2_eq. apply lift2_scr.
Qed.
Lemma pf_enstrophy dx : per_frame2 (fun n o => get_enstrophy n o dx) rest a b.
Proof.
  apply (per2_of _ nx ny rest (fun n p => ndiv (mn ny nx (fun i j => npow (nsub (n i j) (p i j)) 2)) (nofZ 2))); auto.
  intros rs F G. unfold get_enstrophy, sub_, powk, div_. rewrite lift2_stack, map1_stack, mean_last2_eq.
  apply lift2_scr.
Qed.
Lemma pf_enstrophy_phi dx : per_frame2 (fun n p => get_enstrophy_phi n p dx) rest a b.
Proof.
  apply (per2_of _ nx ny rest (fun n p => ndiv (mn ny nx (fun i j =>
    npow (nsub (n i j) (nsub (lap_iter 1 ny nx dx p i j) (mn ny nx (lap_iter 1 ny nx dx p)))) 2)) (nofZ 2))); auto.
  intros rs F G. unfold get_enstrophy_phi.
  rewrite np_periodic_laplace_N_stack by assumption. rewrite mean_last2_keep_eq.
  rewrite (isub_keep rs ny nx _ (fun r => ndiv (nsum ny (fun i => nsum nx (fun j =>
    lap_iter (Z.to_nat 1) ny nx dx (G r) i j))) (nofZ (Z.of_nat (ny * nx))))).
  unfold sub_, powk, div_. rewrite lift2_stack, map1_stack, mean_last2_eq. apply lift2_scr.
Qed.

Variables (c d : arr A).
Hypothesis Hc : wf c.
Hypothesis Hd : wf d.
Hypothesis Sc : shape c = nx :: ny :: rest.
Hypothesis Sd : shape d = nx :: ny :: rest.

Lemma pf_DE : per_frame4 get_DE rest a b c d.
Proof.
  apply (per4_of _ nx ny rest (fun n p Dn Dp => mn ny nx (fun i j =>
    nsub (nmul (n i j) (Dn i j)) (nmul (p i j) (Dp i j))))); auto.
  intros rs F G H K. unfold get_DE, sub_, mul_. rewrite !lift2_stack, mean_last2_eq. reflexivity.
Qed.
Lemma pf_DU : per_frame4 get_DU rest a b c d.
Proof.
  apply (per4_of _ nx ny rest (fun n p Dn Dp => nopp (mn ny nx (fun i j =>
    nmul (nsub (n i j) (p i j)) (nsub (Dn i j) (Dp i j)))))); auto.
  intros rs F G H K. unfold get_DU, sub_, mul_, neg_. rewrite !lift2_stack, mean_last2_eq, map1_build. reflexivity.
Qed.
End Gen.
