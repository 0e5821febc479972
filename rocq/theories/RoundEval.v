(** One call of [rk4_step] on grids written out cell by cell, for any number
    type: which operations are applied to which numbers, in which order. *)
From Coq Require Import List Arith ZArith Lia Bool String.
From Verif Require Import Num NdArray NdFacts ModelGradients ModelArakawa ModelProperties ModelHW ModelBackend ModelSchemes Spec
  GradFacts ArakawaFacts LapFacts HWFacts RoundHW.
Import List ListNotations.

Section Gen.
Context {A : Type} {Nm : Num A}.
Variables (ny nx : nat) (dx dt : A).
Hypothesis Hy : (0 < ny)%nat.
Hypothesis Hx : (0 < nx)%nat.
Implicit Types n o phi : nat -> nat -> A.

Definition n3 n o (a : A) : ns A := [("density", grid ny nx n); ("omega", grid ny nx o); ("age", scal a)]%string.
(** c times a field, sum in the order of Namespace.__add__ (other + self) *)
Definition fsc (c : A) n : nat -> nat -> A := fun i j => nmul c (n i j).
Definition fpl n m : nat -> nat -> A := fun i j => nadd (m i j) (n i j).

Lemma ns_scale3 c n o a : ns_scale (n3 n o a) c = Ok (n3 (fsc c n) (fsc c o) (nmul c a)).
Proof. unfold ns_scale, n3. cbn [ns_map]. unfold mul_. rewrite !lift2_grid_scl, sc_scal, lift2_scal. reflexivity. Qed.
Lemma ns_add3 n o a m q b : ns_add (n3 n o a) (n3 m q b) = Ok (n3 (fpl n m) (fpl o q) (nadd b a)).
Proof. unfold ns_add, n3. cbn [ns_map ns_get String.eqb Ascii.eqb Bool.eqb bind]. unfold add_. rewrite !lift2_grid, lift2_scal. reflexivity. Qed.
Lemma mscale3 c n o a : mscale c (n3 n o a) = mlift (Ok (n3 (fsc c n) (fsc c o) (nmul c a))).
Proof. unfold mscale. now rewrite ns_scale3. Qed.
Lemma madd3 n o a m q b : madd (n3 n o a) (n3 m q b) = mlift (Ok (n3 (fpl n m) (fpl o q) (nadd b a))).
Proof. unfold madd. now rewrite ns_add3. Qed.
Lemma mget3 n o a : mget (n3 n o a) "omega" = mlift (Ok (grid ny nx o)).
Proof. reflexivity. Qed.

Variables (solver : nd A -> A -> nd A) (b : backend A) (dx0 : A) (N : nat) (c1 nu pb kap : A) (zon : bool).
Hypothesis Hb : b = np_schemes solver \/ b = nb_schemes solver.
Local Notation h := (hw_init b dx0 (Z.of_nat N) c1 nu pb kap zon false).
Local Notation gn := (g_n ny nx dx N c1 nu pb kap zon).
Local Notation go := (g_o ny nx dx N c1 nu pb zon).

Lemma grad3 n o a phi dtk : exists lg x, gradient_2d h (n3 n o a) (Some (grid ny nx phi)) dtk dx = (lg, Ok (n3 (gn phi n) (go phi n o) x)).
Proof.
  destruct (hw_eval3 ny nx dx Hy Hx solver b dx0 N c1 nu pb kap zon Hb phi n o dtk a) as [lg E].
  exists lg, (nadd a dtk). exact E.
Qed.
Definition kn phi n := fsc dt (gn phi n).
Definition ko phi n o := fsc dt (go phi n o).
Lemma stage3 n o a phi dtk : exists lg x, stage h (n3 n o a) (grid ny nx phi) dtk dt dx = (lg, Ok (n3 (kn phi n) (ko phi n o) x)).
Proof.
  unfold stage. destruct (grad3 n o a phi dtk) as (lg & x & E). rewrite E, mbind_ok, mscale3. eexists _, _. reflexivity.
Qed.

Lemma get_without (d : ns A) k k' : k' <> k -> ns_get (ns_without k d) k' = ns_get d k'.
Proof.
  intros H. induction d as [|[u v] d IH]; [reflexivity|]. unfold ns_without. cbn [filter fst].
  destruct (String.eqb_spec u k) as [->|Hu]; cbn [negb].
  - cbn [ns_get]. destruct (String.eqb_spec k' k); [contradiction|]. exact IH.
  - cbn [ns_get]. destruct (k' =? u)%string; [reflexivity|]. exact IH.
Qed.

(** the plasma holds the given fields *)
Definition holds (pl : ns A) n o phi a : Prop := ns_without "phi" pl = n3 n o a /\ ns_get pl "phi" = Ok (grid ny nx phi).
Definition getp (o phi : nat -> nat -> A) : Prop := snd (hw_get_phi h (Ok (grid ny nx o)) dx) = Ok (grid ny nx phi).
Lemma getp_log o phi : getp o phi -> exists lg, hw_get_phi h (Ok (grid ny nx o)) dx = (lg, Ok (grid ny nx phi)).
Proof. unfold getp. destruct (hw_get_phi _ _ _) as [lg r]. intros E. exists lg. cbn in E. now rewrite E. Qed.

Definition rk_n n n1 n2 n3 n4 : nat -> nat -> A :=
  fpl n (fsc (ndiv (nofZ 1) (nofZ 6)) (fpl (fpl (fpl n1 (fsc (nofZ 2) n2)) (fsc (nofZ 2) n3)) n4)).

Lemma rk4_eval pl n o a phi p1 p2 p3 p4 : holds pl n o phi a ->
  let n1 := kn phi n in let o1 := ko phi n o in
  let yn1 := fpl n (fsc half n1) in let yo1 := fpl o (fsc half o1) in
  getp yo1 p1 ->
  let n2 := kn p1 yn1 in let o2 := ko p1 yn1 yo1 in
  let yn2 := fpl n (fsc half n2) in let yo2 := fpl o (fsc half o2) in
  getp yo2 p2 ->
  let n3' := kn p2 yn2 in let o3 := ko p2 yn2 yo2 in
  let yn3 := fpl n n3' in let yo3 := fpl o o3 in
  getp yo3 p3 ->
  let n4 := kn p3 yn3 in let o4 := ko p3 yn3 yo3 in
  let no := rk_n o o1 o2 o3 o4 in
  getp no p4 ->
  exists lg pl', rk4_step h pl dt dx = (lg, Ok pl') /\ holds pl' (rk_n n n1 n2 n3' n4) no p4 (nadd a dt).
Proof.
  intros [Hw Hp] n1 o1 yn1 yo1 G1 n2 o2 yn2 yo2 G2 n3' o3 yn3 yo3 G3 n4 o4 no G4.
  apply getp_log in G1 as [l1 G1], G2 as [l2 G2], G3 as [l3 G3], G4 as [l4 G4].
  unfold rk4_step. rewrite Hw. unfold mget at 1. rewrite Hp, mbind_lift.
  destruct (stage3 n o a phi (nofZ 0)) as (s1 & x1 & E1). rewrite E1, mbind_ok. fold n1 o1.
  rewrite mscale3, mbind_lift, madd3, mbind_lift. fold yn1 yo1. rewrite mget3, mbind_lift, G1, mbind_ok.
  match goal with |- context [stage h (n3 yn1 yo1 ?x) _ ?d dt dx] => destruct (stage3 yn1 yo1 x p1 d) as (s2 & x2 & E2) end.
  rewrite E2, mbind_ok. fold n2 o2. rewrite mscale3, mbind_lift, madd3, mbind_lift. fold yn2 yo2. rewrite mget3, mbind_lift, G2, mbind_ok.
  match goal with |- context [stage h (n3 yn2 yo2 ?x) _ ?d dt dx] => destruct (stage3 yn2 yo2 x p2 d) as (s3 & x3 & E3) end.
  rewrite E3, mbind_ok. fold n3' o3. rewrite madd3, mbind_lift. fold yn3 yo3. rewrite mget3, mbind_lift, G3, mbind_ok.
  match goal with |- context [stage h (n3 yn3 yo3 ?x) _ ?d dt dx] => destruct (stage3 yn3 yo3 x p3 d) as (s4 & x4 & E4) end.
  rewrite E4, mbind_ok. fold n4 o4.
  rewrite mscale3, mbind_lift, madd3, mbind_lift, mscale3, mbind_lift, madd3, mbind_lift, madd3, mbind_lift, mscale3, mbind_lift, madd3, mbind_lift.
  rewrite mget3, mbind_lift. change (fpl o _) with no at 1. rewrite G4, mbind_ok.
  unfold mget. rewrite <- (get_without pl "phi" "age") by discriminate. rewrite Hw.
  change (ns_get (n3 n o a) "age") with (@Ok (arr A) (scal a)). rewrite mbind_lift.
  unfold add_. rewrite sc_scal, lift2_scal, mbind_lift, mbind_log. rewrite !tell_tell, tell_ret.
  eexists _, _. split; [reflexivity|]. split; reflexivity.
Qed.
End Gen.
