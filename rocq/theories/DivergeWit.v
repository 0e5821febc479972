(** A toy simulation that diverges after three steps: the density 1000 stands
    for NaN. *)
From Coq Require Import Arith ZArith Bool String List Lia Floats.SpecFloat QArith.
From Verif Require Import Num NdArray ModelIO ModelRun SpecIO SpecRun ModelHW ModelSchemes RunWit RunTop RunExamples SpecDiverge NanFacts.
Import ListNotations.
Local Close Scope Q_scope.
Local Open Scope nat_scope.
Local Open Scope string_scope.

Definition nan_step (ph : physics (T := Q)) (pl : plasma Z Q) (dt dx : Q) : res (plasma Z Q) :=
  Ok (mkPlasma (if (7 <=? p_density pl)%Z then 1000 else p_density pl + 1) (p_omega pl + 2) (2 * (p_omega pl + 2)) (nadd (Num := NumQ) (p_age pl) dt))%Z.
Definition nan_sim : sim Z Q :=
  mkSim nan_step (s_phi tq) (fun v => (1000 <=? v)%Z) (s_nanT tq) (s_zero tq) (s_prop tq) (s_table tq) (s_zeroV tq) (s_zeroF tq) (s_f32V tq) (s_f32T tq).
Definition nan_run (c : cfg Z Q) : IO Z Q unit := @run Z Q TimeQ nan_sim c (@toy_init Q TimeQ).
Definition nan_run2 (c : cfg Z Q) : IO Z Q unit := @run2 Z Q TimeQ nan_sim c 50 (@toy_init Q TimeQ).
Definition nan_traj (j : nat) : plasma Z Q :=
  mkPlasma (if (j <? 3)%nat then 5 + Z.of_nat j else 1000)%Z (7 + 2 * Z.of_nat j)%Z (2 * (7 + 2 * Z.of_nat j))%Z (inject_Z (Z.of_nat j)).

Lemma nan_evolves phys n (c : cfg Z Q) : c_step c = 1%Q ->
  @evolves Z Q nan_sim c phys (mkPlasma 5%Z 7%Z 14%Z 0%Q) nan_traj n.
Proof.
  intros E1. split; [reflexivity|]. intros j _. rewrite E1. unfold nan_traj. cbn [nan_sim s_step]. unfold nan_step. cbn [p_density p_omega p_age].
  f_equal. f_equal; try lia.
  - destruct (Nat.ltb_spec j 3) as [L|L]; destruct (Nat.ltb_spec (S j) 3) as [L'|L']; try lia.
    + destruct (Z.leb_spec 7 (5 + Z.of_nat j)); lia.
    + destruct (Z.leb_spec 7 (5 + Z.of_nat j)); lia.
    + reflexivity.
  - cbn [NumQ nadd]. apply Qred_Z. rewrite Nat2Z.inj_succ, <- Z.add_1_r, inject_Z_plus. reflexivity.
Qed.
Lemma nan_diverges : diverges_at nan_sim nan_traj 3 /\ forall n, stays_diverged nan_sim nan_traj 3 n.
Proof.
  split; [split; [lia|]; split; [|reflexivity]|].
  - intros [|[|[|j]]] H; try reflexivity. lia.
  - intros n j H. unfold nan_traj. cbn [nan_sim s_nan p_density]. destruct (Nat.ltb_spec j 3); [lia|reflexivity].
Qed.

(** run2 that samples every second step sees the NaN at step 4; the state of the
    last full flush is from before *)
Lemma wit_run : get (disk_of (nan_run (qcfg 7 2 1 false true [])) None) "density" = vals [5; 6; 7; 1000]%Z /\
  get (disk_of (nan_run (qcfg 7 2 2 false true [])) None) "density" = vals [5; 7]%Z.
Proof. split; vm_compute; reflexivity. Qed.
Lemma wit_run2 : get (disk_of (nan_run2 (qcfg 7 2 2 false true [])) None) "density" = vals [5; 7; 1000]%Z /\
  get (disk_of (nan_run2 (qcfg 7 2 2 false true [])) None) "time" = times [0; 2; 4]%Q.
Proof. split; vm_compute; reflexivity. Qed.
Lemma wit_resumed :
  let d := disk_of (nan_run2 (qcfg 7 2 2 false true [])) None in
  get d "density" = vals [5; 7; 1000]%Z /\ get d "state_density" = Some (Whole 7%Z) /\
  result_of (nan_run2 (qcfg 9 2 2 true true [])) d = Ok tt /\
  get (disk_of (nan_run2 (qcfg 9 2 2 true true [])) d) "density" = vals [5; 7; 1000; 1000]%Z.
Proof. repeat split; vm_compute; reflexivity. Qed.
Lemma wit_refused :
  let d := disk_of (nan_run (qcfg 7 2 1 false true [])) None in
  get d "density" = vals [5; 6; 7; 1000]%Z /\ nan_run (qcfg 9 2 1 true true []) d = (([], d), Exn BaseException).
Proof. split; vm_compute; reflexivity. Qed.

(** binary64: one step with large values overflows *)
Section Overflow.
#[local] Existing Instance NumF64.
Definition big33 : arr f64 := grid 3 3 (fun i j => match i, j with 1, 1 => f64_pow (f64_ofZ 10) 200 | 1, 0 => nopp (f64_pow (f64_ofZ 10) 200) | _, _ => f64_ofZ 1 end).
(** numpy schemes with a placeholder for the Poisson solver *)
Definition h33 : hw f64 := hw_init (np_schemes (fun x _ => x)) (f64_ofZ 1) 2 (f64_ofZ 1) (f64_ofZ 0) (f64_ofZ 1) (f64_ofZ 1) false false.
Definition state33 : ns f64 := [("density", big33); ("omega", big33); ("phi", big33); ("age", scal (f64_ofZ 0))].
Definition is_finite (x : f64) : bool := match x with S754_finite _ _ _ | S754_zero _ => true | _ => false end.
Lemma wit_overflow : forallb is_finite (data big33) = true /\
  exists lg y v, rk4_step h33 state33 (f64_ofZ 1) (f64_ofZ 1) = (lg, Ok y) /\ ns_get y "density" = Ok v /\ shape v = shape big33 /\ lost v.
Proof.
  split; [vm_compute; reflexivity|]. eexists. eexists. eexists. split; [vm_compute; reflexivity|]. split; [vm_compute; reflexivity|].
  split; [reflexivity|]. left. now left.
Qed.
End Overflow.
