(** C127: the table of times printed at the end of a run. *)
From Coq Require Import List Arith ZArith QArith Bool String Permutation.
From Verif Require Import Num NdArray ModelGradients ModelHW ModelProfile SpecProfile ProfFacts ProfRun.
Import ListNotations.
Local Open Scope string_scope.
Local Open Scope list_scope.

(** Reading the clock changes nothing: with any clock the steps give the
    results, exceptions and call counts of the untimed model. *)
Theorem C127_clock_irrelevant (A : Type) (Nm : Num A) (clk : nat -> Z) (h : hw A) (pl : ns A) (dt dx : A) (k i : nat) :
  (let '(l, r, _) := t_rk4_step clk h pl dt dx i in (map fst l, r)) = rk4_step h pl dt dx /\
  (let '(l, r, _) := t_euler_step clk h pl dt dx i in (map fst l, r)) = euler_step h pl dt dx /\
  (let '(l, r, _) := t_steps (fun p => t_rk4_step clk h p dt dx) k pl i in (map fst l, r)) =
    steps (fun p => rk4_step h p dt dx) k pl.
Proof.
  split; [exact (er_rk4 clk h pl dt dx i)|]. split; [exact (er_euler clk h pl dt dx i)|].
  exact (er_steps (fun p => t_rk4_step clk h p dt dx) (fun p => rk4_step h p dt dx) k pl (fun p => er_rk4 clk h p dt dx) i).
Qed.
Print Assumptions C127_clock_irrelevant.

(** The printed table: one row per profiled function, ordered by the time per
    call with the functions that were never called last, the numbers of calls
    of k steps and one initial potential, and the mean time per call. *)
Theorem C127_table (A : Type) (Nm : Num A) (clk : nat -> Z) (h : hw A) (pl : ns A) (dt dx : A) (k : nat) (rows : list row) :
  run_profile clk h pl dt dx k = Ok rows ->
  Permutation (map r_name rows) ["full_step"; "get_phi"; "diffuse"; "gradient_2d"; "poisson_bracket"] /\
  (forall l1 r1 l2 r2 l3, rows = l1 ++ r1 :: l2 ++ r2 :: l3 ->
     (r_tpc r1 = CNaN -> r_tpc r2 = CNaN) /\
     (forall p q, r_tpc r1 = CQ p -> r_tpc r2 = CQ q -> (p <= q)%Q)) /\
  (forall r, In r rows ->
     r_calls r = expected_calls (truthy (hpb h)) (truthy (hnu h)) (htest h) (Z.of_nat k) (r_name r) /\
     (r_calls r = 0%Z -> r_time r = 0%Z /\ r_tpc r = CNaN) /\
     (r_calls r <> 0%Z -> exists q, r_tpc r = CQ q /\ (q * inject_Z (r_calls r) == inject_Z (r_time r))%Q)).
Proof. exact (c127_table clk h pl dt dx k rows). Qed.
Print Assumptions C127_table.

(** With a clock that is never set back no time is negative, the parts of the
    steps take no longer than the steps, and the shares of all functions but
    get_phi add up to at most 100 per cent; get_phi is over by at most its call
    before the first step, the interval between the readings 0 and 1. *)
Theorem C127_shares (A : Type) (Nm : Num A) (clk : nat -> Z) (h : hw A) (pl : ns A) (dt dx : A) (k : nat) (rows : list row)
    (rf rp rd rg rb : row) :
  run_profile clk h pl dt dx k = Ok rows -> steady clk ->
  Permutation rows [rf; rp; rd; rg; rb] /\
  r_name rf = "full_step" /\ r_name rp = "get_phi" /\ r_name rd = "diffuse" /\ r_name rg = "gradient_2d" /\
  r_name rb = "poisson_bracket" ->
  (0 <= r_time rf /\ 0 <= r_time rp /\ 0 <= r_time rd /\ 0 <= r_time rg /\ 0 <= r_time rb)%Z /\
  (r_time rp + r_time rd + r_time rg + r_time rb <= r_time rf + (clk 1%nat - clk 0%nat))%Z /\
  (clk 1%nat - clk 0%nat <= r_time rp)%Z /\
  ((0 < r_time rf)%Z -> exists qp qd qg qb,
     (exists qf, r_pct rf = CQ qf /\ qf == 100) /\
     r_pct rp = CQ qp /\ r_pct rd = CQ qd /\ r_pct rg = CQ qg /\ r_pct rb = CQ qb /\
     0 <= qp /\ 0 <= qd <= 100 /\ 0 <= qg <= 100 /\ 0 <= qb <= 100 /\
     qd + qg + qb <= 100 /\
     qp + qd + qg + qb <= 100 + 100 * inject_Z (clk 1%nat - clk 0%nat) / inject_Z (r_time rf))%Q.
Proof. intros HR S F. exact (c127_shares clk h pl dt dx k rows HR rf rp rd rg rb S F). Qed.
Print Assumptions C127_shares.

(** A run without steps (end_time reached, C71) prints NaN and inf. *)
Theorem C127_no_steps (A : Type) (Nm : Num A) (clk : nat -> Z) (h : hw A) (pl : ns A) (dt dx : A) (rows : list row)
    (rf rp rd rg rb : row) :
  run_profile clk h pl dt dx 0 = Ok rows -> (clk 0%nat < clk 1%nat)%Z ->
  Permutation rows [rf; rp; rd; rg; rb] /\
  r_name rf = "full_step" /\ r_name rp = "get_phi" /\ r_name rd = "diffuse" /\ r_name rg = "gradient_2d" /\
  r_name rb = "poisson_bracket" ->
  r_time rf = 0%Z /\ r_pct rf = CNaN /\ r_pct rp = CPInf /\ r_time rp = (clk 1%nat - clk 0%nat)%Z.
Proof. exact (c127_no_steps h pl dt dx clk rows rf rp rd rg rb). Qed.
Print Assumptions C127_no_steps.

Lemma completes (A : Type) (Nm : Num A) clk (h : hw A) pl dt dx k rows :
  run_profile clk h pl dt dx k = Ok rows -> exists x, snd (m_run h pl dt dx k) = Ok x.
Proof.
  intros HR. destruct (profile_inv _ _ _ _ _ _ _ HR) as (l & x & j & E & _).
  destruct (run_events _ _ _ _ _ _ _ _ _ E) as (_ & _ & _ & _ & _ & X). eauto.
Qed.

(** No share exceeds 100 per cent: false of every run with a step, for a
    suitable clock that is never set back. *)
Theorem C127_over_100_refuted (A : Type) (Nm : Num A) (clk0 : nat -> Z) (h : hw A) (pl : ns A) (dt dx : A) (k : nat) (rows0 : list row) :
  (0 < k)%nat -> run_profile clk0 h pl dt dx k = Ok rows0 ->
  exists clk rows rp q, steady clk /\ run_profile clk h pl dt dx k = Ok rows /\
  In rp rows /\ r_name rp = "get_phi" /\ r_pct rp = CQ q /\ (100 < q)%Q.
Proof. intros K HR. destruct (completes _ _ _ _ _ _ _ _ _ HR) as [x X]. exact (c127_over h pl dt dx k x K X). Qed.
Print Assumptions C127_over_100_refuted.

(** No time is negative: false if the clock is set back, as time.time() may be. *)
Theorem C127_clock_back_refuted (A : Type) (Nm : Num A) (clk0 : nat -> Z) (h : hw A) (pl : ns A) (dt dx : A) (k : nat) (rows0 : list row) :
  (0 < k)%nat -> run_profile clk0 h pl dt dx k = Ok rows0 ->
  exists clk rows, run_profile clk h pl dt dx k = Ok rows /\
  forall r, In r rows -> r_calls r <> 0%Z -> (r_time r < 0)%Z.
Proof. intros K HR. destruct (completes _ _ _ _ _ _ _ _ _ HR) as [x X]. exact (c127_back h pl dt dx k x K X). Qed.
Print Assumptions C127_clock_back_refuted.

(** ** A run *)
Local Existing Instance NumQ.
Definition toy : backend Q :=
  {| poisson_solver := fun t _ => t; diffuse_N := fun a _ _ => a;
     poisson_bracket := fun a b _ => (a * b)%nd; gradient_func := fun a _ _ => let* x := a in Ok (Some x) |}.
Definition toy_hw (nu : Q) : hw Q := hw_init toy (1#1) 1 (1#1) nu (1#1) (1#1) false false.
Definition toy_pl : ns Q := [("density", scal (1#2)); ("omega", scal (1#3)); ("phi", scal (1#4)); ("age", scal 0)].
(** one unit between two readings *)
Definition toy_clk (i : nat) : Z := Z.of_nat i.
Example C127_nonvacuous : exists rows, run_profile toy_clk (toy_hw 0) toy_pl (1#10) (1#1) 1 = Ok rows /\
  map (fun r => (r_name r, r_time r, r_calls r)) rows =
  [("get_phi", 5, 5); ("gradient_2d", 4, 4); ("poisson_bracket", 8, 8); ("full_step", 33, 1); ("diffuse", 0, 0)]%Z /\
  steady toy_clk.
Proof.
  eexists. split; [vm_compute; reflexivity|]. split; [reflexivity|]. intros i. unfold toy_clk. apply Nat2Z.inj_le, Nat.le_succ_diag_r.
Qed.
Example C127_nonvacuous_diffusion : exists rows, run_profile toy_clk (toy_hw 1) toy_pl (1#10) (1#1) 2 = Ok rows /\
  map (fun r => (r_name r, r_time r, r_calls r)) rows =
  [("get_phi", 9, 9); ("diffuse", 16, 16); ("gradient_2d", 8, 8); ("poisson_bracket", 16, 16); ("full_step", 98, 2)]%Z.
Proof. eexists. split; [vm_compute; reflexivity|reflexivity]. Qed.
Example C127_no_steps_nonvacuous : exists rows, run_profile toy_clk (toy_hw 0) toy_pl (1#10) (1#1) 0 = Ok rows /\
  (toy_clk 0 < toy_clk 1)%Z.
Proof. eexists. split; [vm_compute; reflexivity|reflexivity]. Qed.
