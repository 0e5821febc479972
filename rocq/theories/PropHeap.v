(** Property C137: arrays in memory. *)
From Coq Require Import List Arith ZArith Bool String Lia QArith Reals.
From Verif Require Import Num NdArray ModelGradients ModelArakawa ModelProperties ModelPoisson ModelHW ModelBackend ModelSchemes ModelHeap SpecHeap HeapFacts HeapTop HeapSteps.
Import ListNotations.
Local Open Scope nat_scope.
Local Notation len := (@List.length _).

(** One step: the calls, the exception and the values are those of ModelHW.v,
    even when several keys hold the same array; no array that existed before is
    changed, also not by a step that raises; the arrays of the result are new
    and pairwise different. *)
Theorem C137_rk4 {A} {Nm : Num A} (hb : hbackend A) (p : hw A) : scheme_ok hb (schemes p) -> forall h d v dt dx, nsrel h d v ->
  refines (len h) h (rk4_stepH hb p d dt dx) (rk4_step p v dt dx) (fun h' x y => nsrel h' x y /\ fresh h (map snd x)).
Proof. exact (ref_rk4 hb p). Qed.
Print Assumptions C137_rk4.
Theorem C137_euler {A} {Nm : Num A} (hb : hbackend A) (p : hw A) : scheme_ok hb (schemes p) -> forall h d v dt dx, nsrel h d v ->
  refines (len h) h (euler_stepH hb p d dt dx) (euler_step p v dt dx) (fun h' x y => nsrel h' x y /\ fresh h (map snd x)).
Proof. exact (ref_euler hb p). Qed.
Print Assumptions C137_euler.
(** Every state of a run still holds, at its end, the values it had. *)
Theorem C137_run {A} {Nm : Num A} (hb : hbackend A) (p : hw A) : scheme_ok hb (schemes p) -> forall h d v dt dx k l h' r, nsrel h d v ->
  runH (fun y => rk4_stepH hb p y dt dx) k d h = (l, (h', Ok r)) ->
  kept (len h) h h' /\ l = fst (steps (fun y => rk4_step p y dt dx) k v) /\
  forall j, j <= k -> exists vj, snd (steps (fun y => rk4_step p y dt dx) j v) = Ok vj /\ nsrel h' (nth (k - j) r []) vj.
Proof.
  intros Hb h d v dt dx k l h' r F E.
  pose proof (ref_run (fun y => rk4_stepH hb p y dt dx) (fun y => rk4_step p y dt dx) (fun h d v => ref_rk4 hb p Hb h d v dt dx) k h d v F) as R.
  destruct (run_vals_steps (fun y => rk4_step p y dt dx) k v) as [V L]. unfold refines in R. rewrite E in R. destruct R as (-> & K & R). split; [exact K|]. split; [exact L|].
  destruct (snd (run_vals _ k v)) as [lv|e]; [|easy]. destruct (snd (steps _ k v)) as [x|e]; [|easy]. destruct V as [_ V]. intros j Hj. exists (nth (k - j) lv []). split; [now apply V|].
  destruct R as [R _]. clear - R. revert j. intros j. generalize (k - j). intros i. revert i. induction R as [|a b r lv X R IH]; intros [|i]; cbn; try constructor; auto.
Qed.
Print Assumptions C137_run.
(** A step that raises can be tried again: it raises again, any number of times. *)
Theorem C137_retry {A} {Nm : Num A} (hb : hbackend A) (p : hw A) : scheme_ok hb (schemes p) -> forall h d v dt dx l e k, nsrel h d v -> rk4_step p v dt dx = (l, Exn e) ->
  let '(l', (h', r)) := retryH (fun y => rk4_stepH hb p y dt dx) k d h in l' = logs k l /\ kept (len h) h h' /\ r = Exn OutOfFuel.
Proof. intros Hb h d v dt dx l e k. exact (retry_exn (fun y => rk4_stepH hb p y dt dx) (fun y => rk4_step p y dt dx) (fun h d v => ref_rk4 hb p Hb h d v dt dx) k h d v l e). Qed.
Print Assumptions C137_retry.
(** The schemes of the code; periodic_laplace_N may return its argument. *)
Theorem C137_schemes : scheme_ok (np_heap (fun t dx => np_fourier_poisson_double t dx 1)) np_backend /\ scheme_ok (nb_heap (fun t dx => nb_fourier_poisson_double t dx 1)) nb_backend /\
  forall A (Nm : Num A) solver, (forall e dx, solver (Exn e) dx = Exn e) -> scheme_ok (np_heap solver) (np_schemes solver) /\ scheme_ok (nb_heap solver) (nb_schemes solver).
Proof.
  split; [rewrite <- np_schemes_R; now apply np_heap_ok|]. split; [rewrite <- nb_schemes_R; now apply nb_heap_ok|]. intros A Nm s Hs. split; [now apply np_heap_ok|now apply nb_heap_ok].
Qed.
Print Assumptions C137_schemes.
(** get_enstrophy_phi subtracts in place, but not from phi. *)
Theorem C137_enstrophy_phi {A} {Nm : Num A} : forall (h : heap A) n nv p pv dx, holds h n nv -> holds h p pv ->
  refines (len h) h (get_enstrophy_phiH n p dx) (mlift (get_enstrophy_phi (Ok nv) (Ok pv) dx)) (fun h' x y => holds h' x y /\ len h <= x).
Proof. exact ref_enstrophy_phi. Qed.
Print Assumptions C137_enstrophy_phi.
(** A copy of a Namespace shares its arrays: every in-place operation on an
    array of the copy changes the array of the original. *)
Theorem C137_copy_independent_refuted {A} {Nm : Num A} : forall (h : heap A) (d : rns) k r s a b c f, rget d k = Ok r -> holds h r a -> holds h s b -> f (Ok a) (Ok b) = Ok c ->
  exists r' h', rget (rcopy d) k = Ok r' /\ inplace f r' s h = ([], (h', Ok r')) /\ holds h' r c.
Proof.
  intros h d k r s a b c f Hr Ha Hb Hf. exists r. exists (upd h r c). split; [|split].
  - unfold rcopy. rewrite <- Hr. f_equal. rewrite <- (map_id d) at 2. apply map_ext. now intros [].
  - unfold inplace. rewrite (rd_ok _ _ _ _ Ha), (rd_ok _ _ _ _ Hb), Hf. reflexivity.
  - apply upd_same. eapply holds_lt, Ha.
Qed.
Print Assumptions C137_copy_independent_refuted.

(** density, omega and phi are one array, N = 0 (periodic_laplace_N returns its
    argument): the result has separate arrays and the state is intact *)
#[local] Existing Instance NumQ.
Definition mem2 : heap Q := [build [2; 2] (fun ix => match ix with [0; 0] => 1%Q | [1; 0] => 2%Q | _ => 0%Q end); scal 0%Q].
Definition one_array : rns := [("density", 0); ("omega", 0); ("phi", 0); ("age", 1)]%string.
Definition hwq : hw Q := hw_init (np_schemes (fun t _ => t)) 1%Q 0 1%Q (-1)%Q 1%Q 1%Q false false.
Example C137_case : scheme_ok (np_heap (fun t _ => t)) (schemes hwq) /\
  nsrel mem2 one_array (map (fun kr => (fst kr, nth (snd kr) mem2 (scal 0%Q))) one_array) /\
  match rk4_stepH (np_heap (fun t _ => t)) hwq one_array 1%Q 1%Q mem2 with
  | (_, (h', Ok d)) => firstn 2 h' = mem2 /\ map fst d = ["density"; "omega"; "age"; "phi"]%string /\ nth_error (map snd d) 0 <> nth_error (map snd d) 1
  | _ => False
  end.
Proof.
  split; [now apply np_heap_ok|]. split; [repeat constructor|]. vm_compute. repeat split. discriminate.
Qed.
(** with periodic_laplace_N(phi, dx, N=0) in get_enstrophy_phi the caller's phi
    would be overwritten *)
Example C137_enstrophy_case : (let '(_, (h', _)) := enstrophy_phi_at 0 0 0 1%Q mem2 in nth_error h' 0 <> nth_error mem2 0) /\
  (let '(_, (h', r)) := get_enstrophy_phiH 0 0 1%Q mem2 in nth_error h' 0 = nth_error mem2 0 /\ exists x, r = Ok x).
Proof. split; vm_compute; [discriminate|split; [reflexivity|eauto]]. Qed.
