(** Steps, runs and retries in memory; the schemes of the code. *)
From Coq Require Import List Arith ZArith Bool String Lia.
From Verif Require Import Num NdArray ModelGradients ModelArakawa ModelProperties ModelHW ModelSchemes ModelHeap SpecHeap HeapFacts HeapTop.
Import ListNotations.
Local Open Scope nd_scope.
Local Notation len := (@List.length _).

Section Steps.
Context {A : Type} {Nm : Num A} (hb : hbackend A) (hwv : hw A) (Hb : scheme_ok hb (schemes hwv)).
Implicit Types (h : heap A).

Lemma ref_gradient_2d h y v phi phiv dt dx : nsrel h y v -> optrel h phi phiv ->
  refines (len h) h (gradient_2dH hb hwv y phi dt dx) (gradient_2d hwv v phiv dt dx) (fun h' x z => nsrel h' x z).
Proof.
  intros F Ep. unfold gradient_2dH, gradient_2d.
  replace (existsb (fun k => rhas y k) reserved) with (existsb (fun k => ns_has v k) reserved).
  2:{ induction reserved as [|k l IH]; cbn; [reflexivity|]. now rewrite IH, (rhas_rel h y v k F). }
  destruct (existsb _ _); [now apply ref_lift|]. rewrite (rhas_rel h y v "debug" F). destruct (ns_has v "debug"); [now apply ref_lift|].
  pose proof (rget_rel h y v "density" F) as G1. pose proof (rget_rel h y v "omega" F) as G2. pose proof (rget_rel h y v "age" F) as G3.
  destruct (rget y "density"), (ns_get v "density"); try contradiction; [|now apply ref_lift].
  destruct (rget y "omega"), (ns_get v "omega"); try contradiction; [|now apply ref_lift].
  apply (ref_gradient hb hwv Hb); [apply G1|apply G2|exact Ep|]. destruct (rget y "age"), (ns_get v "age"); try contradiction; cbn; [apply G3|exact I].
Qed.
Lemma ref_stage k h y v p pv dtk dt dx : k <= len h -> nsrel h y v -> holds h p pv ->
  refines k h (stageH hb hwv y p dtk dt dx) (stage hwv v pv dtk dt dx) (fun h' x z => nsrel h' x z /\ ext h h' /\ len h <= len h').
Proof.
  intros L F E. unfold stageH, stage. eapply ref_bind; [apply ref_call; [exact L|]; apply (ref_gradient_2d h y v (Some p) (Some pv)); [exact F|exact E]|].
  intros h1 g gv _ (R & E1 & L1). eapply ref_imp; [apply ref_rscale; [lia|exact R]|]. intros h2 x z _ (X1 & X2 & X3 & X4). split; [exact X1|]. split; [now apply ext_trans with h1|lia].
Qed.
Lemma ref_rget k h d v s : nsrel h d v -> refines k h (hlift (rget d s)) (mget v s) (fun h' x y => h' = h /\ holds h x y).
Proof.
  intros F. unfold mget. apply ref_lift. pose proof (rget_rel h d v s F) as G. destruct (rget d s), (ns_get v s); try contradiction; [split; [reflexivity|apply G]|exact G].
Qed.
Lemma fresh_le h h' l : len h <= len h' -> fresh h' l -> fresh h l.
Proof. intros L [F D]. split; [|exact D]. rewrite Forall_forall in F |- *. intros x Hx. specialize (F x Hx). lia. Qed.

(** the end of both steps: a new Namespace gets phi and age *)
Lemma ref_finish k h0 h y yv d v dt dx : k <= len h0 -> len h0 <= len h -> nsrel h y yv -> fresh h0 (map snd y) -> nsrel h d v ->
  refines k h (hbind (hlift (rget y "omega")) (fun om => hbind (get_phiH hb om dx) (fun phi =>
      hbind (hlift (rget d "age")) (fun age => hbind (op1 (fun x => x + sc dt) age) (fun age' => hbind (hlog "full_step") (fun _ => hret (rset (rset y "phi" phi) "age" age')))))))
    (mbind (mget yv "omega") (fun om => mbind (hw_get_phi hwv (Ok om) dx) (fun phi =>
      mbind (mget v "age") (fun age => mbind (mlift (Ok age + sc dt)) (fun age' => mbind (mlog "full_step") (fun _ => mret (ns_set (ns_set yv "phi" phi) "age" age')))))))
    (fun h' x z => nsrel h' x z /\ fresh h0 (map snd x)).
Proof.
  intros L L0 Ry Fy Rd. eapply ref_bind; [apply ref_rget, Ry|]. intros h1 om omv _ (-> & Eo).
  eapply ref_bind; [apply (ref_get_phi hb hwv Hb); [lia|exact Eo]|]. intros h2 p pv _ (Ep & E2 & L2 & L3).
  assert (N1 : ~ In p (map snd y)) by (intros Hi; pose proof (rel_lt _ _ _ _ Ry Hi); lia). carry.
  eapply ref_bind; [apply ref_rget, Rd|]. intros h1 a av _ (-> & Eag).
  pose proof (rset_rel _ _ _ "phi" _ _ Ry Ep) as R1.
  eapply ref_bind; [apply (ref_op1 _ _ (fun x => x + sc dt)); [lia|exact Eag]|]. intros h3 b bv _ (Eb & E3 & L4 & L5).
  assert (N2 : ~ In b (map snd (rset y "phi" p))) by (intros Hi; pose proof (rel_lt _ _ _ _ R1 Hi); lia). carry.
  eapply ref_bind; [apply ref_log with (Q := fun h4 _ _ => h4 = h3); reflexivity|]. intros h4 _ _ _ ->. apply ref_ret. split; [now apply rset_rel|].
  apply rset_fresh; [lia|exact N2|]. apply rset_fresh; [lia|exact N1|exact Fy].
Qed.

Lemma ref_euler h d v dt dx : nsrel h d v ->
  refines (len h) h (euler_stepH hb hwv d dt dx) (euler_step hwv v dt dx) (fun h' x z => nsrel h' x z /\ fresh h (map snd x)).
Proof.
  intros F. unfold euler_stepH, euler_step. cbv zeta. pose proof (rwithout_rel _ _ _ "phi" F) as Fy.
  eapply ref_bind.
  { apply ref_call; [reflexivity|]. apply (ref_gradient_2d h _ _ _ (match ns_get v "phi" with Ok p => Some p | Exn _ => None end)); [exact Fy|].
    pose proof (rget_rel h d v "phi" F) as G. destruct (rget d "phi"), (ns_get v "phi"); try contradiction; cbn; [apply G|exact I]. }
  intros h1 g gv _ (R & E1 & L1). carry. eapply ref_bind; [apply ref_rscale; [lia|exact R]|]. intros h2 s sv _ (R2 & _ & E2 & L2). carry.
  eapply ref_bind; [apply ref_radd; [lia|exact Fy|exact R2]|]. intros h3 y yv _ (R3 & F3 & E3 & L3). carry.
  apply (ref_finish _ h h3); [lia|lia|exact R3| |exact F]. apply fresh_le with h2; [lia|exact F3].
Qed.
Lemma ref_rk4 h d v dt dx : nsrel h d v ->
  refines (len h) h (rk4_stepH hb hwv d dt dx) (rk4_step hwv v dt dx) (fun h' x z => nsrel h' x z /\ fresh h (map snd x)).
Proof.
  intros F. unfold rk4_stepH, rk4_step. cbv zeta. pose proof (rwithout_rel _ _ _ "phi" F) as Fy.
  eapply ref_bind; [apply ref_rget, F|]. intros h1 pn pnv _ (-> & Ep).
  eapply ref_bind; [apply ref_stage; [lia|exact Fy|exact Ep]|]. intros h1 k1 k1v _ (K1 & E1 & L1). carry.
  eapply ref_bind; [apply ref_rscale; [lia|exact K1]|]. intros h2 t1 t1v _ (T1 & _ & E2 & L2). carry.
  eapply ref_bind; [apply ref_radd; [lia|exact Fy|exact T1]|]. intros h3 y1 y1v _ (Y1 & _ & E3 & L3). carry.
  eapply ref_bind; [apply ref_rget, Y1|]. intros hh o1 o1v _ (-> & Eo1).
  eapply ref_bind; [apply (ref_get_phi hb hwv Hb); [lia|exact Eo1]|]. intros h4 p1 p1v _ (P1 & E4 & _ & L4). carry.
  eapply ref_bind; [apply ref_stage; [lia|exact Y1|exact P1]|]. intros h5 k2 k2v _ (K2 & E5 & L5). carry.
  eapply ref_bind; [apply ref_rscale; [lia|exact K2]|]. intros h6 t2 t2v _ (T2 & _ & E6 & L6). carry.
  eapply ref_bind; [apply ref_radd; [lia|exact Fy|exact T2]|]. intros h7 y2 y2v _ (Y2 & _ & E7 & L7). carry.
  eapply ref_bind; [apply ref_rget, Y2|]. intros hh o2 o2v _ (-> & Eo2).
  eapply ref_bind; [apply (ref_get_phi hb hwv Hb); [lia|exact Eo2]|]. intros h8 p2 p2v _ (P2 & E8 & _ & L8). carry.
  eapply ref_bind; [apply ref_stage; [lia|exact Y2|exact P2]|]. intros h9 k3 k3v _ (K3 & E9 & L9). carry.
  eapply ref_bind; [apply ref_radd; [lia|exact Fy|exact K3]|]. intros h10 y3 y3v _ (Y3 & _ & E10 & L10). carry.
  eapply ref_bind; [apply ref_rget, Y3|]. intros hh o3 o3v _ (-> & Eo3).
  eapply ref_bind; [apply (ref_get_phi hb hwv Hb); [lia|exact Eo3]|]. intros h11 p3 p3v _ (P3 & E11 & _ & L11). carry.
  eapply ref_bind; [apply ref_stage; [lia|exact Y3|exact P3]|]. intros h12 k4 k4v _ (K4 & E12 & L12). carry.
  eapply ref_bind; [apply ref_rscale; [lia|exact K2]|]. intros h13 s1 s1v _ (S1 & _ & E13 & L13). carry.
  eapply ref_bind; [apply ref_radd; [lia|exact K1|exact S1]|]. intros h14 s2 s2v _ (S2 & _ & E14 & L14). carry.
  eapply ref_bind; [apply ref_rscale; [lia|exact K3]|]. intros h15 s3 s3v _ (S3 & _ & E15 & L15). carry.
  eapply ref_bind; [apply ref_radd; [lia|exact S2|exact S3]|]. intros h16 s4 s4v _ (S4 & _ & E16 & L16). carry.
  eapply ref_bind; [apply ref_radd; [lia|exact S4|exact K4]|]. intros h17 s5 s5v _ (S5 & _ & E17 & L17). carry.
  eapply ref_bind; [apply ref_rscale; [lia|exact S5]|]. intros h18 s6 s6v _ (S6 & _ & E18 & L18). carry.
  eapply ref_bind; [apply ref_radd; [lia|exact Fy|exact S6]|]. intros h19 yk ykv _ (Yk & F19 & E19 & L19). carry.
  apply (ref_finish _ h h19); [lia|lia|exact Yk| |exact F]. apply fresh_le with h18; [lia|exact F19].
Qed.

(** ** Runs *)
Section Runs.
Context (stepH : rns -> H A rns) (step : ns A -> M (ns A)).
Hypothesis Hs : forall h d v, nsrel h d v -> refines (len h) h (stepH d) (step v) (fun h' x z => nsrel h' x z /\ fresh h (map snd x)).

(** the states of a run on values, the last one first *)
Fixpoint run_vals (k : nat) (v : ns A) : M (list (ns A)) :=
  match k with
  | O => mret [v]
  | S k' => mbind (run_vals k' v) (fun l => mbind (step (hd [] l)) (fun p => mret (p :: l)))
  end.
Lemma ref_run k h d v : nsrel h d v ->
  refines (len h) h (runH stepH k d) (run_vals k v) (fun h' x z => Forall2 (nsrel h') x z /\ nsrel h' (hd [] x) (hd [] z)).
Proof.
  intros F. induction k as [|k IH]; cbn [runH run_vals].
  - apply ref_ret. split; [now repeat constructor|exact F].
  - eapply ref_bind; [exact IH|]. intros h1 l lv K (R & R1).
    eapply ref_bind; [apply ref_call; [apply K|]; apply Hs, R1|]. intros h2 x z _ ((R2 & _) & E2 & L2). apply ref_ret. split; [|exact R2].
    constructor; [exact R2|]. clear - R E2. induction R; constructor; [now apply nsrel_ext with h1|assumption].
Qed.
Fixpoint logs (k : nat) (l : list string) : list string := match k with O => [] | S k' => (l ++ logs k' l)%list end.
(** a step that raises leaves the plasma as it was, so another attempt does the same *)
Lemma retry_exn k h d v l e : nsrel h d v -> step v = (l, Exn e) ->
  let '(l', (h', r)) := retryH stepH k d h in l' = logs k l /\ kept (len h) h h' /\ r = Exn OutOfFuel.
Proof.
  intros F E. revert h F. induction k as [|k IH]; intros h F; cbn; [split; [reflexivity|split; [apply kept_refl|reflexivity]]|].
  pose proof (Hs h d v F) as R. unfold refines in R. rewrite E in R. cbn [fst snd] in R. destruct (stepH d h) as [l1 [h1 [x|e1]]]; destruct R as (-> & K & R); [easy|].
  specialize (IH h1 (nsrel_ext _ _ _ _ (kept_ext _ _ K) F)). destruct (retryH stepH k d h1) as [l2 [h2 r2]]. destruct IH as (-> & K2 & ->).
  split; [reflexivity|]. split; [|reflexivity]. apply kept_trans with h1; [exact K|]. apply kept_le with (len h1); [apply K|exact K2].
Qed.
End Runs.
End Steps.

Section Schemes.
Context {A : Type} {Nm : Num A}.
Implicit Types (h : heap A).
Lemma ref_loop g f : (forall h r a, holds h r a -> refines (len h) h (f r) (mlift (g (Ok a))) (made h)) -> (forall e, g (Exn e) = Exn e) -> forall k h r a, holds h r a ->
  refines (len h) h (loopH k f r) (mlift (loop k g (Ok a))) (fun h' x y => holds h' x y /\ (len h <= x \/ x = r /\ k = 0)).
Proof.
  intros Hf He. induction k as [|k IH]; intros h r a E; cbn [loopH loop].
  - change (mlift (Ok a)) with (mret a). apply ref_ret. split; [exact E|now right].
  - assert (P : mlift (loop k g (g (Ok a))) = mbind (mlift (g (Ok a))) (fun b => mlift (loop k g (Ok b)))).
    { destruct (g (Ok a)) as [b|e]; [reflexivity|]. assert (loop k g (Exn e) = Exn e) as ->; [|reflexivity]. clear -He. induction k; cbn; [reflexivity|]. now rewrite He. }
    rewrite P. eapply ref_bind; [apply Hf, E|]. intros h1 s b K (M1 & E1 & L1 & L2). eapply ref_imp; [apply ref_call; [exact L2|]; apply IH, M1|].
    intros h2 x y _ ((X1 & X2) & _ & _). split; [exact X1|left]. destruct X2 as [X2|[-> _]]; lia.
Qed.
Lemma np_laplace_exn e (dx : A) : np_periodic_laplace (Exn e) dx = Exn e.
Proof. reflexivity. Qed.
Lemma ref_np_laplace_N h r a dx N : holds h r a ->
  refines (len h) h (np_periodic_laplace_NH r dx N) (mlift (np_periodic_laplace_N (Ok a) dx N)) (fun h' x y => holds h' x y /\ (len h <= x \/ x = r /\ Z.to_nat N = 0)).
Proof.
  intros E. apply (ref_loop (fun a => np_periodic_laplace a dx)); [|reflexivity|exact E]. intros h1 r1 a1 E1. apply (ref_op1 _ _ (fun x => np_periodic_laplace x dx)); [lia|exact E1].
Qed.
Lemma ref_grad g h r a dx axis : holds h r a ->
  refines (len h) h (gradH g r dx axis) (mlift (g (Ok a) dx axis))
    (fun h' x y => match x, y with Some s, Some v => holds h' s v /\ (len h <= s \/ s = r) | None, None => True | _, _ => False end).
Proof.
  intros E. unfold gradH. apply (ref_rd _ _ _ a); [exact E|]. destruct (g (Ok a) dx axis) as [[b|]|e].
  - change (mlift (Ok (Some b))) with (mbind (mlift (Ok b)) (fun b => mret (Some b))). eapply ref_bind; [apply ref_new; lia|]. intros h1 s v _ (X1 & X2 & X3 & X4).
    apply ref_ret. split; [exact X1|lia].
  - change (mlift (Ok (@None (arr A)))) with (mret (@None (arr A))). now apply ref_ret.
  - now apply ref_lift.
Qed.
Theorem np_heap_ok solver : (forall e dx, solver (Exn e) dx = Exn e) -> scheme_ok (np_heap solver) (np_schemes solver).
Proof.
  intros He. split; cbn [np_heap np_schemes h_poisson h_diffuse h_bracket h_gradient poisson_solver diffuse_N poisson_bracket gradient_func].
  - intros h r a dx E. eapply ref_imp; [apply (ref_op1 _ _ (fun t => solver t dx)); [lia|exact E]|]. intros h' x y _ (X1 & X2 & X3 & X4). auto.
  - exact He.
  - intros h r a dx N E. eapply ref_imp; [apply ref_np_laplace_N, E|]. intros h' x y _ (X1 & X2). split; [exact X1|tauto].
  - intros h r s a c dx E F. eapply ref_imp; [apply (ref_op2 _ _ (fun z p => np_periodic_arakawa_vec z p dx)); [lia|exact E|exact F]|]. intros h' x y _ (X1 & X2 & X3 & X4). auto.
  - intros h r a dx axis E. now apply ref_grad.
Qed.
Theorem nb_heap_ok solver : (forall e dx, solver (Exn e) dx = Exn e) -> scheme_ok (nb_heap solver) (nb_schemes solver).
Proof.
  intros He. split; cbn [nb_heap nb_schemes h_poisson h_diffuse h_bracket h_gradient poisson_solver diffuse_N poisson_bracket gradient_func].
  - intros h r a dx E. eapply ref_imp; [apply (ref_op1 _ _ (fun t => solver t dx)); [lia|exact E]|]. intros h' x y _ (X1 & X2 & X3 & X4). auto.
  - exact He.
  - intros h r a dx N E. unfold nb_periodic_laplace_NH, nb_periodic_laplace_N. cbn [bind]. destruct (N <? 0)%Z.
    + eapply ref_eq with (q := mbind (mlift (Exn ValueError : nd A)) (fun b => mlift (loop (Z.to_nat N) (fun a => nb_laplace a dx) (Ok b)))); [reflexivity|].
      eapply ref_bind with (Q := fun _ _ _ => False); [now apply ref_lift|easy].
    + assert (P : mlift (nb_laplace_N (pad_all (Z.to_nat N) (Ok a)) dx N) = mbind (mlift (pad_all (Z.to_nat N) (Ok a))) (fun b => mlift (loop (Z.to_nat N) (fun a => nb_laplace a dx) (Ok b)))).
      { unfold nb_laplace_N. destruct (pad_all _ _) as [b|e]; [reflexivity|]. assert (loop (Z.to_nat N) (fun a => nb_laplace a dx) (Exn e) = Exn e) as ->; [|reflexivity].
        generalize (Z.to_nat N). intros k. induction k as [|k IH]; cbn [loop]; [reflexivity|]. exact IH. }
      rewrite P. eapply ref_bind; [apply ref_op1; [lia|exact E]|]. intros h1 s b K (M1 & E1 & L1 & L2). eapply ref_imp.
      * apply ref_call; [exact L2|]. apply (ref_loop (fun a => nb_laplace a dx)); [|reflexivity|exact M1]. intros h2 r2 a2 E2. apply (ref_op1 _ _ (fun x => nb_laplace x dx)); [lia|exact E2].
      * intros h2 x y _ ((X1 & X2) & _ & _). split; [exact X1|]. lia.
  - intros h r s a c dx E F. eapply ref_imp; [apply (ref_op2 _ _ (fun z p => nb_periodic_arakawa_stencil z p dx)); [lia|exact E|exact F]|]. intros h' x y _ (X1 & X2 & X3 & X4). auto.
  - intros h r a dx axis E. now apply ref_grad.
Qed.
Lemma ref_enstrophy_phi h n nv p pv dx : holds h n nv -> holds h p pv ->
  refines (len h) h (get_enstrophy_phiH n p dx) (mlift (get_enstrophy_phi (Ok nv) (Ok pv) dx)) (fun h' x y => holds h' x y /\ len h <= x).
Proof.
  intros En Ep. unfold get_enstrophy_phiH, enstrophy_phi_at, get_enstrophy_phi. cbv zeta.
  assert (P : mlift (mean_last2 (powk (Ok nv - isub (np_periodic_laplace_N (Ok pv) dx 1) (mean_last2_keep (np_periodic_laplace_N (Ok pv) dx 1))) 2) / sc (nofZ 2)) =
    mbind (mlift (np_periodic_laplace_N (Ok pv) dx 1)) (fun o => mbind (mlift (mean_last2_keep (Ok o))) (fun m => mbind (mlift (isub (Ok o) (Ok m))) (fun o => mlift (mean_last2 (powk (Ok nv - Ok o) 2) / sc (nofZ 2)))))).
  { destruct (np_periodic_laplace_N (Ok pv) dx 1) as [o|e]; [|reflexivity]. cbn [mbind mlift]. destruct (mean_last2_keep (Ok o)) as [m|e]; [|reflexivity]. cbn [mbind mlift].
    destruct (isub (Ok o) (Ok m)) as [q|e]; [|reflexivity]. reflexivity. }
  rewrite P. clear P. eapply ref_bind; [apply ref_call; [reflexivity|]; apply ref_np_laplace_N, Ep|]. intros h1 o ov _ ((X1 & X2) & E1 & L1).
  assert (Lo : len h <= o) by (destruct X2 as [X2|[_ X2]]; [exact X2|discriminate]). pose proof (holds_lt _ _ _ En) as Bn. carry.
  eapply ref_bind; [apply ref_op1; [lia|exact X1]|]. intros h2 m mv _ (M2 & E2 & L2 & L3). carry.
  eapply ref_bind; [apply ref_inplace; [exact Lo|exact X1|exact M2]|]. cbn beta. intros h3 x y _ (-> & Y1 & Y2 & Y3). carrybut.
  eapply ref_imp; [apply (ref_op2 _ _ (fun n omega => (mean_last2 (powk (n - omega) 2) / sc (nofZ 2))%nd)); [lia|exact En|exact Y1]|].
  intros h4 x y' _ (Z1 & Z2 & Z3 & Z4). split; [exact Z1|lia].
Qed.
End Schemes.

Section RunVals.
Context {A : Type} {Nm : Num A} (step : ns A -> M (ns A)).
Lemma steps_snoc k v : steps step (S k) v = mbind (steps step k v) step.
Proof.
  revert v. induction k as [|k IH]; intros v.
  - cbn. destruct (step v) as [l [x|e]]; cbn; [now rewrite app_nil_r|reflexivity].
  - change (steps step (S (S k)) v) with (mbind (step v) (steps step (S k))). change (steps step (S k) v) with (mbind (step v) (steps step k)). rewrite mbind_assoc.
    destruct (step v) as [l [x|e]]; cbn [mbind]; [now rewrite IH|reflexivity].
Qed.
Lemma run_vals_steps k v : match snd (run_vals step k v), snd (steps step k v) with
  | Ok l, Ok x => hd [] l = x /\ forall j, j <= k -> snd (steps step j v) = Ok (nth (k - j) l [])
  | Exn a, Exn b => a = b
  | _, _ => False
  end /\ fst (run_vals step k v) = fst (steps step k v).
Proof.
  induction k as [|k [IH IL]]; [cbn; split; [split; [reflexivity|intros j Hj; replace j with 0 by lia; reflexivity]|reflexivity]|].
  rewrite steps_snoc. cbn [run_vals]. destruct (run_vals step k v) as [l [x|e]], (steps step k v) as [l2 [y|e2]] eqn:Hk; cbn [fst snd mbind] in *; try contradiction; [|now split].
  destruct IH as [<- IH]. subst l2. destruct (step (hd [] x)) as [l3 [z|e3]] eqn:T; cbn [mbind mret fst snd hd]; [|now split].
  split; [|now rewrite app_nil_r]. split; [reflexivity|]. intros j Hj. destruct (Nat.eq_dec j (S k)) as [->|Hn].
  - rewrite steps_snoc, Hk. cbn [mbind]. rewrite T, Nat.sub_diag. reflexivity.
  - rewrite IH by lia. replace (S k - j)%nat with (S (k - j))%nat by lia. reflexivity.
Qed.
End RunVals.
