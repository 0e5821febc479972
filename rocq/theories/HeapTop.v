(** The step functions in memory do what they do on values. *)
From Coq Require Import List Arith ZArith Bool String Lia.
From Verif Require Import Num NdArray ModelGradients ModelArakawa ModelProperties ModelHW ModelSchemes ModelHeap SpecHeap HeapFacts.
Import ListNotations.
Local Open Scope nd_scope.
Local Notation len := (@List.length _).

Ltac carry := repeat match goal with
  | E : ext ?h ?h2, F : holds ?h ?r ?v |- _ => apply E in F
  | E : ext ?h ?h2, F : nsrel ?h ?d ?v |- _ => apply (nsrel_ext _ _ _ _ E) in F
  end.
Ltac carrybut := repeat match goal with
  | E : extbut ?o ?h ?h2, F : holds ?h ?r ?v |- _ => apply E in F; [|lia]
  end.

Section Top.
Context {A : Type} {Nm : Num A} (hb : hbackend A) (hwv : hw A) (Hb : scheme_ok hb (schemes hwv)).
Implicit Types (h : heap A).

Lemma sub_bind (x y : nd A) : (x - y)%nd = (let* a := x in let* b := y in Ok a - Ok b)%nd.
Proof. destruct x, y; reflexivity. Qed.
Lemma add_bind (x y : nd A) : (x + y)%nd = (let* a := x in let* b := y in Ok a + Ok b)%nd.
Proof. destruct x, y; reflexivity. Qed.
Lemma mul_bind (x : A) (y : nd A) : (sc x * y)%nd = (let* b := y in sc x * Ok b)%nd.
Proof. destruct y; reflexivity. Qed.

Lemma ref_get_phi k h r a dx : k <= len h -> holds h r a -> refines k h (get_phiH hb r dx) (hw_get_phi hwv (Ok a) dx) (made h).
Proof.
  intros L E. unfold hw_get_phi, get_phiH. cbv zeta.
  assert (P : mlift (poisson_solver (schemes hwv) (Ok a - mean_all (Ok a)) dx) =
    mbind (mlift (mean_all (Ok a))) (fun m => mbind (mlift (Ok a - Ok m)) (fun c => mlift (poisson_solver (schemes hwv) (Ok c) dx)))).
  { destruct (mean_all (Ok a)) as [m|e]; cbn [mlift mbind].
    - destruct (Ok a - Ok m) as [c|e]; cbn; [now destruct poisson_solver|now rewrite (ok_poisson_exn _ _ Hb)].
    - replace (Ok a - Exn e) with (Exn e : nd A) by reflexivity. now rewrite (ok_poisson_exn _ _ Hb). }
  rewrite P. clear P.
  assert (As : forall {X Y Z} (m : M X) (f : X -> M Y) (g : Y -> M Z), mbind (mbind m f) g = mbind m (fun x => mbind (f x) g)).
  { intros X Y Z [l [x|e]] f g; cbn; [|reflexivity]. destruct (f x) as [l2 [y|e]]; cbn; [|reflexivity]. destruct (g y). now rewrite app_assoc. }
  rewrite As. eapply ref_bind; [now apply ref_op1|]. intros h1 m mv K1 (M1 & E1 & L1 & L2). carry.
  rewrite As. eapply ref_bind; [apply ref_op2; [lia|exact E|exact M1]|]. intros h2 c cv K2 (M2 & E2 & L3 & L4). carry.
  eapply ref_bind; [apply ref_call; [|apply (ok_poisson _ _ Hb); exact M2]; lia|]. intros h3 p pv K3 ((M3 & O3) & E3 & L5). carry.
  eapply ref_bind; [apply ref_log with (Q := fun h4 _ _ => h4 = h3); reflexivity|]. intros h4 _ _ _ ->.
  apply ref_ret. split; [exact M3|]. split; [|lia]. now apply ext_trans with h1; [|apply ext_trans with h2].
Qed.
Lemma ref_diffuse k h r a dx N : k <= len h -> holds h r a ->
  refines k h (diffuseH hb r dx N) (hw_diffuse hwv (Ok a) dx N) (fun h' x y => holds h' x y /\ ext h h' /\ len h <= len h').
Proof.
  intros L E. unfold hw_diffuse, diffuseH. eapply ref_bind; [apply ref_call; [exact L|apply (ok_diffuse _ _ Hb); exact E]|].
  intros h1 p pv K1 ((M & _) & E1 & L1). eapply ref_bind; [apply ref_log with (Q := fun h4 _ _ => h4 = h1); reflexivity|]. intros h4 _ _ _ ->.
  now apply ref_ret.
Qed.
(** c * (something that may raise) *)
Lemma mlift_mul c (x : nd A) : mlift (sc c * x) = mbind (mlift x) (fun b => mlift (sc c * Ok b)).
Proof. rewrite mul_bind. apply mlift_bind. Qed.
Lemma mbind_assoc {X Y Z} (m : M X) (f : X -> M Y) (g : Y -> M Z) : mbind (mbind m f) g = mbind m (fun x => mbind (f x) g).
Proof. destruct m as [l [x|e]]; cbn; [|reflexivity]. destruct (f x) as [l2 [y|e]]; cbn; [|reflexivity]. destruct (g y). now rewrite app_assoc. Qed.

(** the two accumulations of hw2d_gradient: c1 * diff, then in place *)
Definition addpb (phi w : ref) dx (o : ref) : H A ref :=
  if truthy (hpb hwv) then
    hbind (h_bracket hb phi w dx) (fun br => hbind (op1 (fun x => sc (nopp (hpb hwv)) * x) br) (fun c => hbind (hlog "poisson_bracket") (fun _ => inplace iadd o c)))
  else hret o.
Definition addpbv (phi w : arr A) dx (o : arr A) : M (arr A) :=
  if truthy (hpb hwv) then
    mbind (mlift (sc (nopp (hpb hwv)) * poisson_bracket (schemes hwv) (Ok phi) (Ok w) dx)) (fun c => mbind (mlog "poisson_bracket") (fun _ => mlift (iadd (Ok o) (Ok c))))
  else mret o.
Definition accum (o : ref) h h' (x : ref) (y : arr A) : Prop := x = o /\ holds h' o y /\ extbut o h h' /\ len h <= len h'.
Lemma ref_addpb k h p pv w wv o ov dx : k <= o -> k <= len h -> holds h p pv -> holds h w wv -> holds h o ov ->
  refines k h (addpb p w dx o) (addpbv pv wv dx ov) (accum o h).
Proof.
  intros L L0 E F G. unfold addpb, addpbv. destruct (truthy (hpb hwv)); [|now apply ref_ret; repeat split; try intros ? ? ?].
  rewrite mlift_mul, mbind_assoc. eapply ref_bind; [apply ref_call; [exact L0|apply (ok_bracket _ _ Hb); [exact E|exact F]]|].
  intros h1 b bv _ ((M1 & _) & E1 & L1). carry. eapply ref_bind; [apply (ref_op1 _ _ (fun x => sc _ * x)); [lia|exact M1]|].
  intros h2 c cv _ (M2 & E2 & L2 & L3). carry. eapply ref_bind; [apply ref_log with (Q := fun h4 _ _ => h4 = h2); reflexivity|]. intros h4 _ _ _ ->.
  eapply ref_imp; [apply ref_inplace; [exact L|exact G|exact M2]|]. cbn. intros h3 x y _ (-> & X1 & X2 & X3). split; [reflexivity|]. split; [exact X1|].
  split; [|lia]. intros r v Hr Hv. apply X2; [exact Hr|]. now apply E2, E1.
Qed.
(** nu * diffuse(w), added in place; both are needed later for the density *)
Lemma ref_addnu k h w wv o ov dx : k <= o -> k <= len h -> holds h w wv -> holds h o ov ->
  refines k h (hbind (diffuseH hb w dx (hN hwv)) (fun d => hbind (op1 (fun x => sc (hnu hwv) * x) d) (fun D => hbind (inplace iadd o D) (fun o => hret (o, D)))))
    (mbind (hw_diffuse hwv (Ok wv) dx (hN hwv)) (fun d => mbind (mlift (sc (hnu hwv) * Ok d)) (fun D => mbind (mlift (iadd (Ok ov) (Ok D))) (fun o => mret (o, D)))))
    (fun h' x y => accum o h h' (fst x) (fst y) /\ holds h' (snd x) (snd y) /\ len h <= snd x).
Proof.
  intros L L0 E F. eapply ref_bind; [apply ref_diffuse; [exact L0|exact E]|]. intros h1 d dv _ (M1 & E1 & L1). carry.
  eapply ref_bind; [apply (ref_op1 _ _ (fun x => sc _ * x)); [lia|exact M1]|]. intros h2 c cv _ (M2 & E2 & L2 & L3). pose proof (holds_lt _ _ _ F) as Lo. carry.
  eapply ref_bind; [apply ref_inplace; [exact L|exact F|exact M2]|]. cbn beta. intros h3 x y _ (-> & X1 & X2 & X3). apply ref_ret. cbn [fst snd].
  split; [|split; [apply X2; [lia|exact M2]|lia]]. split; [reflexivity|]. split; [exact X1|]. split; [|lia]. intros r v Hr Hv. apply X2; [exact Hr|]. now apply E2, E1.
Qed.

Definition diffv (zonal : bool) (phi n : arr A) : nd A :=
  if zonal then zonal_transform (Ok phi) - zonal_transform (Ok n) else Ok phi - Ok n.
Lemma ref_diff k h (zonal : bool) p pv n nv : k <= len h -> holds h p pv -> holds h n nv ->
  refines k h (if zonal then hbind (op1 zonal_transform p) (fun zp => hbind (op1 zonal_transform n) (fun zn => op2 (fun x y => x - y) zp zn))
               else op2 (fun x y => x - y) p n) (mlift (diffv zonal pv nv)) (made h).
Proof.
  intros L E F. unfold diffv. destruct zonal; [|now apply (ref_op2 _ _ (fun x y => x - y))].
  rewrite sub_bind, mlift_bind. eapply ref_bind; [now apply ref_op1|]. intros h1 zp zpv _ (M1 & E1 & L1 & L2). carry.
  rewrite mlift_bind. eapply ref_bind; [apply ref_op1; [lia|exact F]|]. intros h2 zn znv _ (M2 & E2 & L3 & L4). carry.
  eapply ref_imp; [apply (ref_op2 _ _ (fun x y => x - y)); [lia|exact M1|exact M2]|]. intros h3 x y _ (M3 & E3 & L5 & L6). split; [exact M3|].
  split; [|lia]. now apply ext_trans with h1; [|apply ext_trans with h2].
Qed.
Lemma ref_gammas k h n nv p pv : k <= len h -> holds h n nv -> holds h p pv ->
  refines k h (get_gammasH hwv n p) (mlift (hw_get_gammas hwv (Ok nv) (Ok pv)))
    (fun h' x y => holds h' (fst x) (fst y) /\ holds h' (snd x) (snd y) /\ ext h h' /\ len h <= len h').
Proof.
  intros L E F. unfold hw_get_gammas, get_gammasH. rewrite mlift_bind.
  eapply ref_bind; [apply (ref_op2 _ _ (fun n p => get_gamma_n n p (hdx hwv) None)); [exact L|exact E|exact F]|]. intros h1 a av _ (M1 & E1 & L1 & L2). carry.
  rewrite mlift_bind. eapply ref_bind; [apply (ref_op2 _ _ (fun n p => get_gamma_c n p (hc1 hwv) (hdx hwv))); [lia|exact E|exact F]|]. intros h2 b bv _ (M2 & E2 & L3 & L4). carry.
  change (mlift (Ok (av, bv))) with (mret (av, bv)). apply ref_ret. cbn [fst snd]. split; [exact M1|]. split; [exact M2|]. split; [now apply ext_trans with h1|lia].
Qed.
Definition optrel h (x : option ref) (y : option (arr A)) : Prop :=
  match x, y with Some r, Some a => holds h r a | None, None => True | _, _ => False end.

Lemma ref_gradient h n nv o ov dt dx phi phiv zonal age agev :
  holds h n nv -> holds h o ov -> optrel h phi phiv -> optrel h age agev ->
  refines (len h) h (hw2d_gradientH hb hwv n o dt dx phi zonal age) (hw2d_gradient hwv nv ov dt dx phiv zonal agev) (fun h' x y => nsrel h' x y).
Proof.
  intros En Eo Ep Ea. unfold hw2d_gradientH, hw2d_gradient. cbv zeta.
  assert (L0 : len h <= len h) by lia. set (k := len h) in *.
  (* phi *)
  eapply ref_bind with (Q := fun h' x y => holds h' x y /\ ext h h' /\ len h <= len h').
  { destruct phi as [p|], phiv as [pv|]; cbn in Ep; [apply ref_ret; split; [exact Ep|split; [apply ext_refl|lia]]|easy|easy|].
    eapply ref_imp; [now apply ref_get_phi|]. intros h' x y _ (M1 & E1 & L1 & L2). auto. }
  clear Ep phi phiv. intros h1 p pv _ (Ep & E1 & L1).
  assert (Ea1 : optrel h1 age agev) by (destruct age, agev; cbn in *; auto). clear Ea. carry.
  (* dy_p *)
  eapply ref_bind; [apply ref_call; [|apply (ok_gradient _ _ Hb); exact Ep]; lia|]. intros h2 dy dyv _ (Edy & E2 & L2).
  assert (Ea2 : optrel h2 age agev) by (destruct age, agev; cbn in *; auto). clear Ea1. carry.
  eapply ref_bind; [apply ref_log with (Q := fun h4 _ _ => h4 = h2); reflexivity|]. intros h4 _ _ _ ->.
  assert (Ed : optrel h2 dy dyv) by (destruct dy, dyv; cbn in *; tauto). clear Edy.
  (* diff *)
  eapply ref_bind; [apply (ref_diff k h2 zonal p pv n nv); [lia|exact Ep|exact En]|]. intros h3 df dfv _ (Ef & E3 & _ & L3).
  assert (Ea3 : optrel h3 age agev) by (destruct age, agev; cbn in *; auto). assert (Ed3 : optrel h3 dy dyv) by (destruct dy, dyv; cbn in *; auto). clear Ea2 Ed. carry.
  (* o *)
  eapply ref_bind; [apply (ref_op1 _ _ (fun x => sc _ * x)); [lia|exact Ef]|]. intros h5 o1 o1v _ (Eo1 & E5 & Lo1 & L5).
  assert (Lk : k <= o1) by lia.
  assert (Ea5 : optrel h5 age agev) by (destruct age, agev; cbn in *; auto). assert (Ed5 : optrel h5 dy dyv) by (destruct dy, dyv; cbn in *; auto).
  pose proof (holds_lt _ _ _ En) as Bn. pose proof (holds_lt _ _ _ Eo) as Bo. pose proof (holds_lt _ _ _ Ep) as Bp. pose proof (holds_lt _ _ _ Ef) as Bf.
  assert (Ba : match age with Some a => a < o1 | None => True end) by (destruct age, agev; cbn in *; try easy; apply holds_lt in Ea3; lia).
  assert (Bd : match dy with Some a => a < o1 | None => True end) by (destruct dy, dyv; cbn in *; try easy; apply holds_lt in Ed3; lia). clear Ea3 Ed3. carry.
  eapply ref_bind; [apply (ref_addpb k h5 p pv o ov o1 o1v dx); [exact Lk|lia|assumption..]|]. intros h6 x o2v _ (-> & Eo2 & E6 & L6). clear Eo1.
  assert (Ea6 : optrel h6 age agev) by (destruct age, agev; cbn in *; auto; apply E6; [lia|assumption]).
  assert (Ed6 : optrel h6 dy dyv) by (destruct dy, dyv; cbn in *; auto; apply E6; [lia|assumption]). clear Ea5 Ed5. carrybut.
  eapply ref_bind with (Q := fun h' x y => accum o1 h6 h' x y).
  { destruct (truthy (hnu hwv)); [|apply ref_ret; repeat split; [exact Eo2|now intros r v _|lia]].
    pose proof (ref_addnu k h6 o ov o1 o2v dx Lk ltac:(lia) Eo Eo2) as R.
    assert (P : forall (m : M (arr A)), m = mbind (mbind m (fun o => mret (o, o))) (fun x => mret (fst x))) by (intros [l [m|e]]; cbn; now rewrite ?app_nil_r).
    unfold refines in R |- *. unfold hbind in *. unfold mbind in *. destruct (diffuseH hb o dx (hN hwv) h6) as [l [h7 [d|e]]]; destruct (hw_diffuse hwv (Ok ov) dx (hN hwv)) as [l2 [dv|e2]]; cbn [fst snd] in *; try tauto;
    try (destruct (op1 (fun x => sc (hnu hwv) * x) d h7) as [l3 [h8 [D|e]]]); try (destruct (mlift (sc (hnu hwv) * Ok dv)) as [l4 [Dv|e3]]); cbn [fst snd] in *; try tauto;
    try (destruct (inplace iadd o1 D h8) as [l5 [h9 [z|e]]]); try (destruct (mlift (iadd (Ok o2v) (Ok Dv))) as [l6 [zv|e4]]); cbn [fst snd hret mret] in *; rewrite ?app_nil_r in *; tauto. }
  intros h7 x o3v _ (-> & Eo3 & E7 & L7). clear Eo2.
  assert (Ea7 : optrel h7 age agev) by (destruct age, agev; cbn in *; auto; apply E7; [lia|assumption]).
  assert (Ed7 : optrel h7 dy dyv) by (destruct dy, dyv; cbn in *; auto; apply E7; [lia|assumption]). clear Ea6 Ed6. carrybut.
  (* n *)
  eapply ref_bind; [apply (ref_op1 _ _ (fun x => sc _ * x)); [lia|exact Ef]|]. intros h8 n1 n1v _ (En1 & E8 & Ln1 & L8).
  assert (Lk2 : k <= n1) by lia. pose proof (holds_lt _ _ _ Eo3) as Bo3.
  assert (Ea8 : optrel h8 age agev) by (destruct age, agev; cbn in *; auto). assert (Ed8 : optrel h8 dy dyv) by (destruct dy, dyv; cbn in *; auto). clear Ea7 Ed7. carry.
  eapply ref_bind; [apply (ref_addpb k h8 p pv n nv n1 n1v dx); [exact Lk2|lia|assumption..]|]. intros h9 x n2v _ (-> & En2 & E9 & L9). clear En1.
  assert (Ea9 : optrel h9 age agev) by (destruct age, agev; cbn in *; auto; apply E9; [lia|assumption]).
  assert (Ed9 : optrel h9 dy dyv) by (destruct dy, dyv; cbn in *; auto; apply E9; [lia|assumption]). clear Ea8 Ed8. carrybut.
  eapply ref_bind with (Q := fun h' x y => accum n1 h9 h' x y).
  { destruct (truthy (hkappa hwv)); [|apply ref_ret; repeat split; [exact En2|now intros r v _|lia]].
    destruct dy as [dy|], dyv as [dyv|]; cbn in Ed9; [|easy|easy|]; cbn [force bind].
    - eapply ref_bind; [apply (ref_op1 _ _ (fun x => sc _ * x)); [lia|exact Ed9]|]. intros h10 c cv _ (M2 & E10 & L10 & L11). carry.
      eapply ref_imp; [apply ref_inplace; [exact Lk2|exact En2|exact M2]|]. cbn beta. intros h11 x y _ (-> & X1 & X2 & X3). split; [reflexivity|]. split; [exact X1|].
      split; [|lia]. intros r v Hr Hv. apply X2; [exact Hr|]. now apply E10.
    - eapply ref_bind with (Q := fun _ _ _ => False); [now apply ref_lift|]. easy. }
  intros h10 x n3v _ (-> & En3 & E10 & L10). clear En2.
  assert (Ea10 : optrel h10 age agev) by (destruct age, agev; cbn in *; auto; apply E10; [lia|assumption]). clear Ea9 Ed9. carrybut.
  eapply ref_bind with (Q := fun h' x y => fst x = n1 /\ holds h' n1 (fst y) /\ holds h' (snd x) (snd y) /\ extbut n1 h10 h' /\ len h10 <= len h').
  { destruct (truthy (hnu hwv)).
    - eapply ref_imp; [apply (ref_addnu k h10 n nv n1 n3v dx); [exact Lk2|lia|assumption..]|]. intros h' x y _ ((X1 & X2 & X3 & X4) & X5 & X6). now repeat split.
    - change (mret (n3v, scal (nofZ 0))) with (mbind (mlift (Ok (scal (nofZ 0)))) (fun z => mret (n3v, z))).
      eapply ref_bind; [apply ref_new; lia|]. intros h' z zv _ (X1 & X2 & X3 & X4). apply ref_ret. cbn [fst snd]. carry. repeat split; try assumption.
      intros r v _. apply X2. }
  intros h11 [x D] [n4v Dv] _. cbn [fst snd]. intros (-> & En4 & ED & E11 & L11). clear En3.
  assert (Ea11 : optrel h11 age agev) by (destruct age, agev; cbn in *; auto; apply E11; [lia|assumption]). clear Ea10. carrybut.
  (* the returned dictionary *)
  eapply ref_bind with (Q := fun h' x y => nsrel h' x y /\ ext h11 h' /\ len h11 <= len h').
  { destruct age as [a|], agev as [av|]; cbn in Ea11; [|easy|easy|].
    - rewrite mlift_bind. eapply ref_bind; [apply (ref_op1 _ _ (fun x => x + sc dt)); [lia|exact Ea11]|]. intros h' a' av' _ (X1 & X2 & X3 & X4). carry.
      change (mlift (Ok ?v)) with (mret v). apply ref_ret. repeat split; try assumption. repeat constructor; assumption.
    - apply ref_ret. repeat split; try apply ext_refl; try lia. repeat constructor; assumption. }
  intros h12 rdict rv _ (R & E12 & L12). carry.
  destruct (htest hwv); [|now apply ref_ret].
  eapply ref_bind; [apply (ref_gammas k h12 n nv p pv); [lia|assumption..]|]. intros h13 [gn gc] [gnv gcv] _. cbn [fst snd]. intros (G1 & G2 & E13 & L13). carry.
  eapply ref_bind; [apply (ref_diffuse k h13 p pv); [lia|assumption]|]. intros h14 d dv _ (M14 & E14 & L14). carry.
  eapply ref_bind; [apply (ref_op1 _ _ (fun x => sc _ * x)); [lia|exact M14]|]. intros h15 Dp Dpv _ (M15 & E15 & _ & L15). carry.
  eapply ref_bind; [eapply ref_rd; [exact ED|]; eapply ref_rd; [exact M15|]; apply (ref_op2 _ _ (fun n p => get_DE n p (Ok Dv) (Ok Dpv))); [lia|exact En|exact Ep]|].
  intros h16 DE DEv _ (M16 & E16 & _ & L16). carry.
  eapply ref_bind; [eapply ref_rd; [exact ED|]; eapply ref_rd; [exact M15|]; apply (ref_op2 _ _ (fun n p => get_DU n p (Ok Dv) (Ok Dpv))); [lia|exact En|exact Eo]|].
  intros h17 DU DUv _ (M17 & E17 & _ & L17). carry.
  eapply ref_bind; [eapply ref_rd; [exact G2|]; apply (ref_op2 _ _ (fun gn de => get_dE_dt gn (Ok gcv) de)); [lia|exact G1|exact M16]|].
  intros h18 dE dEv _ (M18 & E18 & _ & L18). carry.
  eapply ref_bind; [apply (ref_op2 _ _ get_dU_dt); [lia|exact G1|exact M17]|].
  intros h19 dU dUv _ (M19 & E19 & _ & L19). carry.
  apply ref_ret. now apply rset_rel; [apply rset_rel|].
Qed.
End Top.
