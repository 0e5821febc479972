(** The conservation test of the right-hand side (TEST_CONSERVATION) does not
    influence the fields of a step, for any number type. *)
From Coq Require Import List Arith ZArith Lia Bool String.
From Verif Require Import Num NdArray NdFacts ModelGradients ModelArakawa ModelProperties ModelHW ModelBackend ModelSchemes Spec
  GradFacts ArakawaFacts LapFacts HWFacts RoundHW RoundEval.
Import List ListNotations.

Lemma snd_tell {X} l (m : M X) : snd (tell l m) = snd m.
Proof. destruct m. reflexivity. Qed.
Lemma snd_mbind {X Y} (m : M X) (f : X -> M Y) : snd (mbind m f) = match snd m with Ok x => snd (f x) | Exn e => Exn e end.
Proof. destruct m as [l [x|e]]; [|reflexivity]. rewrite mbind_ok. apply snd_tell. Qed.

Section Gen.
Context {A : Type} {Nm : Num A}.
Variables (ny nx : nat) (dx : A).
Hypothesis Hy : (0 < ny)%nat.
Hypothesis Hx : (0 < nx)%nat.
Implicit Types n o phi : nat -> nat -> A.

Lemma mean2_ok f : exists m, mean_last2 (Ok (grid ny nx f)) = Ok (scal m).
Proof.
  change (grid ny nx f) with (stack [] ny nx (fun _ => f)). rewrite mean_last2_eq. eexists. reflexivity.
Qed.
Lemma gamma_n_ok n phi d : exists m, get_gamma_n (Ok (grid ny nx n)) (Ok (grid ny nx phi)) d None = Ok (scal m).
Proof.
  unfold get_gamma_n. pose proof (np_grad_m2 [] ny nx d (fun _ => phi) Hy Hx) as E. fold (grid ny nx phi) in E.
  rewrite E. cbn [force bind]. unfold mul_. fold (grid ny nx (cdy ny d phi)). rewrite lift2_grid.
  destruct (mean2_ok (fun i j => nmul (n i j) (cdy ny d phi i j))) as [m Em]. rewrite Em. eexists. apply map1_scal.
Qed.
Lemma gamma_c_ok n phi c d : exists m, get_gamma_c (Ok (grid ny nx n)) (Ok (grid ny nx phi)) c d = Ok (scal m).
Proof.
  unfold get_gamma_c, sub_, powk, mul_. rewrite lift2_grid, map1_grid.
  match goal with |- context [mean_last2 (Ok (grid ny nx ?f))] => destruct (mean2_ok f) as [m Em] end.
  rewrite Em, sc_scal. eexists. apply lift2_scal.
Qed.
Definition dval (D : arr A) : Prop := (exists f, D = grid ny nx f) \/ exists c, D = scal c.
Lemma DE_ok n phi D g : dval D -> exists m, get_DE (Ok (grid ny nx n)) (Ok (grid ny nx phi)) (Ok D) (Ok (grid ny nx g)) = Ok (scal m).
Proof.
  intros [[f ->]|[c ->]]; unfold get_DE, mul_, sub_.
  - rewrite !lift2_grid. apply mean2_ok.
  - rewrite <- sc_scal, lift2_grid_scr, !lift2_grid. apply mean2_ok.
Qed.
Lemma DU_ok n o D g : dval D -> exists m, get_DU (Ok (grid ny nx n)) (Ok (grid ny nx o)) (Ok D) (Ok (grid ny nx g)) = Ok (scal m).
Proof.
  intros [[f ->]|[c ->]]; unfold get_DU, mul_, sub_, neg_.
  - rewrite !lift2_grid. match goal with |- context [mean_last2 (Ok (grid ny nx ?f))] => destruct (mean2_ok f) as [m Em] end.
    rewrite Em. eexists. apply map1_scal.
  - rewrite <- sc_scal, lift2_grid_scl, !lift2_grid. match goal with |- context [mean_last2 (Ok (grid ny nx ?f))] => destruct (mean2_ok f) as [m Em] end.
    rewrite Em. eexists. apply map1_scal.
Qed.

Variables (solver : nd A -> A -> nd A) (b : backend A) (dx0 : A) (N : nat) (c1 nu pb kap : A) (zon : bool).
Hypothesis Hb : b = np_schemes solver \/ b = nb_schemes solver.
Local Notation hF := (hw_init b dx0 (Z.of_nat N) c1 nu pb kap zon false).
Local Notation hT := (hw_init b dx0 (Z.of_nat N) c1 nu pb kap zon true).
Local Notation nu' := (nmul (sign_pow (Z.of_nat N + 1)) nu).
Local Notation n3 := (RoundEval.n3 ny nx).
Definition n5 n o (a u v : A) : ns A := (n3 n o a ++ [("dE", scal u); ("dU", scal v)]%string)%list.

Lemma hw_eval5 phi n o dt a : exists u v,
  snd (hw2d_gradient hT (grid ny nx n) (grid ny nx o) dt dx (Some (grid ny nx phi)) zon (Some (scal a))) =
  Ok (n5 (g_n ny nx dx N c1 nu pb kap zon phi n) (g_o ny nx dx N c1 nu pb zon phi n o) (nadd a dt) u v).
Proof.
  unfold hw2d_gradient. cbn [hw_init schemes hN hc1 hnu hpb hkappa hdx hzonal htest].
  rewrite mbind_ret, (s_grd ny nx dx Hy Hx solver b N Hb), mbind_lift, mbind_log, snd_tell.
  assert (C : @eq (res (arr A)) (if zon then sub_ (zonal_transform (Ok (grid ny nx phi))) (zonal_transform (Ok (grid ny nx n)))
               else sub_ (Ok (grid ny nx phi)) (Ok (grid ny nx n))) (Ok (grid ny nx (gcpl ny zon phi n)))).
  { unfold gcpl, sub_. destruct zon; [rewrite !zonal_gdev|]; now rewrite lift2_grid. }
  rewrite C, mbind_lift. unfold mul_. rewrite lift2_grid_scl, mbind_lift.
  set (o0 := fun i j => nmul c1 (gcpl ny zon phi n i j)).
  assert (PB : forall f, exists l, (if truthy pb then
     do* a := mlift (lift2 nmul (sc (nopp pb)) (poisson_bracket b (Ok (grid ny nx phi)) (Ok (grid ny nx f)) dx)) in
     do* _ := mlog "poisson_bracket" in mlift (iadd (Ok (grid ny nx o0)) (Ok a)) else mret (grid ny nx o0)) =
     (l, Ok (grid ny nx (gterm pb (nopp pb) (ara ny nx dx phi f) o0)))).
  { intros f. unfold gterm. rewrite (s_brk ny nx dx Hy Hx solver b Hb). destruct (truthy pb); [|now exists []].
    rewrite lift2_grid_scl, mbind_lift, mbind_log, iadd_grid. eexists. reflexivity. }
  destruct (PB o) as [l1 E1]. destruct (PB n) as [l2 E2].
  assert (DF : forall f, hw_diffuse hT (Ok (grid ny nx f)) dx (Z.of_nat N) = (["diffuse"%string], Ok (grid ny nx (lap_iter N ny nx dx f)))).
  { intros f. unfold hw_diffuse. cbn [hw_init schemes]. rewrite (s_dif ny nx dx Hy Hx solver b N Hb), mbind_lift, mbind_log. apply tell_ret. }
  rewrite E1, mbind_ok, snd_tell. rewrite !DF.
  assert (NU : exists l, (if truthy nu' then
     do* d := (["diffuse"%string], Ok (grid ny nx (lap_iter N ny nx dx o))) in
     do* Do := mlift (lift2 nmul (sc nu') (Ok d)) in
     mlift (iadd (Ok (grid ny nx (gterm pb (nopp pb) (ara ny nx dx phi o) o0))) (Ok Do))
     else mret (grid ny nx (gterm pb (nopp pb) (ara ny nx dx phi o) o0))) = (l, Ok (grid ny nx (g_o ny nx dx N c1 nu pb zon phi n o)))).
  { unfold g_o. unfold gterm at 3. fold o0. destruct (truthy nu'); [|now exists []].
    rewrite mbind_ok, lift2_grid_scl, mbind_lift, iadd_grid. eexists. reflexivity. }
  destruct NU as [l3 E3]. rewrite E3, mbind_ok, snd_tell. fold o0. rewrite mbind_lift, E2, mbind_ok, snd_tell.
  set (n1 := gterm pb (nopp pb) (ara ny nx dx phi n) o0).
  assert (KA : exists l, (if truthy kap then
     do* k := mlift (lift2 nmul (sc (nopp kap)) (force (Ok (Some (grid ny nx (cdy ny dx phi)))))) in
     mlift (iadd (Ok (grid ny nx n1)) (Ok k)) else mret (grid ny nx n1)) =
     (l, Ok (grid ny nx (gterm kap (nopp kap) (cdy ny dx phi) n1)))).
  { unfold gterm. destruct (truthy kap); [|now exists []]. cbn [force bind].
    rewrite lift2_grid_scl, mbind_lift, iadd_grid. eexists. reflexivity. }
  destruct KA as [l4 E4]. rewrite E4, mbind_ok, snd_tell.
  assert (NN : exists l D, dval D /\ (if truthy nu' then
     do* d := (["diffuse"%string], Ok (grid ny nx (lap_iter N ny nx dx n))) in
     do* Dn := mlift (lift2 nmul (sc nu') (Ok d)) in
     do* n0 := mlift (iadd (Ok (grid ny nx (gterm kap (nopp kap) (cdy ny dx phi) n1))) (Ok Dn)) in mret (n0, Dn)
     else mret (grid ny nx (gterm kap (nopp kap) (cdy ny dx phi) n1), scal (nofZ 0))) = (l, Ok (grid ny nx (g_n ny nx dx N c1 nu pb kap zon phi n), D))).
  { unfold g_n. unfold gterm at 3. fold o0. fold n1. destruct (truthy nu').
    - rewrite mbind_ok, lift2_grid_scl, mbind_lift, iadd_grid, mbind_lift. eexists _, _. split; [|reflexivity]. left. eexists. reflexivity.
    - eexists _, _. split; [|reflexivity]. right. eexists. reflexivity. }
  destruct NN as (l5 & D & HD & E5). rewrite E5, mbind_ok, snd_tell. cbn [fst snd].
  unfold add_. rewrite sc_scal, lift2_scal. cbn [bind]. rewrite mbind_lift.
  unfold hw_get_gammas. cbn [hw_init hdx hc1].
  destruct (gamma_n_ok n phi dx0) as [m1 G1]. destruct (gamma_c_ok n phi c1 dx0) as [m2 G2]. rewrite G1, G2. cbn [bind].
  rewrite mbind_lift, mbind_ok, snd_tell, lift2_grid_scl, mbind_lift. cbn [fst snd].
  match goal with |- context [get_DE _ _ _ (Ok (grid ny nx ?g))] => destruct (DE_ok n phi D g HD) as [m3 G3]; destruct (DU_ok n o D g HD) as [m4 G4]; rewrite G3, G4 end.
  rewrite !mbind_lift. unfold get_dE_dt, get_dU_dt, sub_. rewrite !lift2_scal, !mbind_lift.
  eexists _, _. reflexivity.
Qed.

Lemma grad5 n o a phi dtk : exists x u v, snd (gradient_2d hT (n3 n o a) (Some (grid ny nx phi)) dtk dx) =
  Ok (n5 (g_n ny nx dx N c1 nu pb kap zon phi n) (g_o ny nx dx N c1 nu pb zon phi n o) x u v).
Proof.
  destruct (hw_eval5 phi n o dtk a) as (u & v & E). exists (nadd a dtk), u, v. exact E.
Qed.
Lemma ns_scale5 c n o a u v : ns_scale (n5 n o a u v) c = Ok (n5 (fsc c n) (fsc c o) (nmul c a) (nmul c u) (nmul c v)).
Proof. unfold ns_scale, n5, RoundEval.n3. cbn [app ns_map]. unfold mul_. rewrite !lift2_grid_scl, sc_scal, !lift2_scal. reflexivity. Qed.
Lemma ns_add5 n o a u v m q b' u' v' : ns_add (n5 n o a u v) (n5 m q b' u' v') = Ok (n5 (fpl n m) (fpl o q) (nadd b' a) (nadd u' u) (nadd v' v)).
Proof. unfold ns_add, n5, RoundEval.n3. cbn [app ns_map ns_get String.eqb Ascii.eqb Bool.eqb bind]. unfold add_. rewrite !lift2_grid, !lift2_scal. reflexivity. Qed.
Lemma ns_add35 n o a m q b' u' v' : ns_add (n3 n o a) (n5 m q b' u' v') = Ok (n3 (fpl n m) (fpl o q) (nadd b' a)).
Proof. unfold ns_add, n5, RoundEval.n3. cbn [app ns_map ns_get String.eqb Ascii.eqb Bool.eqb bind]. unfold add_. rewrite !lift2_grid, !lift2_scal. reflexivity. Qed.

Variable dt : A.
Local Notation kn := (kn ny nx dx dt N c1 nu pb kap zon).
Local Notation ko := (ko ny nx dx dt N c1 nu pb zon).
Lemma stage5 n o a phi dtk : exists x u v, snd (stage hT (n3 n o a) (grid ny nx phi) dtk dt dx) = Ok (n5 (kn phi n) (ko phi n o) x u v).
Proof.
  unfold stage. rewrite snd_mbind. destruct (grad5 n o a phi dtk) as (x & u & v & E). rewrite E. unfold mscale. rewrite ns_scale5. eexists _, _, _. reflexivity.
Qed.
Lemma stage3s n o a phi dtk : exists x, snd (stage hF (n3 n o a) (grid ny nx phi) dtk dt dx) = Ok (n3 (kn phi n) (ko phi n o) x).
Proof. destruct (stage3 ny nx dx dt Hy Hx solver b dx0 N c1 nu pb kap zon Hb n o a phi dtk) as (lg & x & E). exists x. now rewrite E. Qed.

(** the age of the stages does not matter either: it only enters the "age" of
    the sums, which rk4_step overwrites *)
Definition shaped : Prop := forall om p, snd (hw_get_phi hF (Ok (grid ny nx om)) dx) = Ok p -> exists phi, p = grid ny nx phi.

Lemma get_phi_TF om : hw_get_phi hT om dx = hw_get_phi hF om dx.
Proof. reflexivity. Qed.

Lemma mscale5 c n o a u v : mscale c (n5 n o a u v) = mlift (Ok (n5 (fsc c n) (fsc c o) (nmul c a) (nmul c u) (nmul c v))).
Proof. unfold mscale. now rewrite ns_scale5. Qed.
Lemma madd5 n o a u v m q b' u' v' : madd (n5 n o a u v) (n5 m q b' u' v') = mlift (Ok (n5 (fpl n m) (fpl o q) (nadd b' a) (nadd u' u) (nadd v' v))).
Proof. unfold madd. now rewrite ns_add5. Qed.
Lemma madd35 n o a m q b' u' v' : madd (n3 n o a) (n5 m q b' u' v') = mlift (Ok (n3 (fpl n m) (fpl o q) (nadd b' a))).
Proof. unfold madd. now rewrite ns_add35. Qed.

Lemma rk4_TF pl n o phi a : shaped -> holds ny nx pl n o phi a -> snd (rk4_step hT pl dt dx) = snd (rk4_step hF pl dt dx).
Proof.
  intros HS [Hw Hp]. unfold rk4_step. rewrite Hw. rewrite !(snd_mbind (mget pl "phi")).
  assert (Hg : snd (mget pl "phi") = Ok (grid ny nx phi)) by exact Hp. rewrite !Hg. clear Hg.
  destruct (stage5 n o a phi (nofZ 0)) as (x1 & u1 & v1 & S1). destruct (stage3s n o a phi (nofZ 0)) as (y1 & T1).
  rewrite snd_mbind, S1, mscale5, mbind_lift, madd35, mbind_lift, mget3, mbind_lift, snd_mbind, get_phi_TF. symmetry.
  rewrite snd_mbind, T1, mscale3, mbind_lift, madd3, mbind_lift, mget3, mbind_lift, snd_mbind.
  set (yn1 := fpl n (fsc half _)). set (yo1 := fpl o (fsc half _)).
  destruct (snd (hw_get_phi hF (Ok (grid ny nx yo1)) dx)) as [p|e] eqn:G1; [|reflexivity]. destruct (HS _ _ G1) as [p1 ->]. clear G1.
  match goal with |- snd (mbind (stage hF (n3 yn1 yo1 ?x) _ ?d dt dx) _) = snd (mbind (stage hT (n3 yn1 yo1 ?y) _ _ dt dx) _) =>
    destruct (stage5 yn1 yo1 y p1 d) as (x2 & u2 & v2 & S2); destruct (stage3s yn1 yo1 x p1 d) as (y2 & T2) end.
  symmetry. rewrite snd_mbind, S2, mscale5, mbind_lift, madd35, mbind_lift, mget3, mbind_lift, snd_mbind, get_phi_TF. symmetry.
  rewrite snd_mbind, T2, mscale3, mbind_lift, madd3, mbind_lift, mget3, mbind_lift, snd_mbind.
  set (yn2 := fpl n (fsc half _)). set (yo2 := fpl o (fsc half _)).
  destruct (snd (hw_get_phi hF (Ok (grid ny nx yo2)) dx)) as [p|e] eqn:G1; [|reflexivity]. destruct (HS _ _ G1) as [p2 ->]. clear G1.
  match goal with |- snd (mbind (stage hF (n3 yn2 yo2 ?x) _ ?d dt dx) _) = snd (mbind (stage hT (n3 yn2 yo2 ?y) _ _ dt dx) _) =>
    destruct (stage5 yn2 yo2 y p2 d) as (x3 & u3 & v3 & S3); destruct (stage3s yn2 yo2 x p2 d) as (y3 & T3) end.
  symmetry. rewrite snd_mbind, S3, madd35, mbind_lift, mget3, mbind_lift, snd_mbind, get_phi_TF. symmetry.
  rewrite snd_mbind, T3, madd3, mbind_lift, mget3, mbind_lift, snd_mbind.
  set (yn3 := fpl n _). set (yo3 := fpl o _).
  destruct (snd (hw_get_phi hF (Ok (grid ny nx yo3)) dx)) as [p|e] eqn:G1; [|reflexivity]. destruct (HS _ _ G1) as [p3 ->]. clear G1.
  match goal with |- snd (mbind (stage hF (n3 yn3 yo3 ?x) _ ?d dt dx) _) = snd (mbind (stage hT (n3 yn3 yo3 ?y) _ _ dt dx) _) =>
    destruct (stage5 yn3 yo3 y p3 d) as (x4 & u4 & v4 & S4); destruct (stage3s yn3 yo3 x p3 d) as (y4 & T4) end.
  symmetry. rewrite snd_mbind, S4.
  rewrite mscale5, mbind_lift, madd5, mbind_lift, mscale5, mbind_lift, madd5, mbind_lift, madd5, mbind_lift, mscale5, mbind_lift, madd35, mbind_lift.
  rewrite mget3, mbind_lift, snd_mbind, get_phi_TF. symmetry.
  rewrite snd_mbind, T4.
  rewrite mscale3, mbind_lift, madd3, mbind_lift, mscale3, mbind_lift, madd3, mbind_lift, madd3, mbind_lift, mscale3, mbind_lift, madd3, mbind_lift.
  rewrite mget3, mbind_lift, snd_mbind.
  set (no := fpl o (fsc (ndiv (nofZ 1) (nofZ 6)) _)). set (nn := fpl n (fsc (ndiv (nofZ 1) (nofZ 6)) _)).
  destruct (snd (hw_get_phi hF (Ok (grid ny nx no)) dx)) as [p|e]; [|reflexivity].
  assert (Ha : mget pl "age" = mlift (Ok (scal a))).
  { unfold mget. rewrite <- (get_without pl "phi" "age") by discriminate. now rewrite Hw. }
  rewrite Ha, !mbind_lift. unfold add_. rewrite sc_scal, lift2_scal, !mbind_lift, !mbind_log, !snd_tell. reflexivity.
Qed.

Lemma euler_TF pl n o phi a : holds ny nx pl n o phi a -> snd (euler_step hT pl dt dx) = snd (euler_step hF pl dt dx).
Proof.
  intros [Hw Hp]. unfold euler_step. rewrite Hw, Hp.
  destruct (grad5 n o a phi (nofZ 0)) as (x1 & u1 & v1 & S1).
  destruct (grad3 ny nx dx Hy Hx solver b dx0 N c1 nu pb kap zon Hb n o a phi (nofZ 0)) as (lg & y1 & T1).
  rewrite snd_mbind, S1, mscale5, mbind_lift, madd35, mbind_lift, mget3, mbind_lift, snd_mbind, get_phi_TF. symmetry.
  rewrite T1, mbind_ok, snd_tell, mscale3, mbind_lift, madd3, mbind_lift, mget3, mbind_lift, snd_mbind.
  destruct (snd (hw_get_phi hF _ dx)) as [p|e]; [|reflexivity].
  assert (Ha : mget pl "age" = mlift (Ok (scal a))).
  { unfold mget. rewrite <- (get_without pl "phi" "age") by discriminate. now rewrite Hw. }
  rewrite Ha, !mbind_lift. unfold add_. rewrite sc_scal, lift2_scal, !mbind_lift, !mbind_log, !snd_tell. reflexivity.
Qed.

(** what a successful step returns: the same entries again *)
Lemma rk4_form pl n o phi a pl' : shaped -> holds ny nx pl n o phi a -> snd (rk4_step hF pl dt dx) = Ok pl' ->
  exists n' o' phi', holds ny nx pl' n' o' phi' (nadd a dt).
Proof.
  intros HS [Hw Hp]. unfold rk4_step. rewrite Hw. rewrite (snd_mbind (mget pl "phi")).
  assert (Hg : snd (mget pl "phi") = Ok (grid ny nx phi)) by exact Hp. rewrite !Hg. clear Hg.
  destruct (stage3s n o a phi (nofZ 0)) as (y1 & T1). rewrite snd_mbind, T1. clear T1.
  generalize (kn phi n). generalize (ko phi n o). intros a1 b1.
  rewrite mscale3, mbind_lift, madd3, mbind_lift, mget3, mbind_lift, snd_mbind.
  generalize (fpl n (fsc half b1)). generalize (fpl o (fsc half a1)). intros yo1 yn1.
  destruct (snd (hw_get_phi hF (Ok (grid ny nx yo1)) dx)) as [p|e] eqn:G1; [|discriminate]. destruct (HS _ _ G1) as [p1 ->]. clear G1.
  match goal with |- snd (mbind (stage hF (n3 yn1 yo1 ?x) _ ?d dt dx) _) = _ -> _ => destruct (stage3s yn1 yo1 x p1 d) as (y2 & T2) end.
  rewrite snd_mbind, T2. clear T2. generalize (kn p1 yn1). generalize (ko p1 yn1 yo1). intros a2 b2.
  rewrite mscale3, mbind_lift, madd3, mbind_lift, mget3, mbind_lift, snd_mbind.
  generalize (fpl n (fsc half b2)). generalize (fpl o (fsc half a2)). intros yo2 yn2.
  destruct (snd (hw_get_phi hF (Ok (grid ny nx yo2)) dx)) as [p|e] eqn:G1; [|discriminate]. destruct (HS _ _ G1) as [p2 ->]. clear G1.
  match goal with |- snd (mbind (stage hF (n3 yn2 yo2 ?x) _ ?d dt dx) _) = _ -> _ => destruct (stage3s yn2 yo2 x p2 d) as (y3 & T3) end.
  rewrite snd_mbind, T3. clear T3. generalize (kn p2 yn2). generalize (ko p2 yn2 yo2). intros a3 b3.
  rewrite madd3, mbind_lift, mget3, mbind_lift, snd_mbind.
  generalize (fpl n b3). generalize (fpl o a3). intros yo3 yn3.
  destruct (snd (hw_get_phi hF (Ok (grid ny nx yo3)) dx)) as [p|e] eqn:G1; [|discriminate]. destruct (HS _ _ G1) as [p3 ->]. clear G1.
  match goal with |- snd (mbind (stage hF (n3 yn3 yo3 ?x) _ ?d dt dx) _) = _ -> _ => destruct (stage3s yn3 yo3 x p3 d) as (y4 & T4) end.
  rewrite snd_mbind, T4. clear T4. generalize (kn p3 yn3). generalize (ko p3 yn3 yo3). intros a4 b4.
  rewrite mscale3, mbind_lift, madd3, mbind_lift, mscale3, mbind_lift, madd3, mbind_lift, madd3, mbind_lift, mscale3, mbind_lift, madd3, mbind_lift.
  rewrite mget3, mbind_lift, snd_mbind.
  match goal with |- context [hw_get_phi hF (Ok (grid ny nx ?z)) dx] => destruct (snd (hw_get_phi hF (Ok (grid ny nx z)) dx)) as [p|e] eqn:G1; [|discriminate] end.
  destruct (HS _ _ G1) as [p4 ->]. clear G1.
  assert (Ha : mget pl "age" = mlift (Ok (scal a))).
  { unfold mget. rewrite <- (get_without pl "phi" "age") by discriminate. now rewrite Hw. }
  rewrite Ha, !mbind_lift. unfold add_. rewrite sc_scal, lift2_scal, !mbind_lift, !mbind_log, !snd_tell.
  intros E. injection E as <-. eexists _, _, p4. split; reflexivity.
Qed.
Lemma steps_TF k pl n o phi a : shaped -> holds ny nx pl n o phi a ->
  snd (steps (fun pl => rk4_step hT pl dt dx) k pl) = snd (steps (fun pl => rk4_step hF pl dt dx) k pl).
Proof.
  intros HS. revert pl n o phi a. induction k as [|k IH]; intros pl n o phi a Hh; cbn [steps]; [reflexivity|].
  rewrite !snd_mbind, (rk4_TF pl n o phi a HS Hh). destruct (snd (rk4_step hF pl dt dx)) as [pl'|e] eqn:E; [|reflexivity].
  destruct (rk4_form pl n o phi a pl' HS Hh E) as (n' & o' & phi' & H'). exact (IH pl' _ _ _ _ H').
Qed.
Lemma rk4_dropped pl n o phi a pl' : shaped -> holds ny nx pl n o phi a -> snd (rk4_step hT pl dt dx) = Ok pl' ->
  ns_get pl' "dE" = Exn KeyError /\ ns_get pl' "dU" = Exn KeyError.
Proof.
  intros HS Hh E. rewrite (rk4_TF pl n o phi a HS Hh) in E. destruct (rk4_form pl n o phi a pl' HS Hh E) as (n' & o' & phi' & [Hw _]).
  rewrite <- (get_without pl' "phi" "dE"), <- (get_without pl' "phi" "dU") by discriminate. rewrite Hw. split; reflexivity.
Qed.

(** rk4_step looks only at the potential and at the other entries *)
Lemma rk4_same h (pl pl' : ns A) : ns_without "phi" pl = ns_without "phi" pl' -> ns_get pl "phi" = ns_get pl' "phi" ->
  rk4_step h pl dt dx = rk4_step h pl' dt dx.
Proof.
  intros E1 E2. unfold rk4_step. rewrite E1. unfold mget. rewrite E2.
  now rewrite <- (get_without pl "phi" "age"), E1, (get_without pl' "phi" "age") by discriminate.
Qed.
End Gen.
