(** The drivers record what [SpecRun] says. *)
From Coq Require Import Arith ZArith Bool String List Lia.
From Verif Require Import Num NdArray ModelIO ModelRun SpecIO SpecRun IOFacts BufFacts.
Import ListNotations.

Section RunFacts.
Context {V T : Type} {TN : TimeNum T}.
Variable s : sim V T.
Variable c : cfg V T.
Notation zl := (zero_like s).
Notation save_all := (save_all zl (s_f32V s) (s_f32T s) (c_blen c)).
Notation save_and_flush := (save_and_flush zl (s_f32V s) (s_f32T s) (c_blen c)).

Definition item_of (nv : res (list (string * row V T))) (pl : plasma V T) : item V T :=
  (match nv with Ok l => l | Exn _ => [] end, last_state_of c pl).

Lemma new_val_ok ds pl t : downsampled c ds pl ->
  new_val_of c pl t = Ok [("density", RFrame (ds (p_density pl))); ("omega", RFrame (ds (p_omega pl)));
                          ("phi", RFrame (ds (p_phi pl))); ("time", RNum t)]%string.
Proof. intros [H1 [H2 H3]]. unfold new_val_of. rewrite H1, H2, H3. reflexivity. Qed.

Lemma save_frame_eq nv pl bi fs l : nv = Ok l ->
  save_frame s c nv pl bi fs =
  save_to_buffered_h5 zl (s_f32V s) (s_f32T s) (fst bi) (c_blen c) (snd bi) (fst (item_of nv pl)) (snd (item_of nv pl)) fs.
Proof. intros ->. unfold save_frame. rewrite bind_lift_ok. reflexivity. Qed.

(** ** The loop of run.py *)
Lemma run_loop_saves phys traj ds n : forall m i bi fs,
  c_output c = true ->
  (forall j, i <= j < i + m -> s_step s phys (traj j) (c_step c) (c_dx c) = Ok (traj (S j))) ->
  (forall j, i < j <= i + m -> downsampled c ds (traj j)) ->
  (forall j, i < j < i + m -> s_nan s (p_density (traj j)) = false) ->
  forall k, m <= k -> (m = k \/ (1 <= m /\ s_nan s (p_density (traj (i + m))) = true)) -> n = i + m ->
  run_loop s c phys k (Z.of_nat (S i)) (traj i) bi fs =
  save_all (map (fun j => item_of (new_val_of c (traj j) (time1 c j)) (traj j)) (filter (recorded c (time1 c)) (seq (S i) m))) bi fs.
Proof.
  induction m as [|m IH]; intros i bi fs Ho Hs Hd Hn k Hk Hend En.
  - destruct Hend as [<-|[H _]]; [reflexivity|lia].
  - destruct k as [|k]; [lia|]. cbn [run_loop]. rewrite Hs by lia. rewrite bind_lift_ok. cbv zeta.
    rewrite Ho. cbn [andb].
    change (nleb (c_rec c) (nmul (nofZ (Z.of_nat (S i))) (c_step c)) && (Z.of_nat (S i) mod c_snaps c =? 0)%Z)
      with (recorded c (time1 c) (S i)).
    cbn [seq filter].
    assert (Next : forall bi fs, (if s_nan s (p_density (traj (S i))) then iret bi else run_loop s c phys k (Z.of_nat (S i) + 1) (traj (S i)) bi) fs
       = save_all (map (fun j => item_of (new_val_of c (traj j) (time1 c j)) (traj j)) (filter (recorded c (time1 c)) (seq (S (S i)) m))) bi fs).
    { intros bi' fs'. destruct m as [|m'].
      - cbn [seq filter map SpecIO.save_all]. destruct (s_nan s (p_density (traj (S i)))) eqn:E; [reflexivity|].
        destruct Hend as [Hm|[_ Hm]]; [|replace (i + 1) with (S i) in Hm by lia; congruence].
        assert (k = 0) by lia. subst k. reflexivity.
      - rewrite Hn by lia. replace (Z.of_nat (S i) + 1)%Z with (Z.of_nat (S (S i))) by lia.
        apply IH; try exact Ho.
        + intros j Hj. apply Hs. lia.
        + intros j Hj. apply Hd. lia.
        + intros j Hj. apply Hn. lia.
        + lia.
        + replace (S i + S m') with (i + S (S m')) by lia. destruct Hend as [He|He]; [left; lia|right]. split; [lia|apply He].
        + lia. }
    destruct (recorded c (time1 c) (S i)).
    + cbn [map SpecIO.save_all].
      rewrite (bind_cong _ _ _ fs (save_frame_eq _ (traj (S i)) bi fs _ (new_val_ok ds _ _ (Hd (S i) ltac:(lia))))).
      apply bind_ext. intros bi' fs'. apply Next.
    + rewrite bind_ret_l. apply Next.
Qed.

(** a run from a start, written as saves and a final flush *)
Lemma run_simulate_saves st phi traj ds n steps fs :
  c_output c = true -> (c_snaps c =? 0)%Z = false ->
  (let* dx := dlook (st_phys st) "dx" in s_phi s (st_phys st) (p_omega (st_plasma st)) dx) = Ok phi ->
  t_int (ndiv (nsub (c_end c) (st_time st)) (c_step c)) = Ok steps ->
  evolves s c (st_phys st) (mkPlasma (p_density (st_plasma st)) (p_omega (st_plasma st)) phi (p_age (st_plasma st))) traj n ->
  (forall j, 1 <= j <= n -> downsampled c ds (traj j)) ->
  stops s traj (Z.to_nat steps) n ->
  run_simulate s c st fs =
  save_and_flush (map (fun j => item_of (new_val_of c (traj j) (time1 c j)) (traj j)) (frames c (time1 c) n)) (st_buf st, st_idx st) fs.
Proof.
  intros Ho Hsn Hphi Hst [E0 E] Hd [L [Hn He]]. unfold run_simulate. rewrite Hphi, bind_lift_ok, Hst, bind_lift_ok, Hsn.
  unfold SpecIO.save_and_flush. apply bind_cong. rewrite <- E0. unfold frames.
  change 1%Z with (Z.of_nat 1).
  apply (run_loop_saves (st_phys st) traj ds n n 0); try assumption; try reflexivity.
  - intros j Hj. apply E. lia.
Qed.

(** ** The loop of run2.py *)
Lemma attempt_ok fuel p : 1 <= fuel -> attempt fuel (Ok p : res (plasma V T)) = Ok p.
Proof. destruct fuel; [lia|reflexivity]. Qed.

Lemma repeat_snoc {X} (x : X) n : (repeat x n ++ [x])%list = repeat x (S n).
Proof. induction n as [|n IH]; [reflexivity|]. cbn [repeat app] in *. now rewrite IH. Qed.

Lemma run2_loop_saves phys traj t0 nv n : forall m i bi fs,
  c_output c = true ->
  (forall j, i <= j < i + m -> s_step s phys (traj j) (c_step c) (c_dx c) = Ok (traj (S j))) ->
  (forall j, i < j <= i + m -> recorded c (time2 c t0) j = true -> new_val_of_2 s c (traj j) (time2 c t0 j) = Ok (nv j)) ->
  (forall j, i <= j < i + m -> nltb (t_round4 (time2 c t0 j)) (c_end c) = true) ->
  (forall j, i < j < i + m -> recorded c (time2 c t0) j = true -> s_nan s (p_density (traj j)) = false) ->
  (nltb (t_round4 (time2 c t0 (i + m))) (c_end c) = false \/
   (1 <= m /\ recorded c (time2 c t0) (i + m) = true /\ s_nan s (p_density (traj (i + m))) = true)) ->
  forall fuel, m < fuel -> n = i + m ->
  run2_loop s c phys fuel t0 (Z.of_nat i) (if c_adaptive c then repeat (c_step c) i else []) (time2 c t0 i) (traj i) bi fs =
  ibind (save_all (map (fun j => item_of (new_val_of_2 s c (traj j) (time2 c t0 j)) (traj j)) (filter (recorded c (time2 c t0)) (seq (S i) m))) bi)
        (fun bi => iret (time2 c t0 n, bi)) fs.
Proof.
  induction m as [|m IH]; intros i bi fs Ho Hs Hd Ht Hn Hend fuel Hf En.
  - rewrite Nat.add_0_r in *. subst n. cbn [seq filter map SpecIO.save_all]. rewrite bind_ret_l.
    destruct Hend as [Hend|[H _]]; [|lia]. destruct fuel; [lia|]. cbn [run2_loop]. rewrite Hend. reflexivity.
  - destruct fuel as [|fuel]; [lia|].
    assert (T1 : nltb (t_round4 (time2 c t0 i)) (c_end c) = true) by (apply Ht; lia).
    assert (Tm : (if c_adaptive c then nadd t0 (t_sum (if c_adaptive c then ((if c_adaptive c then repeat (c_step c) i else []) ++ [c_step c])%list else if c_adaptive c then repeat (c_step c) i else []))
                  else nadd t0 (nmul (nofZ (Z.of_nat i + 1)) (c_step c))) = time2 c t0 (S i)).
    { unfold time2. destruct (c_adaptive c); [rewrite repeat_snoc; reflexivity|]. unfold time1.
      replace (Z.of_nat i + 1)%Z with (Z.of_nat (S i)) by lia. reflexivity. }
    assert (Us : (if c_adaptive c then ((if c_adaptive c then repeat (c_step c) i else []) ++ [c_step c])%list else if c_adaptive c then repeat (c_step c) i else [])
                 = (if c_adaptive c then repeat (c_step c) (S i) else [])).
    { destruct (c_adaptive c); [apply repeat_snoc|reflexivity]. }
    cbn [run2_loop]. rewrite T1. rewrite Hs by lia. cbn [attempt]. rewrite bind_lift_ok. cbv zeta.
    rewrite Tm, Us. replace (Z.of_nat i + 1)%Z with (Z.of_nat (S i)) by lia.
    change (nleb (c_rec c) (time2 c t0 (S i)) && (Z.of_nat (S i) mod c_snaps c =? 0)%Z) with (recorded c (time2 c t0) (S i)).
    cbn [seq filter].
    assert (Next : forall bi fs, (m = 0 -> recorded c (time2 c t0) (S i) = false \/ s_nan s (p_density (traj (S i))) = false) ->
       run2_loop s c phys fuel t0 (Z.of_nat (S i)) (if c_adaptive c then repeat (c_step c) (S i) else []) (time2 c t0 (S i)) (traj (S i)) bi fs
       = ibind (save_all (map (fun j => item_of (new_val_of_2 s c (traj j) (time2 c t0 j)) (traj j)) (filter (recorded c (time2 c t0)) (seq (S (S i)) m))) bi)
               (fun bi => iret (time2 c t0 n, bi)) fs).
    { intros bi' fs' H0. apply IH; try exact Ho.
      - intros j Hj. apply Hs. lia.
      - intros j Hj. apply Hd. lia.
      - intros j Hj. apply Ht. lia.
      - intros j Hj. apply Hn. lia.
      - replace (S i + m) with (i + S m) by lia. destruct Hend as [He|[_ [He1 He2]]]; [now left|].
        destruct m as [|m']; [|right; split; [lia|auto]].
        replace (i + 1) with (S i) in * by lia. destruct (H0 eq_refl); congruence.
      - lia.
      - lia. }
    destruct (recorded c (time2 c t0) (S i)) eqn:Er.
    + rewrite (Hd (S i)) by (auto; lia). rewrite bind_lift_ok, Ho.
      cbn [map SpecIO.save_all]. rewrite bind_assoc. rewrite (Hd (S i)) by (auto; lia).
      rewrite (bind_cong _ _ _ fs (save_frame_eq _ (traj (S i)) bi fs _ eq_refl)).
      apply bind_ext. intros bi' fs'.
      destruct (s_nan s (p_density (traj (S i)))) eqn:Enan.
      * destruct m as [|m'].
        -- cbn [seq filter map SpecIO.save_all]. rewrite bind_ret_l. subst n. replace (i + 1) with (S i) by lia. reflexivity.
        -- exfalso. rewrite Hn in Enan by (auto; lia). discriminate.
      * apply Next. auto.
    + apply Next. auto.
Qed.

Lemma run2_simulate_saves st phi traj nv n fuel fs :
  c_output c = true ->
  (let* dx := dlook (st_phys st) "dx" in s_phi s (st_phys st) (p_omega (st_plasma st)) dx) = Ok phi ->
  evolves s c (st_phys st) (mkPlasma (p_density (st_plasma st)) (p_omega (st_plasma st)) phi (p_age (st_plasma st))) traj n ->
  (forall j, 1 <= j <= n -> recorded c (time2 c (st_time st)) j = true ->
     new_val_of_2 s c (traj j) (time2 c (st_time st) j) = Ok (nv j)) ->
  stops2 s c (st_time st) traj n -> n < fuel ->
  run2_simulate s c fuel st fs =
  ibind (save_all (map (fun j => item_of (new_val_of_2 s c (traj j) (time2 c (st_time st) j)) (traj j)) (frames c (time2 c (st_time st)) n)) (st_buf st, st_idx st))
    (fun bi => if nltb (c_rec c) (time2 c (st_time st) n) && (0 <? snd bi) then append_h5 zl (fst bi) (snd bi) else iret tt) fs.
Proof.
  intros Ho Hphi [E0 E] Hd [Ht [Hn He]] Hf. unfold run2_simulate. rewrite Hphi, bind_lift_ok.
  pose proof (run2_loop_saves (st_phys st) traj (st_time st) nv n n 0 (st_buf st, st_idx st) fs Ho) as L.
  assert (Z0 : (if c_adaptive c then repeat (c_step c) 0 else []) = []) by (destruct (c_adaptive c); reflexivity).
  rewrite Z0, E0 in L. cbn [Z.of_nat time2] in L.
  rewrite (bind_cong _ _ _ fs (L ltac:(intros; apply E; lia) ltac:(intros; apply Hd; [lia|assumption]) ltac:(intros; apply Ht; lia)
            ltac:(intros; apply Hn; [lia|assumption]) He fuel Hf eq_refl)).
  rewrite bind_assoc. unfold frames. apply bind_ext. intros [b i] fs'. now rewrite bind_ret_l.
Qed.
End RunFacts.
