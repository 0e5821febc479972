(** What happens before and around the loop: existing files, missing output
    path, physics of a continued run, failing steps. *)
From Coq Require Import Arith ZArith Bool String List Lia.
From Verif Require Import Num NdArray ModelIO ModelRun SpecIO SpecRun IOFacts BufFacts RunFacts RunFiles RunProps PropsFacts KeepFacts RunFull Run2Props.
Import ListNotations.

Section Misc.
Context {V T : Type} {TN : TimeNum T}.
Variable s : sim V T.
Variable c : cfg V T.
Notation zl := (zero_like s).

Lemma run_left_alone pl0 f : c_output c = true -> c_force c = false -> c_continue c = false ->
  run s c pl0 (Some f) = (([], Some f), Ok tt).
Proof. intros Ho Hf Hc. unfold run. rewrite Ho. cbn [negb]. unfold run_files, run_continue, ibind, iget. rewrite Hf, Hc. reflexivity. Qed.

Lemma run2_left_alone fuel pl0 f q : c_output c = true -> c_force c = false -> c_continue c = false ->
  t_int (ndiv (c_end c) (c_step c)) = Ok q -> (c_snaps c =? 0)%Z = false ->
  run2 s c fuel pl0 (Some f) = (([], Some f), Ok tt).
Proof.
  intros Ho Hf Hc Hq Hs. unfold run2. rewrite Hq, bind_lift_ok, Hs, Ho. cbn [negb].
  unfold run2_files, run_continue, ibind, iget. rewrite Hf, Hc. reflexivity.
Qed.

Lemma run_no_output pl0 fs : c_output c = false -> run s c pl0 fs = (([], fs), Exn UnboundLocalError).
Proof. intros Ho. unfold run. now rewrite Ho. Qed.
Lemma run2_no_output fuel pl0 fs : c_output c = false -> exists e, run2 s c fuel pl0 fs = (([], fs), Exn e).
Proof.
  intros Ho. unfold run2, ibind, ilift. destruct (t_int _) as [q|e]; [|exists e; reflexivity].
  destruct (c_snaps c =? 0)%Z; rewrite ?Ho; cbn [negb]; eexists; reflexivity.
Qed.
Lemma run2_no_output_exn fuel pl0 fs q : c_output c = false ->
  t_int (ndiv (c_end c) (c_step c)) = Ok q -> (c_snaps c =? 0)%Z = false ->
  run2 s c fuel pl0 fs = (([], fs), Exn UnboundLocalError).
Proof. intros Ho Hq Hs. unfold run2. rewrite Hq, bind_lift_ok, Hs, Ho. reflexivity. Qed.
End Misc.

(** ** The physics of a continued run comes from the file *)
Definition with_phys {V T} (c : cfg V T) (p : physics) : cfg V T :=
  mkCfg (c_step c) (c_end c) p (c_dx c) (c_c1 c) (c_x c) (c_y c) (c_xs c) (c_ys c) (c_output c) (c_rec c)
    (c_continue c) (c_blen c) (c_snaps c) (c_down c) (c_last c) (c_force c) (c_adaptive c) (c_props c).

Section Phys.
Context {V T : Type} {TN : TimeNum T}.
Variable s : sim V T.
Variable c : cfg V T.

Lemma loop_phys p phys k : forall it pl bi, run_loop s (with_phys c p) phys k it pl bi = run_loop s c phys k it pl bi.
Proof. induction k as [|k IH]; intros it pl bi; reflexivity. Qed.
Lemma fullres_phys p ps pl : fullres s (with_phys c p) ps pl = fullres s c ps pl.
Proof. induction ps as [|x ps IH]; reflexivity. Qed.
Lemma loop2_phys p phys fuel : forall t0 it used cur pl bi,
  run2_loop s (with_phys c p) phys fuel t0 it used cur pl bi = run2_loop s c phys fuel t0 it used cur pl bi.
Proof. induction fuel as [|k IH]; intros; reflexivity. Qed.

Lemma run_file_physics p pl0 pl0' f : c_force c = false ->
  run s (with_phys c p) pl0' (Some f) = run s c pl0 (Some f).
Proof.
  intros Hf. unfold run. cbn [c_output with_phys]. destruct (negb (c_output c)); [reflexivity|].
  unfold run_files. rewrite (bind_assoc iget), (bind_assoc iget), !bind_get. cbn [c_force with_phys]. rewrite Hf.
  change (run_continue s (with_phys c p)) with (run_continue s c).
  change (buffer0 s (with_phys c p)) with (buffer0 s c). reflexivity.
Qed.
Lemma run2_file_physics fuel p pl0 pl0' f : c_force c = false ->
  run2 s (with_phys c p) fuel pl0' (Some f) = run2 s c fuel pl0 (Some f).
Proof.
  intros Hf. unfold run2. cbn [c_output c_end c_step c_snaps with_phys]. destruct (t_int _) as [q|e]; [|reflexivity]. rewrite !bind_lift_ok.
  destruct (c_snaps c =? 0)%Z; [reflexivity|]. destruct (negb (c_output c)); [reflexivity|].
  unfold run2_files. rewrite (bind_assoc iget), (bind_assoc iget), !bind_get. cbn [c_force with_phys]. rewrite Hf. reflexivity.
Qed.

(** what a fresh file says about its physics *)
Lemma pick_set (d : list (string * attr T)) k a : forall ks, ~ In k ks -> pick (dset_ d k a) ks = pick d ks.
Proof.
  induction ks as [|x ks IH]; intros H; [reflexivity|]. cbn [pick]. unfold dlook.
  rewrite dget_dset. destruct (String.eqb_spec x k) as [->|_]; [exfalso; apply H; now left|].
  rewrite IH; [reflexivity|]. intros H'. apply H. now right.
Qed.
Lemma pick_saved phys ad : pick (save_params_of c phys ad) physics_keys = pick phys physics_keys.
Proof. unfold save_params_of, get_save_params. rewrite !pick_set; [reflexivity|cbn; intuition discriminate..]. Qed.
Lemma pick_keys (d : list (string * attr T)) : forall ks p, pick d ks = Ok p -> keys p = ks /\ forall k, In k ks -> dget p k = dget d k.
Proof.
  induction ks as [|x ks IH]; intros p H; cbn [pick] in H.
  - injection H as <-. split; [reflexivity|intros k []].
  - unfold dlook in H. destruct (dget d x) as [a|] eqn:Ea; [|discriminate]. cbn [bind] in H.
    destruct (pick d ks) as [r|e] eqn:E; [|discriminate]. cbn [bind] in H. injection H as <-.
    destruct (IH r eq_refl) as [K D]. split; [cbn [keys map fst]; f_equal; exact K|].
    intros k Hk. cbn [dget]. destruct (String.eqb_spec k x) as [->|N]; [now symmetry|]. apply D. destruct Hk as [->|Hk]; [contradiction|exact Hk].
Qed.
Lemma continue_physics (f : h5 V T) ld phys : continue_h5_file (Some f) = Ok (ld, phys) ->
  keys phys = physics_keys /\ forall k, In k physics_keys -> dget phys k = dget (attrs f) k.
Proof.
  cbn [continue_h5_file]. destruct (load_field f "density"); [|discriminate]. destruct (load_field f "omega"); [|discriminate].
  destruct (load_field f "phi"); [|discriminate]. cbn [bind]. destruct (dlook (dsets f) "time") as [td|]; [|discriminate]. cbn [bind].
  destruct (last_row td) as [r|]; [|discriminate]. cbn [bind]. destruct (as_num r); [|discriminate]. cbn [bind].
  destruct (pick (attrs f) physics_keys) as [p|] eqn:E; [|discriminate]. cbn [bind]. intros H. injection H as _ <-.
  now apply pick_keys.
Qed.
Lemma fresh_physics (g : h5 V T) ld p phys ad : attrs g = save_params_of c phys ad -> continue_h5_file (Some g) = Ok (ld, p) ->
  keys p = physics_keys /\ forall k, In k physics_keys -> dget p k = dget phys k.
Proof.
  intros A H. destruct (continue_physics g ld p H) as [K D]. split; [exact K|]. intros k Hk. rewrite (D k Hk), A.
  unfold save_params_of, get_save_params. rewrite !dget_dset.
  repeat match goal with |- context [String.eqb k ?x] => destruct (String.eqb_spec k x) as [->|_]; [exfalso; cbn in Hk; intuition discriminate|] end.
  reflexivity.
Qed.
(** the age of a continued run is the last recorded time *)
Lemma continue_age (f : h5 V T) ld phys : continue_h5_file (Some f) = Ok (ld, phys) ->
  exists l, dget (dsets f) "time" = Some (Rows (l ++ [RNum (l_age ld)])).
Proof.
  cbn [continue_h5_file]. destruct (load_field f "density"); [|discriminate]. destruct (load_field f "omega"); [|discriminate].
  destruct (load_field f "phi"); [|discriminate]. cbn [bind]. unfold dlook. destruct (dget (dsets f) "time") as [td|]; [|discriminate]. cbn [bind].
  destruct (last_row td) as [r|] eqn:Er; [|discriminate]. cbn [bind]. destruct (as_num r) as [t|] eqn:Et; [|discriminate]. cbn [bind].
  destruct (pick (attrs f) physics_keys) as [p|] eqn:E; [|discriminate]. cbn [bind]. intros H. injection H as <- _. cbn [l_age].
  destruct td as [l|v]; [|discriminate]. cbn [last_row] in Er. destruct (rev l) as [|r0 l'] eqn:El; [discriminate|]. injection Er as ->.
  destruct r as [v|t0]; [discriminate|]. injection Et as ->. exists (rev l'). f_equal. f_equal.
  rewrite <- (rev_involutive l), El. reflexivity.
Qed.
(** the state of a continued run: the stored state, else the last frame *)
Lemma continue_field (f : h5 V T) ld phys : continue_h5_file (Some f) = Ok (ld, phys) ->
  forall k v, In (k, v) [("density", l_density ld); ("omega", l_omega ld); ("phi", l_phi ld)]%string ->
  dget (dsets f) (String.append "state_" k) = Some (Whole v) \/
  (dget (dsets f) (String.append "state_" k) = None /\ exists l, dget (dsets f) k = Some (Rows (l ++ [RFrame v]))).
Proof.
  assert (L : forall k v, load_field f k = Ok v -> dget (dsets f) (String.append "state_" k) = Some (Whole v) \/
     (dget (dsets f) (String.append "state_" k) = None /\ exists l, dget (dsets f) k = Some (Rows (l ++ [RFrame v])))).
  { intros k v. unfold load_field, dlook. destruct (dget (dsets f) (String.append "state_" k)) as [[l|w]|]; cbn [bind]; try discriminate.
    - destruct (dget (dsets f) k); [|discriminate]. cbn [bind]. intros H. injection H as ->. now left.
    - destruct (dget (dsets f) k) as [[l|w]|]; cbn [bind last_row]; try discriminate.
      destruct (rev l) as [|r0 l'] eqn:El; [discriminate|]. cbn [bind]. destruct r0 as [w|t]; [|discriminate]. cbn [as_frame bind].
      intros H. injection H as ->. right. split; [reflexivity|]. exists (rev l'). f_equal. f_equal. rewrite <- (rev_involutive l), El. reflexivity. }
  cbn [continue_h5_file]. destruct (load_field f "density") as [a|] eqn:E1; [|discriminate]. destruct (load_field f "omega") as [b|] eqn:E2; [|discriminate].
  destruct (load_field f "phi") as [d|] eqn:E3; [|discriminate]. cbn [bind]. destruct (dlook (dsets f) "time"); [|discriminate]. cbn [bind].
  destruct (last_row _); [|discriminate]. cbn [bind]. destruct (as_num _); [|discriminate]. cbn [bind].
  destruct (pick _ _); [|discriminate]. cbn [bind]. intros H k v. injection H as <- _. cbn [l_density l_omega l_phi In].
  intros [H|[H|[H|[]]]]; injection H as <- <-; now apply L.
Qed.

(** ** A step that raises *)
Lemma attempt_fails fuel e : e <> BaseException -> attempt fuel (Exn e : res (plasma V T)) = Exn OutOfFuel.
Proof. intros H. induction fuel as [|f IH]; [reflexivity|]. cbn [attempt]. rewrite IH. destruct e; congruence. Qed.

Lemma run2_loop_stuck phys fuel t0 it used cur pl bi fs e :
  nltb (t_round4 cur) (c_end c) = true -> s_step s phys pl (c_step c) (c_dx c) = Exn e -> e <> BaseException ->
  run2_loop s c phys fuel t0 it used cur pl bi fs = (([], fs), Exn OutOfFuel).
Proof.
  intros Ht Hs He. destruct fuel as [|f]; cbn [run2_loop]; rewrite Ht; [reflexivity|].
  rewrite Hs, (attempt_fails (S f) e He). reflexivity.
Qed.
Lemma run_loop_raises phys k it pl bi fs e : s_step s phys pl (c_step c) (c_dx c) = Exn e ->
  run_loop s c phys (S k) it pl bi fs = (([], fs), Exn e).
Proof. intros H. cbn [run_loop]. now rewrite H. Qed.
End Phys.
