(** Simulations from start to file, with the Hasegawa-Wakatani step plugged
    into the drivers (exact arithmetic; storing rounds each entry with an
    arbitrary function [rnd]). *)
From Coq Require Import Arith ZArith Bool Reals String List Lia Lra.
Import List.
From Verif Require Import Num NdArray Spec Cplx SpecFourier SpecHW SpecPlasma SpecDiag
  ModelHW ModelBackend ModelIO ModelRun ModelRunHW SpecIO SpecRun SpecRunHW RunForce RunHWSplit RunHWShort RunHWTop RunHWWit.
Import ListNotations.
Local Open Scope R_scope.
Local Open Scope string_scope.
#[local] Existing Instance TimeR.

(** ** C40: the potential of every frame belongs to its vorticity *)
Theorem C40_potential_run : forall b p ny nx ys xs k0 dsf (c : cfg (arr R) R) rnd y0 phi0 fs,
  hw_setup b p ny nx ys xs k0 dsf c -> pzon p = false ->
  c_phys c = physics_params (c_dx c) (Z.of_nat (pN p)) (pc1 p) (pnu p) k0 (ppb p) (pkap p) ->
  (fs = None \/ c_force c = true) ->
  let sim := run (hw_sim b rnd ny nx ys xs) c (plasma0 (grid ny nx (fst y0)) (grid ny nx (snd y0)) (grid ny nx phi0)) in
  exists g l, disk_of sim fs = Some g /\ file_frames rnd dsf ys xs l g /\
    forall k x, nth_error l k = Some x -> (1 <= k)%nat \/ c_rec c <> 0 -> f_p x = invlap ny nx (c_dx c) (f_o x).
Proof. exact hw_run_potential. Qed.
Theorem C40_potential_run2 : forall b p ny nx ys xs k0 dsf (c : cfg (arr R) R) rnd y0 phi0 fs n fuel,
  hw_setup b p ny nx ys xs k0 dsf c -> (forall k, In k (c_props c) -> prop_fits k ny nx) ->
  c_phys c = physics_params2 (c_dx c) (Z.of_nat (pN p)) (pc1 p) (pnu p) k0 (ppb p) (pkap p) (pzon p) ->
  (fs = None \/ c_force c = true) ->
  (forall j, (j < n)%nat -> t_round4 (INR j * c_step c) < c_end c) -> c_end c <= t_round4 (INR n * c_step c) -> (n < fuel)%nat ->
  let sim := run2 (hw_sim b rnd ny nx ys xs) c fuel (plasma0 (grid ny nx (fst y0)) (grid ny nx (snd y0)) (grid ny nx phi0)) in
  exists g l, disk_of sim fs = Some g /\ file_frames rnd dsf ys xs l g /\
    forall k x, nth_error l k = Some x -> (1 <= k)%nat \/ c_rec c <> 0 -> f_p x = invlap ny nx (c_dx c) (f_o x).
Proof. exact hw_run2_potential. Qed.
(** frame 0 does not: its potential is the initial noise *)
Theorem C40_first_frame_refuted : exists g, disk_of (run SW wit1 PW) None = Some g /\
  exists rest, dget (dsets g) "omega" = Some (Rows (RFrame (grid 2 2 (fconst 1)) :: rest)) /\
  exists rest', dget (dsets g) "phi" = Some (Rows (RFrame (grid 2 2 (fconst 1)) :: rest')) /\
  agree 2 2 (invlap 2 2 (domain_dx 1 2) (fconst 1)) (fconst 0).
Proof. exact first_potential. Qed.
Print Assumptions C40_potential_run.
Print Assumptions C40_potential_run2.
Print Assumptions C40_first_frame_refuted.

(** ** C68: a run records the Runge-Kutta iterates and their properties *)
Theorem C68_run : forall b p ny nx ys xs k0 dsf (c : cfg (arr R) R) rnd y0 phi0 fs,
  hw_setup b p ny nx ys xs k0 dsf c -> pzon p = false ->
  c_phys c = physics_params (c_dx c) (Z.of_nat (pN p)) (pc1 p) (pnu p) k0 (ppb p) (pkap p) ->
  (fs = None \/ c_force c = true) ->
  let sim := run (hw_sim b rnd ny nx ys xs) c (plasma0 (grid ny nx (fst y0)) (grid ny nx (snd y0)) (grid ny nx phi0)) in
  let frames := map (hw_frame p ny nx (c_dx c) (c_step c) y0 phi0) (recorded_its c (Z.to_nat (R_trunc (c_end c / c_step c)))) in
  exists g, result_of sim fs = Ok tt /\ disk_of sim fs = Some g /\ file_frames rnd dsf ys xs frames g /\
    (forall k, In k (c_props c) -> file_prop rnd dsf ys xs (domain_dx k0 xs) (pc1 p) frames g k) /\
    (add_last c = true -> file_last_state ny nx (c_blen c) frames g).
Proof. exact top_hw_run. Qed.
Theorem C68_run2 : forall b p ny nx ys xs k0 dsf (c : cfg (arr R) R) rnd y0 phi0 fs n fuel,
  hw_setup b p ny nx ys xs k0 dsf c -> (forall k, In k (c_props c) -> prop_fits k ny nx) ->
  c_phys c = physics_params2 (c_dx c) (Z.of_nat (pN p)) (pc1 p) (pnu p) k0 (ppb p) (pkap p) (pzon p) ->
  (fs = None \/ c_force c = true) ->
  (forall j, (j < n)%nat -> t_round4 (INR j * c_step c) < c_end c) -> c_end c <= t_round4 (INR n * c_step c) -> (n < fuel)%nat ->
  let sim := run2 (hw_sim b rnd ny nx ys xs) c fuel (plasma0 (grid ny nx (fst y0)) (grid ny nx (snd y0)) (grid ny nx phi0)) in
  let all := map (hw_frame p ny nx (c_dx c) (c_step c) y0 phi0) (recorded_its c n) in
  let frames := if Rlt_dec (c_rec c) (INR n * c_step c) then all else firstn (c_blen c * (length all / c_blen c)) all in
  exists g, result_of sim fs = Ok tt /\ disk_of sim fs = Some g /\ file_frames rnd dsf ys xs frames g /\
    (forall k, In k (c_props c) -> file_prop rnd dsf ys xs (domain_dx k0 xs) (pc1 p) frames g k /\ file_fullres rnd ny nx (c_dx c) (pc1 p) frames g k) /\
    (add_last c = true -> file_last_state ny nx (c_blen c) all g).
Proof. exact top_hw_run2. Qed.
(** the hypotheses on a 2 x 2 grid with all eight properties, two steps *)
Example C68_nonvacuous : hw_setup np_backend (pc false) 2 2 2 2 1 idf wit1 /\ hw_setup np_backend (pc true) 2 2 2 2 1 idf (wit2 true) /\
  c_phys wit1 = physics_params (c_dx wit1) (Z.of_nat (pN (pc false))) (pc1 (pc false)) (pnu (pc false)) 1 (ppb (pc false)) (pkap (pc false)) /\
  c_phys (wit2 true) = physics_params2 (c_dx wit1) (Z.of_nat (pN (pc true))) (pc1 (pc true)) (pnu (pc true)) 1 (ppb (pc true)) (pkap (pc true)) (pzon (pc true)) /\
  (forall k, In k (c_props wit1) -> prop_fits k 2 2) /\
  (forall j, (j < 2)%nat -> t_round4 (INR j * c_step wit1) < c_end wit1) /\ c_end wit1 <= t_round4 (INR 2 * c_step wit1).
Proof.
  split; [apply wit_setup|]. split; [apply wit_setup|]. split; [reflexivity|]. split; [reflexivity|]. split; [exact wit_fits|].
  split; [exact wit_times2|]. apply (wit_end 2). cbn. ring.
Qed.
Print Assumptions C68_run.
Print Assumptions C68_run2.

(** ** C69: a simulation stopped and continued equals the uninterrupted one *)
Theorem C69_run2_same : forall b p ny nx ys xs k0 dsf (c : cfg (arr R) R) rnd,
  hw_setup b p ny nx ys xs k0 dsf c ->
  c_force c = false -> c_continue c = true -> add_last c = true -> c_rec c = 0 -> 0 < c_step c ->
  forall T1 n1, (1 <= n1)%nat -> (Z.of_nat n1 mod c_snaps c = 0)%Z -> (length (recorded_its c n1) mod c_blen c = 0)%nat ->
  rnd (INR n1 * c_step c) = INR n1 * c_step c ->
  forall y0 phi0, nonzero_on ny nx (fst (hw_states p ny nx (c_dx c) (c_step c) y0 n1)) -> nonzero_on ny nx (snd (hw_states p ny nx (c_dx c) (c_step c) y0 n1)) ->
  forall n2 fuel1 fuel2,
  c_phys c = physics_params2 (c_dx c) (Z.of_nat (pN p)) (pc1 p) (pnu p) k0 (ppb p) (pkap p) (pzon p) ->
  (forall k, In k (c_props c) -> prop_fits k ny nx) ->
  (forall j, (j < n1)%nat -> t_round4 (INR j * c_step c) < T1) -> T1 <= t_round4 (INR n1 * c_step c) ->
  (forall j, (j < n1 + n2)%nat -> t_round4 (INR j * c_step c) < c_end c) -> c_end c <= t_round4 (INR (n1 + n2) * c_step c) ->
  (n1 < fuel1)%nat -> (n2 < fuel2)%nat ->
  forall pl1 fuel, pzon p = false -> (n1 + n2 < fuel)%nat ->
  let S := hw_sim b rnd ny nx ys xs in
  let pl0 := plasma0 (grid ny nx (fst y0)) (grid ny nx (snd y0)) (grid ny nx phi0) in
  exists f g h, disk_of (run2 S (with_end c T1) fuel1 pl0) None = Some f /\
    result_of (run2 S c fuel2 pl1) (Some f) = Ok tt /\ disk_of (run2 S c fuel2 pl1) (Some f) = Some g /\
    result_of (run2 S c fuel pl0) None = Ok tt /\ disk_of (run2 S c fuel pl0) None = Some h /\
    forall k, In k (field_keys ++ c_props c ++ map (String.append "fullres_") (c_props c))%list -> dget (dsets g) k = dget (dsets h) k.
Proof. exact split2_same. Qed.
(** run.py: the fields and properties are those of the uninterrupted run, the
    times start again *)
Theorem C69_run_same_fields : forall b p ny nx ys xs k0 dsf (c : cfg (arr R) R) rnd,
  hw_setup b p ny nx ys xs k0 dsf c ->
  c_force c = false -> c_continue c = true -> add_last c = true -> c_rec c = 0 -> 0 < c_step c ->
  forall T1 n1, (1 <= n1)%nat -> (Z.of_nat n1 mod c_snaps c = 0)%Z -> (length (recorded_its c n1) mod c_blen c = 0)%nat ->
  rnd (INR n1 * c_step c) = INR n1 * c_step c ->
  forall y0 phi0, nonzero_on ny nx (fst (hw_states p ny nx (c_dx c) (c_step c) y0 n1)) -> nonzero_on ny nx (snd (hw_states p ny nx (c_dx c) (c_step c) y0 n1)) ->
  c_phys c = physics_params (c_dx c) (Z.of_nat (pN p)) (pc1 p) (pnu p) k0 (ppb p) (pkap p) -> pzon p = false ->
  Z.to_nat (R_trunc (T1 / c_step c)) = n1 ->
  forall pl1,
  let n2 := Z.to_nat (R_trunc ((c_end c - INR n1 * c_step c) / c_step c)) in
  Z.to_nat (R_trunc (c_end c / c_step c)) = (n1 + n2)%nat ->
  let S := hw_sim b rnd ny nx ys xs in
  let pl0 := plasma0 (grid ny nx (fst y0)) (grid ny nx (snd y0)) (grid ny nx phi0) in
  exists f g h, disk_of (run S (with_end c T1) pl0) None = Some f /\
    result_of (run S c pl1) (Some f) = Ok tt /\ disk_of (run S c pl1) (Some f) = Some g /\
    result_of (run S c pl0) None = Ok tt /\ disk_of (run S c pl0) None = Some h /\
    (forall k, In k (["density"; "omega"; "phi"] ++ c_props c)%list -> dget (dsets g) k = dget (dsets h) k) /\
    dget (dsets h) "time" = Some (Rows (map (fun j => RNum (rnd (INR j * c_step c))) (0%nat :: snap_its c (n1 + n2)))) /\
    dget (dsets g) "time" = Some (Rows (map (fun j => RNum (rnd (INR j * c_step c))) (0%nat :: snap_its c n1 ++ snap_its c n2))).
Proof. exact split1_same. Qed.
(** with zonal=True the continued part of a run2 simulation has zonal=False *)
Theorem C69_run2_any : forall b p ny nx ys xs k0 dsf (c : cfg (arr R) R) rnd,
  hw_setup b p ny nx ys xs k0 dsf c ->
  c_force c = false -> c_continue c = true -> add_last c = true -> c_rec c = 0 -> 0 < c_step c ->
  forall T1 n1, (1 <= n1)%nat -> (Z.of_nat n1 mod c_snaps c = 0)%Z -> (length (recorded_its c n1) mod c_blen c = 0)%nat ->
  rnd (INR n1 * c_step c) = INR n1 * c_step c ->
  forall y0 phi0, nonzero_on ny nx (fst (hw_states p ny nx (c_dx c) (c_step c) y0 n1)) -> nonzero_on ny nx (snd (hw_states p ny nx (c_dx c) (c_step c) y0 n1)) ->
  forall n2 fuel1 fuel2,
  c_phys c = physics_params2 (c_dx c) (Z.of_nat (pN p)) (pc1 p) (pnu p) k0 (ppb p) (pkap p) (pzon p) ->
  (forall k, In k (c_props c) -> prop_fits k ny nx) ->
  (forall j, (j < n1)%nat -> t_round4 (INR j * c_step c) < T1) -> T1 <= t_round4 (INR n1 * c_step c) ->
  (forall j, (j < n1 + n2)%nat -> t_round4 (INR j * c_step c) < c_end c) -> c_end c <= t_round4 (INR (n1 + n2) * c_step c) ->
  (n1 < fuel1)%nat -> (n2 < fuel2)%nat ->
  forall pl1,
  let S := hw_sim b rnd ny nx ys xs in
  let pl0 := plasma0 (grid ny nx (fst y0)) (grid ny nx (snd y0)) (grid ny nx phi0) in
  let frames := (map (hw_frame p ny nx (c_dx c) (c_step c) y0 phi0) (recorded_its c n1)
     ++ map (cont_frame (no_zonal p) ny nx (c_dx c) (c_step c) (hw_states p ny nx (c_dx c) (c_step c) y0 n1) (INR n1 * c_step c))
            (cont_its c (INR n1 * c_step c) n2))%list in
  exists f g, result_of (run2 S (with_end c T1) fuel1 pl0) None = Ok tt /\ disk_of (run2 S (with_end c T1) fuel1 pl0) None = Some f /\
    result_of (run2 S c fuel2 pl1) (Some f) = Ok tt /\ disk_of (run2 S c fuel2 pl1) (Some f) = Some g /\
    file_frames rnd dsf ys xs frames g /\
    forall k, In k (c_props c) -> file_prop rnd dsf ys xs (domain_dx k0 xs) (pc1 p) frames g k /\ file_fullres rnd ny nx (c_dx c) (pc1 p) frames g k.
Proof. exact split2_any. Qed.
Theorem C69_zonal_lost_refuted : exists f g h,
  result_of (run2 SW (with_end (wit2 true) 1) 2 PW) None = Ok tt /\ disk_of (run2 SW (with_end (wit2 true) 1) 2 PW) None = Some f /\
  result_of (run2 SW (wit2 true) 2 PW) (Some f) = Ok tt /\ disk_of (run2 SW (wit2 true) 2 PW) (Some f) = Some g /\
  result_of (run2 SW (wit2 true) 3 PW) None = Ok tt /\ disk_of (run2 SW (wit2 true) 3 PW) None = Some h /\
  dget (dsets h) "density" = Some (Rows [RFrame (grid 2 2 (fconst 1)); RFrame (grid 2 2 (fconst 1)); RFrame (grid 2 2 (fconst 1))]) /\
  dget (dsets g) "density" = Some (Rows [RFrame (grid 2 2 (fconst 1)); RFrame (grid 2 2 (fconst 1)); RFrame (grid 2 2 (fconst (3/8)))]).
Proof. exact zonal_lost. Qed.
Theorem C69_clock_restarts_refuted : exists f g h,
  disk_of (run SW (with_end wit1 1) PW) None = Some f /\
  result_of (run SW wit1 PW) (Some f) = Ok tt /\ disk_of (run SW wit1 PW) (Some f) = Some g /\
  disk_of (run SW wit1 PW) None = Some h /\
  dget (dsets h) "time" = Some (Rows [RNum 0; RNum 1; RNum 2]) /\
  dget (dsets g) "time" = Some (Rows [RNum 0; RNum 1; RNum 1]).
Proof. exact clock_restarts. Qed.
(** the hypotheses of the positive statement *)
Example C69_nonvacuous : hw_setup np_backend (pc false) 2 2 2 2 1 idf (wit2 false) /\ c_force (wit2 false) = false /\ c_continue (wit2 false) = true /\
  add_last (wit2 false) = true /\ c_rec (wit2 false) = 0 /\ 0 < c_step (wit2 false) /\
  (Z.of_nat 1 mod c_snaps (wit2 false) = 0)%Z /\ (length (recorded_its (wit2 false) 1) mod c_blen (wit2 false) = 0)%nat /\
  nonzero_on 2 2 (fst (Yw false 1)) /\ nonzero_on 2 2 (snd (Yw false 1)) /\
  (forall j, (j < 1)%nat -> t_round4 (INR j * 1) < 1) /\ 1 <= t_round4 (INR 1 * 1) /\
  (forall j, (j < 1 + 1)%nat -> t_round4 (INR j * 1) < c_end (wit2 false)) /\ c_end (wit2 false) <= t_round4 (INR (1 + 1) * 1).
Proof.
  split; [apply wit_setup|]. do 4 (split; [reflexivity|]). split; [cbn; lra|]. do 2 (split; [reflexivity|]).
  split; [exact (proj1 (wit_nonzero false))|]. split; [exact (proj2 (wit_nonzero false))|]. split; [exact wit_times|]. split; [apply (wit_end 1 1); cbn; ring|].
  split; [exact wit_times2|]. apply (wit_end (1 + 1) 2). cbn. ring.
Qed.
Print Assumptions C69_run2_same.
Print Assumptions C69_run_same_fields.
Print Assumptions C69_run2_any.
Print Assumptions C69_zonal_lost_refuted.
Print Assumptions C69_clock_restarts_refuted.

(** ** C71: a run shorter than the buffer cannot be continued *)
Theorem C71_short_run : forall b p ny nx ys xs k0 dsf (c c' : cfg (arr R) R) rnd,
  hw_setup b p ny nx ys xs k0 dsf c -> add_last c = true ->
  c_output c' = true -> c_force c' = false -> c_continue c' = true ->
  forall y0 phi0 pl1,
  c_phys c = physics_params (c_dx c) (Z.of_nat (pN p)) (pc1 p) (pnu p) k0 (ppb p) (pkap p) -> pzon p = false -> c_rec c = 0 ->
  (length (recorded_its c (Z.to_nat (R_trunc (c_end c / c_step c)))) < c_blen c)%nat ->
  let S := hw_sim b rnd ny nx ys xs in
  let pl0 := plasma0 (grid ny nx (fst y0)) (grid ny nx (snd y0)) (grid ny nx phi0) in
  exists f, result_of (run S c pl0) None = Ok tt /\ disk_of (run S c pl0) None = Some f /\
    run S c' pl1 (Some f) = (([], Some f), Exn BaseException).
Proof. exact short_run. Qed.
Theorem C71_short_run2 : forall b p ny nx ys xs k0 dsf (c c' : cfg (arr R) R) rnd,
  hw_setup b p ny nx ys xs k0 dsf c -> add_last c = true ->
  c_output c' = true -> c_force c' = false -> c_continue c' = true ->
  forall y0 phi0 n fuel fuel' pl1,
  c_phys c = physics_params2 (c_dx c) (Z.of_nat (pN p)) (pc1 p) (pnu p) k0 (ppb p) (pkap p) (pzon p) -> c_rec c = 0 -> 0 < c_step c ->
  (1 <= n)%nat -> (c_snaps c' =? 0)%Z = false ->
  (forall k, In k (c_props c) -> prop_fits k ny nx) ->
  (forall j, (j < n)%nat -> t_round4 (INR j * c_step c) < c_end c) -> c_end c <= t_round4 (INR n * c_step c) -> (n < fuel)%nat ->
  (length (recorded_its c n) < c_blen c)%nat ->
  let S := hw_sim b rnd ny nx ys xs in
  let pl0 := plasma0 (grid ny nx (fst y0)) (grid ny nx (snd y0)) (grid ny nx phi0) in
  exists f, result_of (run2 S c fuel pl0) None = Ok tt /\ disk_of (run2 S c fuel pl0) None = Some f /\
    run2 S c' fuel' pl1 (Some f) = (([], Some f), Exn BaseException).
Proof. exact short_run2. Qed.
(** three frames, buffer_length = 100 (the default) *)
Example C71_nonvacuous : hw_setup np_backend (pc false) 2 2 2 2 1 idf wit_short /\ add_last wit_short = true /\ c_blen wit_short = 100%nat /\
  (length (recorded_its wit_short (Z.to_nat (R_trunc (c_end wit_short / c_step wit_short)))) = 3)%nat.
Proof. destruct wit_short_setup as [H1 H2]. split; [exact H1|]. split; [reflexivity|]. split; [reflexivity|]. exact H2. Qed.
Print Assumptions C71_short_run.
Print Assumptions C71_short_run2.
