(** C119: the conservation test does not influence the fields.
    C120: the file left by a run in binary64, against the exact solution. *)
From Coq Require Import List Arith ZArith Reals Lra Lia SpecFloat Bool String.
From Verif Require Import Num NdArray ModelHW ModelBackend ModelSchemes ModelIO ModelRun ModelRun64 Spec SpecHW SpecRound SpecRoundStep SpecRun SpecRun64
  RoundFacts RoundCons RoundReal RoundEval RoundProps TestFacts F32Facts Run64Facts Run64Wit.
Import List ListNotations.
Local Open Scope R_scope.

(** the keys density, omega, age in this order, and phi anywhere *)
Definition fields_are {A} (ny nx : nat) (pl : ns A) (n o phi : nat -> nat -> A) (a : A) : Prop :=
  ns_without "phi" pl = [("density", grid ny nx n); ("omega", grid ny nx o); ("age", scal a)]%string /\
  ns_get pl "phi" = Ok (grid ny nx phi).

(** any number type, any solver that keeps the shape: k steps with
    TEST_CONSERVATION=True end in the same Namespace, or the same exception,
    as k steps without *)
Theorem C119_rk4 : forall A (Nm : Num A) ny nx dx solver b dx0 N c1 nu pb kap zon dt k pl n o phi a,
  (0 < ny)%nat -> (0 < nx)%nat -> b = np_schemes solver \/ b = nb_schemes solver ->
  let h test := hw_init b dx0 (Z.of_nat N) c1 nu pb kap zon test in
  (forall om p, snd (hw_get_phi (h false) (Ok (grid ny nx om)) dx) = Ok p -> exists phi, p = grid ny nx phi) ->
  fields_are ny nx pl n o phi a ->
  snd (steps (fun pl => rk4_step (h true) pl dt dx) k pl) = snd (steps (fun pl => rk4_step (h false) pl dt dx) k pl).
Proof. intros A Nm ny nx dx solver b dx0 N c1 nu pb kap zon dt k pl n o phi a Hy Hx Hb h HS Hf. exact (steps_TF ny nx dx Hy Hx solver b dx0 N c1 nu pb kap zon Hb dt k pl n o phi a HS Hf). Qed.
Print Assumptions C119_rk4.

Theorem C119_euler : forall A (Nm : Num A) ny nx dx solver b dx0 N c1 nu pb kap zon dt pl n o phi a,
  (0 < ny)%nat -> (0 < nx)%nat -> b = np_schemes solver \/ b = nb_schemes solver ->
  let h test := hw_init b dx0 (Z.of_nat N) c1 nu pb kap zon test in
  fields_are ny nx pl n o phi a ->
  snd (euler_step (h true) pl dt dx) = snd (euler_step (h false) pl dt dx).
Proof. intros A Nm ny nx dx solver b dx0 N c1 nu pb kap zon dt pl n o phi a Hy Hx Hb h Hf. exact (euler_TF ny nx dx Hy Hx solver b dx0 N c1 nu pb kap zon Hb dt pl n o phi a Hf). Qed.
Print Assumptions C119_euler.

(** the rates computed at every stage are in none of the returned states *)
Theorem C119_dropped : forall A (Nm : Num A) ny nx dx solver b dx0 N c1 nu pb kap zon dt pl n o phi a pl',
  (0 < ny)%nat -> (0 < nx)%nat -> b = np_schemes solver \/ b = nb_schemes solver ->
  let h test := hw_init b dx0 (Z.of_nat N) c1 nu pb kap zon test in
  (forall om p, snd (hw_get_phi (h false) (Ok (grid ny nx om)) dx) = Ok p -> exists phi, p = grid ny nx phi) ->
  fields_are ny nx pl n o phi a -> snd (rk4_step (h true) pl dt dx) = Ok pl' ->
  ns_get pl' "dE" = Exn KeyError /\ ns_get pl' "dU" = Exn KeyError.
Proof. intros A Nm ny nx dx solver b dx0 N c1 nu pb kap zon dt pl n o phi a pl' Hy Hx Hb h HS Hf E. exact (rk4_dropped ny nx dx Hy Hx solver b dx0 N c1 nu pb kap zon Hb dt pl n o phi a pl' HS Hf E). Qed.
Print Assumptions C119_dropped.

Local Existing Instance TimeF64.
Local Existing Instance NumF64.

(** concrete case: one cell in binary64; the right-hand side with the test has
    two more entries, the states after three steps are the same *)
Example C119_case : fields_are 1 1 cpl cn co (fun _ _ => z64) z64 /\
  let h test := hw_init cb one64 1 one64 z64 one64 one64 false test in
  (forall om p, snd (hw_get_phi (h false) (Ok (grid 1 1 om)) one64) = Ok p -> exists phi, p = grid 1 1 phi) /\
  (exists g, snd (gradient_2d (h true) (ns_without "phi" cpl) (Some (grid 1 1 (fun _ _ => z64))) z64 one64) = Ok g /\ ns_get g "dE" = Ok (scal (nopp one64))) /\
  exists s, snd (steps (fun pl => rk4_step (h true) pl dt64 one64) 3 cpl) = Ok s /\ snd (steps (fun pl => rk4_step (h false) pl dt64 one64) 3 cpl) = Ok s /\
    ns_get s "density" <> ns_get cpl "density".
Proof.
  split; [split; reflexivity|]. split; [|split].
  - intros om p E. exists (fun _ _ => z64). vm_compute in E. injection E as <-. reflexivity.
  - eexists. split; [vm_compute; reflexivity|]. vm_compute. reflexivity.
  - eexists. split; [vm_compute; reflexivity|]. split; [vm_compute; reflexivity|]. vm_compute. congruence.
Qed.

(** ** C120 *)
(** storing as float32 *)
Theorem C120_f32 : forall x, finite64 x -> Rabs (fval x) <= 2 ^ 127 -> near (f32_64 x) (fval x) (/ 2 ^ 24 * Rabs (fval x) + / 2 ^ 150).
Proof. exact f32_near. Qed.
Print Assumptions C120_f32.

(** the check for NaN adds up the density: no order of the additions makes a
    finite field of moderate size look like NaN *)
Theorem C120_check : forall t v B, 0 <= B -> (forall x, In x v -> finite64 x /\ Rabs (fval x) <= B) ->
  INR (leaves t) <= 2 ^ 50 -> B <= 2 ^ 900 -> is_nan64 (total t v) = false.
Proof. exact total_not_nan. Qed.
Print Assumptions C120_check.

(** the rows of the file against the same steps in exact arithmetic *)
Theorem C120_steps : forall ny nx dx b N c1 nu k0 pb kap Lam B P S d dt, regime ny nx dx b dx N c1 nu pb kap false Lam B P S d dt ->
  keeps_shape ny nx dx (fun om dx => snd (hw_get_phi (hw64 b dx N c1 nu pb kap false) om dx)) ->
  B <= 2 ^ 127 -> P <= 2 ^ 127 ->
  let p := par64 N c1 nu pb kap false in
  let step := rk4 (hw_rhs p ny nx (fval dx)) (fval dt) in
  forall t c fs k e n o phi0 A y, call64 dx N c1 nu k0 pb kap dt c fs k -> INR (leaves t) <= 2 ^ 50 -> INR k * fval dt <= 2 ^ 100 ->
  close64 ny nx e n o y -> stays ny nx A step k y ->
  let E := (1 + 2 * (fval dt * lip p (fval dx) Lam B)) ^ k * (e + INR k * step_err p ny (fval dx) d B S (fval dt)) in
  1.001 * (A + E) + 1.1 * (fval dt * S) <= B ->
  let call := run (hw_sim64 b t ny nx) c (plasma64 (grid ny nx n) (grid ny nx o) (grid ny nx phi0)) in
  exists g D W F Tm, result_of call fs = Ok tt /\ disk_of call fs = Some g /\ holds64 ny nx g (entries c k) D W F Tm /\
  forall j, In j (entries c k) ->
    close64 ny nx (stored E B) (D j) (W j) (iter_step step j y) /\
    (j <> 0%nat -> phi_near ny nx (fval dx) (stored (Lam * E + d) P) (F j) (iter_step step j y)) /\
    near (Tm j) (INR j * fval dt) (/ 2 ^ 23 * (INR k * fval dt) + / 2 ^ 149).
Proof. exact c119_run. Qed.
Print Assumptions C120_steps.

(** the rows of the file against the solution of the semi-discrete system *)
Theorem C120_solution : forall ny nx dx N c1 nu k0 pb kap Y T M, (0 < ny)%nat -> (0 < nx)%nat -> 0 < fval dx ->
  let p := par64 N c1 nu pb kap false in
  0 <= T -> hw_solution p ny nx (fval dx) Y T -> (forall s, 0 <= s <= T -> sbdd ny nx M (Y s)) ->
  exists C h0, 0 <= C /\ 0 < h0 /\ forall b Lam B P S d dt, regime ny nx dx b dx N c1 nu pb kap false Lam B P S d dt ->
  keeps_shape ny nx dx (fun om dx => snd (hw_get_phi (hw64 b dx N c1 nu pb kap false) om dx)) ->
  fval dt <= h0 -> B <= 2 ^ 127 -> P <= 2 ^ 127 -> T <= 2 ^ 100 ->
  forall t c fs k e n o phi0, call64 dx N c1 nu k0 pb kap dt c fs k -> INR (leaves t) <= 2 ^ 50 -> INR k * fval dt <= T ->
  close64 ny nx e n o (Y 0) ->
  let E := exp (2 * lip p (fval dx) Lam B * T) * (e + T * (step_err p ny (fval dx) d B S (fval dt) / fval dt)) + C * fval dt ^ 4 in
  1.001 * (M + E) + 1.1 * (fval dt * S) <= B ->
  let call := run (hw_sim64 b t ny nx) c (plasma64 (grid ny nx n) (grid ny nx o) (grid ny nx phi0)) in
  exists g D W F Tm, result_of call fs = Ok tt /\ disk_of call fs = Some g /\ holds64 ny nx g (entries c k) D W F Tm /\
  forall j, In j (entries c k) ->
    close64 ny nx (stored E B) (D j) (W j) (Y (INR j * fval dt)) /\
    (j <> 0%nat -> phi_near ny nx (fval dx) (stored (Lam * E + d) P) (F j) (Y (INR j * fval dt))) /\
    near (Tm j) (INR j * fval dt) (/ 2 ^ 23 * T + / 2 ^ 149).
Proof. exact c119_solution. Qed.
Print Assumptions C120_solution.


(** ** concrete case: one cell, two steps of 1/32 (Run64Wit.v) *)
Example C120_hyps : regime 1 1 one64 cb one64 1 one64 z64 one64 one64 false 0 4 1 16 0 dt64 /\
  keeps_shape 1 1 one64 (fun om dx => snd (hw_get_phi (hw64 cb one64 1 one64 z64 one64 one64 false) om dx)) /\
  call64 one64 1 one64 z64 one64 one64 one64 dt64 cfg64 None 2 /\ close64 1 1 0 cn co (values cn, values co) /\
  stays 1 1 2 (rk4 (hw_rhs (par64 1 one64 z64 one64 one64 false) 1 1 1) (/ 32)) 2 (values cn, values co) /\
  (let p := par64 1 one64 z64 one64 one64 false in
   1.001 * (2 + (1 + 2 * (fval dt64 * lip p (fval one64) 0 4)) ^ 2 * (0 + INR 2 * step_err p 1 (fval one64) 0 4 16 (fval dt64))) + 1.1 * (fval dt64 * 16) <= 4) /\
  entries cfg64 2 = [0; 1; 2]%nat.
Proof.
  pose proof case_regime. pose proof case_shape. pose proof case_call. pose proof case_close. pose proof case_stays. pose proof case_size.
  repeat (split; [assumption|]). vm_compute. reflexivity.
Qed.
(** the rows: the density of the first step is stored as a float32, which is
    not the density the step computed (C115_case) *)
Example C120_rows : let call := run (hw_sim64 cb (Leaf 0) 1 1) cfg64 (plasma64 (grid 1 1 cn) (grid 1 1 co) (grid 1 1 (fun _ _ => z64))) in
  exists g a b, result_of call None = Ok tt /\ disk_of call None = Some g /\
  dget (dsets g) "density" = Some (Rows (map (fun x => RFrame (grid 1 1 (fun _ _ => x))) [one64; a; b])) /\
  dget (dsets g) "time" = Some (Rows (map (fun x => RNum x) [z64; dt64; nmul (f64_ofZ 2) dt64])) /\
  a <> S754_finite false 8730076869470891 (-53) /\ a <> b.
Proof.
  eexists _, _, _. split; [vm_compute; reflexivity|]. split; [vm_compute; reflexivity|]. split; [vm_compute; reflexivity|].
  split; [vm_compute; reflexivity|]. split; vm_compute; discriminate.
Qed.
