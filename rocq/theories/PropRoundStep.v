(** C115: rounding errors of a whole step and of a whole simulation in binary64. *)
From Coq Require Import List Arith ZArith Reals Lra Lia SpecFloat Bool String.
From Verif Require Import Num NdArray ModelHW Spec SpecHW SpecRound RoundCons SpecRoundStep RoundReal RoundProps.
Import List ListNotations.
Local Open Scope R_scope.
Local Existing Instance NumF64.

(** one call of rk4_step returns finite fields within [step_err] of the exact
    classical Runge-Kutta step *)
Theorem C115_step : forall ny nx dx b dx0 N c1 nu pb kap zon Lam B P S d dt, regime ny nx dx b dx0 N c1 nu pb kap zon Lam B P S d dt ->
  forall B0 n o phi pl a, 1.001 * B0 + 1.1 * (fval dt * S) <= B ->
  bounded64 ny nx B0 n -> bounded64 ny nx B0 o -> pot64 ny nx dx P d phi o -> has_fields ny nx pl n o phi a ->
  exists lg pl' n' o' phi', rk4_step (hw64 b dx0 N c1 nu pb kap zon) pl dt dx = (lg, Ok pl') /\
    has_fields ny nx pl' n' o' phi' (nadd a dt) /\ pot64 ny nx dx P d phi' o' /\
    close64 ny nx (step_err (par64 N c1 nu pb kap zon) ny (fval dx) d B S (fval dt)) n' o'
      (rk4 (hw_rhs (par64 N c1 nu pb kap zon) ny nx (fval dx)) (fval dt) (values n, values o)).
Proof. exact c115_step. Qed.
Print Assumptions C115_step.

(** k steps *)
Theorem C115_run : forall ny nx dx b dx0 N c1 nu pb kap zon Lam B P S d dt, regime ny nx dx b dx0 N c1 nu pb kap zon Lam B P S d dt ->
  forall A0 e k n o phi pl a y, close64 ny nx e n o y -> pot64 ny nx dx P d phi o -> has_fields ny nx pl n o phi a ->
  let p := par64 N c1 nu pb kap zon in let F := hw_rhs p ny nx (fval dx) in
  stays ny nx A0 (rk4 F (fval dt)) k y ->
  let E := (1 + 2 * (fval dt * lip p (fval dx) Lam B)) ^ k * (e + INR k * step_err p ny (fval dx) d B S (fval dt)) in
  1.001 * (A0 + E) + 1.1 * (fval dt * S) <= B ->
  exists lg pl' n' o' phi' a', steps (fun pl => rk4_step (hw64 b dx0 N c1 nu pb kap zon) pl dt dx) k pl = (lg, Ok pl') /\
    has_fields ny nx pl' n' o' phi' a' /\ pot64 ny nx dx P d phi' o' /\ close64 ny nx E n' o' (iter_step (rk4 F (fval dt)) k y).
Proof. exact c115_run. Qed.
Print Assumptions C115_run.

(** against the solution of the semi-discrete system: error of the
    Runge-Kutta method, of the arithmetic, of the solver and of the start *)
Theorem C115_solution : forall ny nx dx N c1 nu pb kap zon Y T M, (0 < ny)%nat -> (0 < nx)%nat -> 0 < fval dx ->
  let p := par64 N c1 nu pb kap zon in
  0 <= T -> hw_solution p ny nx (fval dx) Y T -> (forall s, 0 <= s <= T -> sbdd ny nx M (Y s)) ->
  exists C h0, 0 <= C /\ 0 < h0 /\ forall b dx0 Lam B P S d dt, regime ny nx dx b dx0 N c1 nu pb kap zon Lam B P S d dt ->
  fval dt <= h0 -> forall k e n o phi pl a, INR k * fval dt <= T ->
  close64 ny nx e n o (Y 0) -> pot64 ny nx dx P d phi o -> has_fields ny nx pl n o phi a ->
  let E := exp (2 * lip p (fval dx) Lam B * T) * (e + T * (step_err p ny (fval dx) d B S (fval dt) / fval dt)) + C * fval dt ^ 4 in
  1.001 * (M + E) + 1.1 * (fval dt * S) <= B ->
  exists lg pl' n' o' phi' a', steps (fun pl => rk4_step (hw64 b dx0 N c1 nu pb kap zon) pl dt dx) k pl = (lg, Ok pl') /\
    has_fields ny nx pl' n' o' phi' a' /\ pot64 ny nx dx P d phi' o' /\ close64 ny nx E n' o' (Y (INR k * fval dt)).
Proof. exact c115_solution. Qed.
Print Assumptions C115_solution.

(** the constants exist: the inverse Laplacian is bounded on every grid, and
    [lip] is a Lipschitz constant of the system *)
Theorem C115_lipschitz : forall p ny nx h, (0 < ny)%nat -> (0 < nx)%nat -> 0 < h ->
  exists Lam, 0 <= Lam /\ inv_bound ny nx h Lam /\
  forall B y z e, sbdd ny nx B y -> sbdd ny nx B z -> within ny nx e y z ->
    within ny nx (lip p h Lam B * e) (hw_rhs p ny nx h y) (hw_rhs p ny nx h z).
Proof. exact c115_lipschitz. Qed.
Print Assumptions C115_lipschitz.

(** ** concrete case: one cell *)
Example C115_hyps : regime 1 1 one64 cb one64 1 one64 z64 one64 one64 false 0 4 1 16 0 dt64 /\
  has_fields 1 1 cpl cn co (fun _ _ => z64) z64 /\ bounded64 1 1 3 cn /\ bounded64 1 1 3 co /\ pot64 1 1 one64 1 0 (fun _ _ => z64) co /\
  1.001 * 3 + 1.1 * (fval dt64 * 16) <= 4.
Proof. destruct case_start as (A & B & C & D). pose proof case_regime. pose proof (pot11 co). tauto. Qed.
(** the program's new density and vorticity; the first is not the exact value *)
Example C115_case : exists lg pl' n' o' phi', rk4_step (hw64 cb one64 1 one64 z64 one64 one64 false) cpl dt64 one64 = (lg, Ok pl') /\
  has_fields 1 1 pl' n' o' phi' dt64 /\
  n' 0%nat 0%nat = S754_finite false 8730076869470891 (-53) /\ o' 0%nat 0%nat = S754_finite false 8868638062105941 (-52) /\
  fst (rk4 (hw_rhs (par64 1 one64 z64 one64 one64 false) 1 1 1) (/ 32) (values cn, values co)) 0%nat 0%nat = 24391553 / 25165824 /\
  fval (n' 0%nat 0%nat) <> 24391553 / 25165824.
Proof. exact c115_case. Qed.
