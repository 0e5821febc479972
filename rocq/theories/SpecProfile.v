(** What a profile should say (C127), without reference to the program. *)
From Coq Require Import List ZArith QArith String Sorted.
Import ListNotations.
Local Open Scope Z_scope.

(** a clock that is never set back *)
Definition steady (clk : nat -> Z) : Prop := forall i, clk i <= clk (S i).

(** seconds spent in, and completed calls of, [k] *)
Fixpoint total (k : string) (l : list (string * Z)) : Z :=
  match l with
  | [] => 0
  | (n, t) :: l' => (if string_dec k n then t else 0) + total k l'
  end.
Fixpoint number (k : string) (l : list (string * Z)) : Z :=
  match l with
  | [] => 0
  | (n, _) :: l' => (if string_dec k n then 1 else 0) + number k l'
  end.

(** calls of a profiled function in k Runge-Kutta steps after one call of
    get_phi; [pb], [nu], [test]: bracket, diffusion and conservation test on *)
Definition expected_calls (pb nu test : bool) (k : Z) (name : string) : Z :=
  if String.eqb name "full_step" then k
  else if String.eqb name "get_phi" then 4 * k + 1
  else if String.eqb name "gradient_2d" then 4 * k
  else if String.eqb name "poisson_bracket" then (if pb then 8 * k else 0)
  else if String.eqb name "diffuse" then (if nu then 8 * k else 0) + (if test then 4 * k else 0)
  else 0.
