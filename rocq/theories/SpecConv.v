(** Vocabulary of the convergence theorems.  Independent of the code
    except for [with_step], which changes one argument of a run. *)
From Coq Require Import List Arith ZArith Reals.
From Verif Require Import Spec SpecHW SpecSmooth NdArray ModelIO ModelRun SpecRunHW.
Local Open Scope R_scope.

(** mean square of a field and of a pair of fields over the grid *)
Definition msq (ny nx : nat) (f : field) : R := gmean ny nx (fun i j => f i j ^ 2).
Definition msq2 (ny nx : nat) (y : state) : R := msq ny nx (fst y) + msq ny nx (snd y).
Definition sdiff (y z : state) : state := (fsub (fst y) (fst z), fsub (snd y) (snd z)).

(** the same run with another time step *)
Definition with_step {V T} (c : cfg V T) (dt : T) : cfg V T :=
  mkCfg dt (c_end c) (c_phys c) (c_dx c) (c_c1 c) (c_x c) (c_y c) (c_xs c) (c_ys c) (c_output c) (c_rec c) (c_continue c)
    (c_blen c) (c_snaps c) (c_down c) (c_last c) (c_force c) (c_adaptive c) (c_props c).
(** every recorded frame lies in [0, T] and is within [e] of [Y] at its time *)
Definition frames_near (ny nx : nat) (e T : R) (Y : R -> state) (l : list frame) : Prop :=
  forall f, In f l -> 0 <= f_t f <= T /\ within ny nx e (f_n f, f_o f) (Y (f_t f)).
