(** Vocabulary for statements about rows and times in binary64. *)
From Coq Require Import ZArith Reals List String SpecFloat.
From Verif Require Import Num ModelIO SpecRound.
Import ListNotations.
Local Open Scope R_scope.
Local Open Scope string_scope.

(** a file with n rows of equally spaced frames: spacing dt, first time tin, both
    finite and dt positive *)
Record equal_rows64 {V : Type} (f : h5 V f64) (dt tin : f64) (n : nat) : Prop := {
  eq_dt : dget (attrs f) "frame_dt" = Some (AT dt);
  eq_start : dget (attrs f) "initial_time" = Some (AT tin);
  eq_rows : exists l, dget (dsets f) "density" = Some (Rows l) /\ List.length l = n;
  eq_fin : finite64 dt /\ 0 < fval dt /\ finite64 tin }.
