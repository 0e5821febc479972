(** Vocabulary of the theorems about the axes of the time-trace plots. *)
From Coq Require Import Reals List String.
From Verif Require Import ModelPlot ModelTrace.
Import ListNotations.
Local Open Scope R_scope.

(** a value lies between the limits of an axis, in whichever order they are *)
Definition visible (lim : R * R) (y : R) : Prop := Rmin (fst lim) (snd lim) <= y <= Rmax (fst lim) (snd lim).
(** the limits matplotlib chooses by itself leave a margin around all curves *)
Definition with_margin (auto : list curve -> R * R) : Prop :=
  forall cs c y, In c cs -> In y (cv_y c) -> fst (auto cs) < y < snd (auto cs).
(** some panel of the figure shows the curve *)
Definition shown (v : view) (c : curve) : Prop := exists p, In p (v_panels v) /\ In c p.
(** the values of a curve are all above a limit *)
Definition all_above (yc : R) (c : curve) : Prop := forall y, In y (cv_y c) -> yc < y.
(** the picture in a file *)
Definition picture (d : pictures) (path : string) : option view :=
  match find (fun q => String.eqb (fst q) path) d with Some q => Some (snd q) | None => None end.
