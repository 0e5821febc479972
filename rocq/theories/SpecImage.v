(** Vocabulary for the image script. *)
From Coq Require Import Arith ZArith Bool Reals String Ascii List.
From Verif Require Import Num NdArray Spec ModelIO ModelImage.
Import ListNotations.
Local Open Scope string_scope.

(** row r of the three fields of a file of N rows *)
Definition fields_at (f : h5 (arr R) R) (N r ny nx : nat) (n o p : nat -> nat -> R) : Prop :=
  (r < N)%nat /\
  forall name g, In (name, g) [("density", n); ("omega", o); ("phi", p)] ->
    exists l, dget (dsets f) name = Some (Rows l) /\ List.length l = N /\ nth_error l r = Some (RFrame (grid ny nx g)).
(** a panel shows the field g under a title, its colours spanning exactly the
    values of g *)
Definition panel_shows (ny nx : nat) (title : string) (g : nat -> nat -> R) (p : panel) : Prop :=
  p_title p = title /\ p_data p = grid ny nx g /\
  exists lo hi, p_clim p = Some (lo, hi) /\
    (forall i j, (i < ny)%nat -> (j < nx)%nat -> (lo <= g i j <= hi)%R) /\
    (exists i j, (i < ny)%nat /\ (j < nx)%nat /\ g i j = lo) /\ (exists i j, (i < ny)%nat /\ (j < nx)%nat /\ g i j = hi).
(** the three titles *)
Definition titles : list string := ["density ($n$)"; "vorticity ($\Omega$)"; "potential ($\phi$)"].
(** what is left of the time in the name of a saved image, for the int n *)
Definition left_of_time (n : nat) : string :=
  if (n <? 10)%nat then "" else if (n <? 100)%nat then "_" else if (n <? 1000)%nat then "_t"
  else if (n <? Z.to_nat 10000)%nat then "_t=" else "_t=" ++ str_nat (n / Z.to_nat 10000).
