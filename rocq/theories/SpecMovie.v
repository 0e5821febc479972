(** Vocabulary for the pictures of a movie. *)
From Coq Require Import Arith ZArith Bool Reals String List.
From Verif Require Import Num NdArray Spec ModelIO ModelRun ModelRunHW SpecRun SpecRunHW ModelMovie.
Import ListNotations.
Local Open Scope R_scope.

(** a file whose fields [order] (the first three) have [N] rows; row r of the
    i-th of them is [D i r] *)
Definition film_file (f : h5 (arr R) R) (order : list string) (N ny nx : nat) (D : nat -> nat -> nat -> nat -> R) : Prop :=
  (0 < N)%nat /\ (0 < ny)%nat /\ (0 < nx)%nat /\
  forall i, (i < 3)%nat -> exists name l, nth_error order i = Some name /\ dget (dsets f) name = Some (Rows l) /\ List.length l = N /\
    forall r, (r < N)%nat -> nth_error l r = Some (RFrame (grid ny nx (D i r))).
(** what panel i shows of row r: the field, and with [zero] the vorticity less its mean *)
Definition shown_row (zero : bool) (order : list string) (ny nx : nat) (D : nat -> nat -> nat -> nat -> R) (i r : nat) : nat -> nat -> R :=
  if zero && (nth i order "" =? "omega")%string then (fun a c => D i r a c - gmean ny nx (D i r)) else D i r.
(** the largest absolute value on the grid *)
Definition amplitude (ny nx : nat) (g : nat -> nat -> R) (a : R) : Prop :=
  (exists i j, (i < ny)%nat /\ (j < nx)%nat /\ Rabs (g i j) = a) /\ forall i j, (i < ny)%nat -> (j < nx)%nat -> Rabs (g i j) <= a.
(** all values of a field between -b and b *)
Definition inside (ny nx : nat) (b : R) (g : nat -> nat -> R) : Prop := forall i j, (i < ny)%nat -> (j < nx)%nat -> Rabs (g i j) <= b.

(** a picture of row r at time t: three panels with the fields in the given
    order, their data and symmetric limits [m i] *)
Definition picture (zero : bool) (order : list string) (ny nx : nat) (D : nat -> nat -> nat -> nat -> R) (rt : nat * R) (m : nat -> R) (vs : list view) : Prop :=
  List.length vs = 3%nat /\ forall i, (i < 3)%nat ->
    nth_error vs i = Some (mkView (nth i order ""%string) (snd rt) (grid ny nx (shown_row zero order ny nx D i (fst rt))) (- m i, m i)).
(** limits of the pictures of the rows [rs]: those of picture k contain its
    data, and exceed their amplitude by at most half of what the earlier pictures
    and row 0 exceed it *)
Definition limits_follow (zero : bool) (order : list string) (ny nx : nat) (D : nat -> nat -> nat -> nat -> R) (rs : list nat) (m : nat -> nat -> R) : Prop :=
  forall k r i a, nth_error rs k = Some r -> (i < 3)%nat -> amplitude ny nx (shown_row zero order ny nx D i r) a ->
    a <= m k i /\
    forall b, inside ny nx b (D i 0%nat) -> (forall r', In r' (firstn k rs) -> inside ny nx b (shown_row zero order ny nx D i r')) -> m k i <= Rmax a ((a + b) / 2).
(** a film of the rows and times [shown]: one picture each *)
Definition film_of (zero : bool) (order : list string) (ny nx : nat) (D : nat -> nat -> nat -> nat -> R) (shown : list (nat * R)) (pics : list (list view)) : Prop :=
  List.length pics = List.length shown /\
  exists m : nat -> nat -> R,
    (forall k rt vs, nth_error shown k = Some rt -> nth_error pics k = Some vs -> picture zero order ny nx D rt (m k) vs) /\
    limits_follow zero order ny nx D (map fst shown) m.
(** the field of a recorded frame by its name *)
Definition frame_field (name : string) (fr : frame) : nat -> nat -> R :=
  if (name =? "density")%string then f_n fr else if (name =? "omega")%string then f_o fr else f_p fr.
(** three names, each of a recorded field *)
Definition recorded_names (order : list string) : Prop := exists a b c l, order = a :: b :: c :: l /\ forall x, In x [a; b; c] -> In x ["density"; "omega"; "phi"]%string.
