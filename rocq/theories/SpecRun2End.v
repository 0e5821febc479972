(** Vocabulary for the end of run2: the rows of a run2 simulation that records
    from its m-th snapshot on, and the curves of the comparison plot. *)
From Coq Require Import Arith ZArith Bool Reals String List.
From Verif Require Import Num NdArray Spec SpecFourier SpecHW SpecPlasma ModelHW ModelBackend ModelIO ModelRun ModelRunHW SpecIO SpecRun SpecRunHW SpecAttr ModelPlot SpecPlot ModelRunEnd SpecRunEnd.
Import ListNotations.
Local Open Scope string_scope.
Local Open Scope R_scope.

(** run2.py, set up for the parameters [p], makes [n] steps and records from
    snapshot [m] on; the last step is later than the recording start *)
Record records2_from (b : backend R) (p : par) (ny nx ys xs : nat) (k0 : R) (dsf : field -> field) (c : cfg (arr R) R) (fs : disk (arr R) R)
    (m n fuel : nat) : Prop := {
  r2_setup : hw_setup b p ny nx ys xs k0 dsf c;
  r2_fits : forall q, In q (c_props c) -> prop_fits q ny nx;
  r2_phys : c_phys c = physics_params2 (c_dx c) (Z.of_nat (pN p)) (pc1 p) (pnu p) k0 (ppb p) (pkap p) (pzon p);
  r2_file : fs = None \/ c_force c = true;
  r2_step : 0 < c_step c;
  r2_rec : c_rec c = INR m * (c_step c * IZR (c_snaps c));
  r2_going : forall j, (j < n)%nat -> @t_round4 _ TimeR (INR j * c_step c) < c_end c;
  r2_done : c_end c <= @t_round4 _ TimeR (INR n * c_step c);
  r2_fuel : (n < fuel)%nat;
  r2_late : c_rec c < INR n * c_step c }.

(** rounding numbers to the precision of the file does not change their order *)
Definition monotone (rnd : R -> R) : Prop := forall x y, x <= y -> rnd x <= rnd y.

(** the stored value of property [q] of frame [x] on the stored frame and at full resolution *)
Definition stored_value (rnd : R -> R) (dsf : field -> field) (ys xs : nat) (dx c1 : R) (q : string) (x : frame) : R :=
  let fld (f : field) : field := fun i j => rnd (dsf f i j) in
  rnd (prop_value q ys xs dx c1 (fld (f_n x)) (fld (f_p x)) (fld (f_o x))).
Definition full_value (rnd : R -> R) (ny nx : nat) (dx c1 : R) (q : string) (x : frame) : R :=
  rnd (prop_value q ny nx dx c1 (f_n x) (f_p x) (f_o x)).
(** the curve through the points (time r, val r) of all rows r < N, with
    statistics over the rows from [w] on *)
Definition curve_of (label : string) (time val : nat -> R) (N w : nat) : curve :=
  mkCurve label (map time (seq 0 N)) (map val (seq 0 N)) (skipn w (map val (seq 0 N))).

Section Shows.
Variables (rnd : R -> R) (dsf : field -> field) (ys xs N : nat) (fr : nat -> frame) (e : ending) (latex : string -> string).
(** the movie, if asked for: it shows rows of the file, each under its title *)
Definition movie_shows (g : h5 (arr R) R) (mv : option (R * list (nat * R))) (title : nat -> R) : Prop :=
  match mv with
  | None => e_movie e = false
  | Some (fps, shown) => e_movie e = true /\ shown <> [] /\
      forall r t, In (r, t) shown -> (r < N)%nat /\ t = title r /\ row_shows rnd dsf ys xs g r (fr r)
  end.
(** the comparison plot, if asked for: the properties of the stored frames
    above, those at full resolution below, at the given times *)
Definition comparison_shows (val full : string -> nat -> R) (pt : option (option (list curve * list curve * bool))) (time : nat -> R) (w : nat) : Prop :=
  match pt with
  | None => e_plots e = []
  | Some None => False
  | Some (Some (top, bottom, cut)) => e_plots e <> [] /\
      top = map (fun q => curve_of (latex q ++ " ") time (val q) N w) (e_plots e) /\
      bottom = map (fun q => curve_of ("Full " ++ latex q ++ " ") time (full q) N w) (e_plots e) /\ cut = false
  end.
End Shows.
