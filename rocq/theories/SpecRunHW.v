(** What a Hasegawa-Wakatani simulation should record. *)
From Coq Require Import Arith ZArith Bool Reals String List.
From Verif Require Import Num NdArray Spec Cplx SpecFourier ModelHW ModelBackend SpecHW SpecPlasma SpecDiag ModelIO ModelRun ModelRunHW SpecIO SpecRun.
Import ListNotations.
Local Open Scope R_scope.
Local Open Scope string_scope.

(** the state after [j] Runge-Kutta steps *)
Definition hw_states (p : par) (ny nx : nat) (dx dt : R) (y0 : state) (j : nat) : state :=
  iter_step (rk4 (hw_rhs p ny nx dx) dt) j y0.

(** the eight recorded properties of density [n], potential [p], vorticity [o] *)
Definition prop_value (name : string) (ny nx : nat) (dx c1 : R) (n p o : field) : R :=
  if String.eqb name "gamma_n" then - gmean ny nx (fun i j => n i j * cdy ny dx p i j)
  else if String.eqb name "gamma_n_spectral" then - gmean ny nx (fun i j => n i j * specdy ny nx dx p i j)
  else if String.eqb name "gamma_c" then c1 * gmean ny nx (fun i j => (n i j - p i j) ^ 2)
  else if String.eqb name "energy" then gmean ny nx (fun i j => n i j ^ 2 + (cdx nx dx p i j ^ 2 + cdy ny dx p i j ^ 2)) / 2
  else if String.eqb name "thermal_energy" then gmean ny nx (fun i j => n i j ^ 2) / 2
  else if String.eqb name "kinetic_energy" then - gmean ny nx (fun i j => p i j * re (speclap ny nx dx p i j)) / 2
  else if String.eqb name "enstrophy" then gmean ny nx (fun i j => (n i j - o i j) ^ 2) / 2
  else gmean ny nx (fun i j => (n i j - lap5 ny nx dx p i j) ^ 2) / 2.
(** the spectral ones need a square grid, the flux an even number of cells *)
Definition prop_fits (name : string) (ny nx : nat) : Prop :=
  In name ["gamma_n"; "gamma_c"; "energy"; "thermal_energy"; "enstrophy"; "enstrophy_phi"]
  \/ (name = "kinetic_energy" /\ ny = nx)
  \/ (name = "gamma_n_spectral" /\ ny = nx /\ Nat.even nx = true).

(** a driver set up for the parameters [p] on a periodic ny x nx grid with
    spacing 2 pi / k0 / nx; frames of ys x xs cells are saved, [dsf] is the
    down-sampling *)
Record hw_setup (b : backend R) (p : par) (ny nx ys xs : nat) (k0 : R) (dsf : field -> field) (c : cfg (arr R) R) : Prop := {
  hs_b : backend_ok ny nx b;
  hs_ny : (0 < ny)%nat; hs_nx : (0 < nx)%nat; hs_ys : (0 < ys)%nat; hs_xs : (0 < xs)%nat;
  hs_k0 : k0 <> 0;
  hs_dx : c_dx c = domain_dx k0 nx;
  hs_c1 : c_c1 c = pc1 p;
  hs_x : c_xs c = Z.of_nat xs; hs_y : c_ys c = Z.of_nat ys;
  hs_out : c_output c = true; hs_blen : (1 <= c_blen c)%nat; hs_snaps : (1 <= c_snaps c)%Z;
  hs_down : forall f, down c (grid ny nx f) = Ok (grid ys xs (dsf f));
  hs_nodup : NoDup (c_props c);
  hs_props : forall k, In k (c_props c) -> prop_fits k ys xs }.

(** the iterations run.py records in [n] steps *)
Definition recorded_its (c : cfg (arr R) R) (n : nat) : list nat :=
  ((if Req_EM_T (c_rec c) 0 then [0%nat] else [])
   ++ filter (fun j => (if Rle_dec (c_rec c) (INR j * c_step c) then true else false) && (Z.of_nat j mod c_snaps c =? 0)%Z) (seq 1 n))%list.

(** recorded frames: time, density, vorticity, potential *)
Record frame := mkFrame { f_t : R; f_n : field; f_o : field; f_p : field }.
(** the file [g] holds exactly the frames [l], down-sampled and rounded *)
Definition file_frames (rnd : R -> R) (dsf : field -> field) (ys xs : nat) (l : list frame) (g : h5 (arr R) R) : Prop :=
  let fld (f : field) : row (arr R) R := RFrame (grid ys xs (fun i j => rnd (dsf f i j))) in
  dget (dsets g) "density" = Some (Rows (map (fun x => fld (f_n x)) l)) /\
  dget (dsets g) "omega" = Some (Rows (map (fun x => fld (f_o x)) l)) /\
  dget (dsets g) "phi" = Some (Rows (map (fun x => fld (f_p x)) l)) /\
  dget (dsets g) "time" = Some (Rows (map (fun x => RNum (rnd (f_t x))) l)).
(** the dataset of a property holds its value on every recorded frame *)
Definition file_prop (rnd : R -> R) (dsf : field -> field) (ys xs : nat) (dx c1 : R) (l : list frame) (g : h5 (arr R) R) (k : string) : Prop :=
  let fld (f : field) : field := fun i j => rnd (dsf f i j) in
  dget (dsets g) k = Some (Rows (map (fun x => RNum (rnd (prop_value k ys xs dx c1 (fld (f_n x)) (fld (f_p x)) (fld (f_o x))))) l)).
(** run2: the dataset of a property at full resolution *)
Definition file_fullres (rnd : R -> R) (ny nx : nat) (dx c1 : R) (l : list frame) (g : h5 (arr R) R) (k : string) : Prop :=
  dget (dsets g) (String.append "fullres_" k) =
  Some (Rows (map (fun x => RNum (rnd (prop_value k ny nx dx c1 (f_n x) (f_p x) (f_o x)))) l)).
(** the state_* datasets hold the unrounded full-resolution fields of [x] *)
Definition file_state (ny nx : nat) (x : frame) (g : h5 (arr R) R) : Prop :=
  dget (dsets g) "state_density" = Some (Whole (grid ny nx (f_n x))) /\
  dget (dsets g) "state_omega" = Some (Whole (grid ny nx (f_o x))) /\
  dget (dsets g) "state_phi" = Some (Whole (grid ny nx (f_p x))).
(** they hold the last frame whose number is a multiple of the buffer length;
    zeros as long as there is none *)
Definition frame0 : frame := mkFrame 0 (fconst 0) (fconst 0) (fconst 0).
Definition file_last_state (ny nx blen : nat) (l : list frame) (g : h5 (arr R) R) : Prop :=
  file_state ny nx (last (firstn (blen * (length l / blen)) l) frame0) g.

(** frame [j] of a simulation: the j-th Runge-Kutta iterate with its
    potential, except that the initial frame has the potential [phi0] that the
    initial noise gave *)
Definition hw_frame (p : par) (ny nx : nat) (dx dt : R) (y0 : state) (phi0 : field) (j : nat) : frame :=
  let y := hw_states p ny nx dx dt y0 j in
  mkFrame (INR j * dt) (fst y) (snd y) (if (j =? 0)%nat then phi0 else invlap ny nx dx (snd y)).

(** a frame [j] steps after a continuation from the state [y0] at time [a] *)
Definition cont_frame (p : par) (ny nx : nat) (dx dt : R) (y0 : state) (a : R) (j : nat) : frame :=
  let y := hw_states p ny nx dx dt y0 j in mkFrame (a + INR j * dt) (fst y) (snd y) (invlap ny nx dx (snd y)).
Definition cont_its (c : cfg (arr R) R) (a : R) (n : nat) : list nat :=
  filter (fun j => (if Rle_dec (c_rec c) (a + INR j * c_step c) then true else false) && (Z.of_nat j mod c_snaps c =? 0)%Z) (seq 1 n).

(** the same run with another end time *)
Definition with_end {V T} (c : cfg V T) (t : T) : cfg V T :=
  mkCfg (c_step c) t (c_phys c) (c_dx c) (c_c1 c) (c_x c) (c_y c) (c_xs c) (c_ys c) (c_output c) (c_rec c) (c_continue c)
    (c_blen c) (c_snaps c) (c_down c) (c_last c) (c_force c) (c_adaptive c) (c_props c).
(** without the zonal correction *)
Definition no_zonal (p : par) : par := mkPar (pN p) (pc1 p) (pnu p) (ppb p) (pkap p) false.
Definition nonzero_on (ny nx : nat) (f : field) : Prop := exists i j, (i < ny)%nat /\ (j < nx)%nat /\ f i j <> 0.
