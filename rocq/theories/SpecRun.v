(** What a simulation run should record: the states of the evolution at the
    recorded iterations, each with its time. *)
From Coq Require Import Arith ZArith Bool String List Lia.
From Verif Require Import Num NdArray ModelIO ModelRun SpecIO.
Import ListNotations.

Section SpecRun.
Context {V T : Type} {TN : TimeNum T}.
Variable s : sim V T.
Variable c : cfg V T.

(** [traj 0 .. traj n] are consecutive states: one step of the physics [phys]
    with the caller's step size and grid spacing leads from each to the next *)
Definition evolves (phys : physics) (pl : plasma V T) (traj : nat -> plasma V T) (n : nat) : Prop :=
  traj 0 = pl /\
  forall j, j < n -> s_step s phys (traj j) (c_step c) (c_dx c) = Ok (traj (S j)).

(** down-sampling works on the fields of [pl] and is [ds] there *)
Definition downsampled (ds : V -> V) (pl : plasma V T) : Prop :=
  down c (p_density pl) = Ok (ds (p_density pl)) /\
  down c (p_omega pl) = Ok (ds (p_omega pl)) /\
  down c (p_phi pl) = Ok (ds (p_phi pl)).

(** an iteration is recorded when its time has come and it is a snapshot *)
Definition recorded (time : nat -> T) (j : nat) : bool :=
  nleb (c_rec c) (time j) && (Z.of_nat j mod c_snaps c =? 0)%Z.
Definition frames (time : nat -> T) (n : nat) : list nat := filter (recorded time) (seq 1 n).

(** the rows of one recorded state *)
Definition frame_row (ds : V -> V) (time : T) (pl : plasma V T) (k : string) : row V T :=
  if String.eqb k "density" then RFrame (s_f32V s (ds (p_density pl)))
  else if String.eqb k "omega" then RFrame (s_f32V s (ds (p_omega pl)))
  else if String.eqb k "phi" then RFrame (s_f32V s (ds (p_phi pl)))
  else RNum (s_f32T s time).
Definition state_of (pl : plasma V T) (k : string) : V :=
  if String.eqb k "state_density" then p_density pl
  else if String.eqb k "state_omega" then p_omega pl
  else p_phi pl.

Definition field_keys : list string := ["density"; "omega"; "phi"; "time"]%string.
Definition state_keys : list string := ["state_density"; "state_omega"; "state_phi"]%string.

(** the loop stops after [n] of at most [k] steps: it ran through, or the
    density became NaN *)
Definition stops (traj : nat -> plasma V T) (k n : nat) : Prop :=
  n <= k /\ (forall j, 1 <= j < n -> s_nan s (p_density (traj j)) = false) /\
  (n = k \/ (1 <= n /\ s_nan s (p_density (traj n)) = true)).

(** times of run.py (line 261) and of run2.py (lines 363-367) *)
Definition time1 (j : nat) : T := nmul (nofZ (Z.of_nat j)) (c_step c).
Definition time2 (t0 : T) (j : nat) : T :=
  match j with
  | 0 => t0
  | _ => if c_adaptive c then nadd t0 (t_sum (repeat (c_step c) j)) else nadd t0 (time1 j)
  end.
(** run2: it goes on while the rounded time is before the end; NaN is only
    looked for at recorded iterations *)
Definition stops2 (t0 : T) (traj : nat -> plasma V T) (n : nat) : Prop :=
  (forall j, j < n -> nltb (t_round4 (time2 t0 j)) (c_end c) = true) /\
  (forall j, 1 <= j < n -> recorded (time2 t0) j = true -> s_nan s (p_density (traj j)) = false) /\
  (nltb (t_round4 (time2 t0 n)) (c_end c) = false \/
   (1 <= n /\ recorded (time2 t0) n = true /\ s_nan s (p_density (traj n)) = true)).
End SpecRun.

Section SpecLog.
Context {V T : Type} {TN : TimeNum T}.
Variable s : sim V T.
Variable c : cfg V T.

(** what a run records, in order: the time and the state *)
Definition log := list (T * plasma V T).

(** the datasets of [g] hold [old] followed by the rows of the recorded states *)
Definition records (ds : V -> V) (old : string -> list (row V T)) (g : h5 V T) (l : log) : Prop :=
  forall k, In k field_keys ->
    dget (dsets g) k = Some (Rows (old k ++ map (fun tp => frame_row s ds (fst tp) (snd tp) k) l)).
(** the state datasets hold the state of the m-th recorded entry (counted from
    1), or for m = 0 what was there before *)
Definition holds_state (before : string -> option (dataset V T)) (g : h5 V T) (l : log) (m : nat) : Prop :=
  forall k, In k state_keys ->
    dget (dsets g) k = match m with
                       | 0 => before k
                       | S m' => match nth_error l m' with
                                 | Some tp => Some (Whole (state_of (snd tp) k))
                                 | None => None
                                 end
                       end.
(** in the middle of writing the entries a..b-1 *)
Definition torn_records (ds : V -> V) (old : string -> list (row V T)) (g : h5 V T) (l : log) (a b : nat) : Prop :=
  forall k, In k field_keys ->
    let rows m := map (fun tp => frame_row s ds (fst tp) (snd tp) k) (firstn m l) in
    dget (dsets g) k = Some (Rows (old k ++ rows a))
    \/ dget (dsets g) k = Some (Rows (old k ++ rows a ++ repeat (zero_like s k) (b - a)))
    \/ dget (dsets g) k = Some (Rows (old k ++ rows b)).

(** the entries of a fresh run and of a continued one (run.py) *)
Definition loop_log (time : nat -> T) (traj : nat -> plasma V T) (n : nat) : log :=
  map (fun j => (time j, traj j)) (frames c time n).
Definition fresh_log (pl0 : plasma V T) (time : nat -> T) (traj : nat -> plasma V T) (n : nat) : log :=
  ((if truthy (c_rec c) then [] else [(nofZ 0, pl0)]) ++ loop_log time traj n)%list.
End SpecLog.
Arguments log V T : clear implicits.

(** ** The way a run goes *)
(** run2.py: the dataset of a property at full resolution *)
Definition fr (p : string) : string := String.append "fullres_" p.

Section SpecGoes.
Context {V T : Type} {TN : TimeNum T}.
Variable s : sim V T.
Variable c : cfg V T.

(** run.py: [phi] is the potential of the start, [steps] the number of steps
    asked for, [traj 0 .. traj n] the states, n the number of steps made *)
Definition goes (phys : physics) (t0 : T) (pl : plasma V T) (phi : V) (traj : nat -> plasma V T) (steps : Z) (n : nat) (ds : V -> V) : Prop :=
  (let* dx := dlook phys "dx" in s_phi s phys (p_omega pl) dx) = Ok phi /\
  t_int (ndiv (nsub (c_end c) t0) (c_step c)) = Ok steps /\
  evolves s c phys (mkPlasma (p_density pl) (p_omega pl) phi (p_age pl)) traj n /\
  (forall j, 1 <= j <= n -> downsampled c ds (traj j)) /\
  stops s traj (Z.to_nat steps) n.

(** reading the file [f] gives the physics [phys] and the state [pl], which
    passes the check of run.py:199-208 *)
Definition continues (f : h5 V T) (phys : physics) (pl : plasma V T) : Prop :=
  exists ld, continue_h5_file (Some f) = Ok (ld, phys) /\
    pl = mkPlasma (l_density ld) (l_omega ld) (l_phi ld) (l_age ld) /\ check_loaded s pl = Ok tt.

(** ** Properties *)
Definition frame_keys : list string := ["density"; "phi"; "omega"]%string.
(** the frames among the rows satisfy [P] *)
Definition frames_P (P : row V T -> Prop) (rows : string -> list (row V T)) : Prop :=
  forall k, In k frame_keys -> Forall P (rows k).

(** the requested properties are distinct, are not the recorded fields, the
    attributes they need are there, and the table computes frame by frame *)
Definition props_fine (P : row V T -> Prop) (at_ : physics) (tbl : list (string * (row V T -> row V T -> row V T -> row V T))) : Prop :=
  NoDup (c_props c) /\ (forall k, In k (c_props c) -> ~ In k field_keys) /\
  (exists aa, pick at_ ["k0"; "x_save"; "c1"; "frame_dt"]%string = Ok aa) /\
  computes P (c_props c) (s_table s at_) tbl /\ NoDup (keys tbl).

(** no property is named like a state dataset *)
Definition apart1 : Prop := forall p, In p (c_props c) -> ~ In p state_keys.

(** ** run2 *)
(** the datasets run2 writes *)
Definition ks2 : list string := (field_keys ++ map fr (c_props c))%list.
(** the full-resolution properties of [pl] can be computed and are [pv pl] *)
Definition has_props (pv : plasma V T -> string -> T) (pl : plasma V T) : Prop :=
  forall p, In p (c_props c) -> s_prop s p (p_density pl) (p_phi pl) (p_omega pl) (c_dx c) (c_c1 c) = Ok (pv pl p).

(** the file holds the first [m] recorded entries *)
Definition records2 (ds : V -> V) (pv : plasma V T -> string -> T) (old : string -> list (row V T)) (g : h5 V T) (l : log V T) : Prop :=
  records s ds old g l /\
  forall p, In p (c_props c) -> dget (dsets g) (fr p) = Some (Rows (old (fr p) ++ map (fun tp => RNum (s_f32T s (pv (snd tp) p))) l)).

(** the loop of run2 from [pl] at time [t0] with physics [phys] *)
Definition goes2 (phys : physics) (t0 : T) (pl : plasma V T) (phi : V) (traj : nat -> plasma V T) (n : nat) (ds : V -> V)
    (pv : plasma V T -> string -> T) : Prop :=
  (let* dx := dlook phys "dx" in s_phi s phys (p_omega pl) dx) = Ok phi /\
  evolves s c phys (mkPlasma (p_density pl) (p_omega pl) phi (p_age pl)) traj n /\
  (forall j, 1 <= j <= n -> downsampled c ds (traj j) /\ has_props pv (traj j)) /\
  stops2 s c t0 traj n.

(** the properties asked for are not among the datasets of the run *)
Definition props_apart : Prop := forall p, In p (c_props c) -> ~ In p ks2 /\ ~ In p state_keys.

End SpecGoes.
