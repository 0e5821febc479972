(** The two simulation drivers.
    Source: /repo/src/hw2d/run.py (lines 27-329) and /repo/src/hw2d/run2.py
    (lines 60-481).

    Modelled: file handling, the time loop, what is recorded when, the final
    flush and the computation of properties.  The physics of one step, the
    potential solver, down-sampling, the property functions and the NaN test
    are parameters (record [sim]; ModelRunHW.v plugs in the HW model).
    Not modelled: random initial fields (the three initial frames are inputs),
    movie and plots (run with movie=False, plot_properties=[]), printing,
    the progress bar (except [progress_value]) and wall-clock time. *)
From Coq Require Import List Arith ZArith Bool String QArith Qround Floats.SpecFloat.
From Verif Require Import Num NdArray ModelIO ModelHW.
Import ListNotations.
Local Open Scope string_scope.

(** numbers used as times: arithmetic plus [int(x)] (truncation), Python's
    [round(x, 4)] on np.float64 and np.sum of a list *)
Class TimeNum (T : Type) := {
  t_num : Num T;
  t_int : T -> res Z;
  t_round4 : T -> T;
  t_sum : list T -> T }.
#[export] Existing Instance t_num.

(** exact rationals; truncation towards zero; round half to even *)
Definition q_round_even (q : Q) : Z :=
  let f := Qfloor q in
  match Qcompare (q - inject_Z f) (1 # 2) with
  | Lt => f
  | Gt => f + 1
  | Eq => if Z.even f then f else f + 1
  end%Z.
Definition TimeQ : TimeNum Q := {|
  t_num := NumQ;
  t_int := fun q => Ok (Z.quot (Qnum q) (Zpos (Qden q)));
  t_round4 := fun q => Qred (inject_Z (q_round_even (q * 10000)) / 10000);
  t_sum := fun l => fold_left (fun a b => Qred (a + b)) l 0%Q |}.

(** binary64: int() of a finite float is exact truncation; infinities and NaN
    raise; rint(x * 1e4) / 1e4 as numpy does; np.sum for fewer than eight
    summands is left to right (longer lists: numpy sums pairwise, not modelled) *)
Definition f64_trunc (x : f64) : res Z :=
  match x with
  | S754_zero _ => Ok 0%Z
  | S754_finite s m e =>
      let a := (if (0 <=? e)%Z then Z.pos m * 2 ^ e else Z.pos m / 2 ^ (- e))%Z in
      Ok (if s then - a else a)%Z
  | S754_infinity _ => Exn OverflowError
  | S754_nan => Exn ValueError
  end.
Definition f64_rint (x : f64) : f64 :=
  match x with
  | S754_finite s m e =>
      if (0 <=? e)%Z then x
      else let d := (2 ^ (- e))%Z in
           let f := (Z.pos m / d)%Z in let r := (2 * (Z.pos m mod d))%Z in
           let a := match Z.compare r d with Lt => f | Gt => f + 1 | Eq => if Z.even f then f else f + 1 end%Z in
           match a with 0%Z => S754_zero s | _ => f64_ofZ (if s then - a else a)%Z end
  | _ => x
  end.
Definition TimeF64 : TimeNum f64 := {|
  t_num := NumF64;
  t_int := f64_trunc;
  t_round4 := fun x => SFdiv 53 1024 (f64_rint (SFmul 53 1024 x (f64_ofZ 10000))) (f64_ofZ 10000);
  t_sum := fun l => fold_left (SFadd 53 1024) l (f64_ofZ 0) |}.

Local Close Scope Q_scope.
Local Open Scope nat_scope.
Local Open Scope string_scope.

Section Run.
Context {V T : Type} {TN : TimeNum T}.

(** the Namespace carried through the loop *)
Record plasma := mkPlasma { p_density : V; p_omega : V; p_phi : V; p_age : T }.

Definition physics := list (string * attr T).

(** what the drivers call *)
Record sim := mkSim {
  s_step : physics -> plasma -> T -> T -> res plasma;   (* HW( **physics ).rk4_step(plasma, dt, dx) *)
  s_phi : physics -> V -> attr T -> res V;              (* HW( **physics ).get_phi(omega, dx) *)
  s_nan : V -> bool;                                    (* np.isnan(np.sum(v)) *)
  s_nanT : T -> bool;
  s_zero : V -> bool;                                   (* np.all(v == 0) *)
  s_prop : string -> V -> V -> V -> T -> T -> res T;    (* property_fncs[name](n, p, o, dx, c1) *)
  s_table : physics -> prop_table V T;                  (* table of calculate_properties *)
  s_zeroV : V;                                          (* zeros of the size of the simulation: a fresh state_* dataset *)
  s_zeroF : V;                                          (* zeros of the size of a saved frame *)
  s_f32V : V -> V;
  s_f32T : T -> T }.

(** the arguments that matter here *)
Record cfg := mkCfg {
  c_step : T;                (* step_size *)
  c_end : T;                 (* end_time *)
  c_phys : physics;          (* run.py:147-155 / run2.py:193-202 *)
  c_dx : T;                  (* the local dx = L / x *)
  c_c1 : T;
  c_x : Z; c_y : Z; c_xs : Z; c_ys : Z;
  c_output : bool;           (* output_path is not empty *)
  c_rec : T;                 (* recording_start_time *)
  c_continue : bool;
  c_blen : nat;              (* buffer_length *)
  c_snaps : Z;
  c_down : option (V -> res V);  (* downsample_fnc(v, factor) when factor <> 1 *)
  c_last : bool;             (* add_last_state *)
  c_force : bool;            (* force_recompute *)
  c_adaptive : bool;         (* run2 only *)
  c_props : list string }.   (* properties *)

Variable s : sim.
Variable c : cfg.

Definition zero_like (name : string) : row V T :=
  if existsb (String.eqb name) ["density"; "omega"; "phi"] then RFrame (s_zeroF s) else RNum nzero.

(** run.py:127-128 *)
Definition add_last : bool := match c_down c with Some _ => true | None => c_last c end.

Definition down (v : V) : res V := match c_down c with Some d => d v | None => Ok v end.

(** run.py:228-238 and 265-276 *)
Definition new_val_of (pl : plasma) (time : T) : res (list (string * row V T)) :=
  let* n := down (p_density pl) in
  let* o := down (p_omega pl) in
  let* p := down (p_phi pl) in
  Ok [("density", RFrame n); ("omega", RFrame o); ("phi", RFrame p); ("time", RNum time)].
Definition last_state_of (pl : plasma) : list (string * V) :=
  if add_last then [("state_density", p_density pl); ("state_omega", p_omega pl); ("state_phi", p_phi pl)] else [].

Definition save_frame (new_val : res (list (string * row V T))) (pl : plasma) (bi : buffer V T * nat) : IO V T (buffer V T * nat) :=
  ibind (ilift new_val) (fun nv =>
  save_to_buffered_h5 zero_like (s_f32V s) (s_f32T s) (fst bi) (c_blen c) (snd bi) nv (last_state_of pl)).

(** run.py:173-179 *)
Definition buffer0 : buffer V T :=
  map (fun n => (n, repeat (zero_like n) (c_blen c))) ["density"; "omega"; "phi"; "time"].

(** run.py:199-208: consistency check of loaded data *)
Definition check_loaded (pl : plasma) : res unit :=
  let chk (v : V) (z : bool) : res unit :=
    if s_nan s v then Exn BaseException else if z && s_zero s v then Exn BaseException else Ok tt in
  let* _ := chk (p_density pl) true in
  let* _ := chk (p_omega pl) true in
  let* _ := chk (p_phi pl) false in
  if s_nanT s (p_age pl) then Exn BaseException else Ok tt.

Definition save_params_of (phys : physics) (adaptive : bool) : physics :=
  get_save_params phys (c_step c) (nmul (c_step c) (nofZ (c_snaps c))) (c_x c) (c_y c) (c_xs c) (c_ys c) (c_rec c) adaptive.

(** outcome of the file handling: the run is over ("File already exists"), or
    it continues with a plasma, physics, start time, buffer and index *)
Record start := mkStart { st_plasma : plasma; st_phys : physics; st_time : T; st_buf : buffer V T; st_idx : nat }.

(** run.py:213-244 *)
Definition run_create (pl0 : plasma) : IO V T start :=
  ibind (create_appendable_h5 zero_like (s_zeroV s) (save_params_of (c_phys c) false) ["time"] add_last) (fun _ =>
  let st0 := nofZ 0 in
  if truthy (c_rec c) then iret (mkStart pl0 (c_phys c) st0 buffer0 0)
  else ibind (save_frame (new_val_of pl0 st0) pl0 (buffer0, 0)) (fun bi =>
       iret (mkStart pl0 (c_phys c) st0 (fst bi) (snd bi)))).
(** run.py:188-212: an existing file is continued or left alone *)
Definition run_continue (buf : buffer V T) : IO V T (option start) :=
  if c_continue c then
    ibind iget (fun fs =>
    ibind (ilift (continue_h5_file fs)) (fun ld =>
    let '(l, phys) := ld in
    let pl := mkPlasma (l_density l) (l_omega l) (l_phi l) (l_age l) in
    ibind (ilift (check_loaded pl)) (fun _ =>
    iret (Some (mkStart pl phys (p_age pl) buf 0)))))
  else iret None.
(** run.py:165-244 *)
Definition run_files (pl0 : plasma) : IO V T (option start) :=
  ibind iget (fun fs =>
  match fs, c_force c with
  | Some _, false => run_continue buffer0
  | _, _ => ibind (run_create pl0) (fun st => iret (Some st))
  end).

(** run.py:258-287; [it] is iteration_count of the coming step *)
Fixpoint run_loop (phys : physics) (k : nat) (it : Z) (pl : plasma) (bi : buffer V T * nat) : IO V T (buffer V T * nat) :=
  match k with
  | O => iret bi
  | S k' =>
      ibind (ilift (s_step s phys pl (c_step c) (c_dx c))) (fun pl =>
      let current_time := nmul (nofZ it) (c_step c) in
      ibind (if c_output c && nleb (c_rec c) current_time && (it mod c_snaps c =? 0)%Z
             then save_frame (new_val_of pl current_time) pl bi else iret bi) (fun bi =>
      if s_nan s (p_density pl) then iret bi else run_loop phys k' (it + 1) pl bi))
  end.

(** run.py:249-291: everything after the file handling *)
Definition run_simulate (st : start) : IO V T unit :=
  let phys := st_phys st in
  ibind (ilift (let* dx := dlook phys "dx" in s_phi s phys (p_omega (st_plasma st)) dx)) (fun phi =>
  let pl := mkPlasma (p_density (st_plasma st)) (p_omega (st_plasma st)) phi (p_age (st_plasma st)) in
  ibind (ilift (t_int (ndiv (nsub (c_end c) (st_time st)) (c_step c)))) (fun steps =>
  if (c_snaps c =? 0)%Z then ifail ZeroDivisionError
  else
  ibind (run_loop phys (Z.to_nat steps) 1 pl (st_buf st, st_idx st)) (fun bi =>
  if (0 <? snd bi)%nat then append_h5 zero_like (fst bi) (snd bi) else iret tt))).

(** run.py:310-318 *)
Definition run_properties_ : IO V T unit :=
  match c_props c with
  | [] => iret tt
  | _ => calculate_properties zero_like (s_f32V s) (s_f32T s) (s_table s) (c_blen c) (c_props c) true
  end.

(** run.py:27-329 [run].  With an empty output_path, [save_params] (247) is
    unbound. *)
Definition run (pl0 : plasma) : IO V T unit :=
  if negb (c_output c) then ifail UnboundLocalError
  else
  ibind (run_files pl0) (fun st =>
  match st with
  | None => iret tt
  | Some st => ibind (run_simulate st) (fun _ => run_properties_)
  end).

(** ** run2.py *)

(** run2.py:220-229; the buffer is a dict *)
Definition buffer0_2 : buffer V T :=
  fold_left (fun b n => dset_ b ("fullres_" ++ n) (repeat (zero_like ("fullres_" ++ n)) (c_blen c))) (c_props c) buffer0.

(** run2.py:308-315, 384-391 *)
Fixpoint fullres (props : list string) (pl : plasma) : res (list (string * row V T)) :=
  match props with
  | [] => Ok []
  | n :: l => let* v := s_prop s n (p_density pl) (p_phi pl) (p_omega pl) (c_dx c) (c_c1 c) in
              let* r := fullres l pl in
              Ok (("fullres_" ++ n, RNum v) :: r)
  end.
Definition new_val_of_2 (pl : plasma) (time : T) : res (list (string * row V T)) :=
  let* a := new_val_of pl time in
  let* b := fullres (c_props c) pl in
  Ok (a ++ b)%list.

(** run2.py:270-322 *)
Definition run2_create (pl0 : plasma) : IO V T start :=
  ibind (create_appendable_h5 zero_like (s_zeroV s) (save_params_of (c_phys c) (c_adaptive c))
           ("time" :: map (fun n => "fullres_" ++ n) (c_props c)) add_last) (fun _ =>
  let st0 := nofZ 0 in
  if truthy (c_rec c) then iret (mkStart pl0 (c_phys c) st0 buffer0_2 0)
  else ibind (save_frame (new_val_of_2 pl0 st0) pl0 (buffer0_2, 0)) (fun bi =>
       iret (mkStart pl0 (c_phys c) st0 (fst bi) (snd bi)))).
(** run2.py:237-268 *)
Definition run2_files (pl0 : plasma) : IO V T (option start) :=
  ibind iget (fun fs =>
  match fs, c_force c with
  | Some _, false => run_continue buffer0_2
  | _, _ => ibind (run2_create pl0) (fun st => iret (Some st))
  end).

(** run2.py:352-359: retry until the step succeeds; [except Exception] does
    not catch BaseException.  At most [fuel] attempts. *)
Fixpoint attempt (fuel : nat) (step : res plasma) : res plasma :=
  match fuel with
  | O => Exn OutOfFuel
  | S f => match step with
           | Ok p => Ok p
           | Exn BaseException => Exn BaseException
           | Exn _ => attempt f step
           end
  end.

(** run2.py:349-429; [used] are the used_time_steps; the fuel bounds the
    number of loop iterations and of attempts per step *)
Fixpoint run2_loop (phys : physics) (fuel : nat) (initial : T) (it : Z) (used : list T) (cur : T) (pl : plasma)
    (bi : buffer V T * nat) : IO V T (T * (buffer V T * nat)) :=
  if nltb (t_round4 cur) (c_end c) then
    match fuel with
    | O => ifail OutOfFuel
    | S f =>
        ibind (ilift (attempt fuel (s_step s phys pl (c_step c) (c_dx c)))) (fun pl =>
        let it := (it + 1)%Z in
        let used := if c_adaptive c then (used ++ [c_step c])%list else used in
        let cur := if c_adaptive c then nadd initial (t_sum used) else nadd initial (nmul (nofZ it) (c_step c)) in
        if nleb (c_rec c) cur && (it mod c_snaps c =? 0)%Z then
          ibind (ilift (new_val_of_2 pl cur)) (fun nv =>
          ibind (if c_output c then save_frame (Ok nv) pl bi else iret bi) (fun bi =>
          if s_nan s (p_density pl) then iret (cur, bi)
          else run2_loop phys f initial it used cur pl bi))
        else run2_loop phys f initial it used cur pl bi)
    end
  else iret (cur, bi).

(** run2.py:329-444 *)
Definition run2_simulate (fuel : nat) (st : start) : IO V T unit :=
  let phys := st_phys st in
  ibind (ilift (let* dx := dlook phys "dx" in s_phi s phys (p_omega (st_plasma st)) dx)) (fun phi =>
  let pl := mkPlasma (p_density (st_plasma st)) (p_omega (st_plasma st)) phi (p_age (st_plasma st)) in
  ibind (run2_loop phys fuel (st_time st) 0 [] (st_time st) pl (st_buf st, st_idx st)) (fun r =>
  let '(cur, bi) := r in
  if nltb (c_rec c) cur && (0 <? snd bi)%nat then append_h5 zero_like (fst bi) (snd bi) else iret tt)).

(** run2.py:60-481 [run]; lines 164-165 come first *)
Definition run2 (fuel : nat) (pl0 : plasma) : IO V T unit :=
  ibind (ilift (t_int (ndiv (c_end c) (c_step c)))) (fun _ =>
  if (c_snaps c =? 0)%Z then ifail ZeroDivisionError
  else if negb (c_output c) then ifail UnboundLocalError
  else
  ibind (run2_files pl0) (fun st =>
  match st with
  | None => iret tt
  | Some st => ibind (run2_simulate fuel st) (fun _ => run_properties_)
  end)).

(** run2.py:172-173: [properties] after [if show_property not in properties] *)
Definition effective_props (properties : list string) (show : string) : list string :=
  if existsb (String.eqb show) properties then properties else (properties ++ [show])%list.

(** run2.py:428: the value shown in the progress bar, new_val.get(show, 0);
    [None]: a frame, which cannot be formatted *)
Definition progress_value (new_val : list (string * row V T)) (show : string) : option T :=
  match dget new_val show with
  | Some (RNum t) => Some t
  | Some (RFrame _) => None
  | None => Some (nofZ 0)
  end.
End Run.
Arguments plasma V T : clear implicits.
Arguments sim V T : clear implicits.
Arguments cfg V T : clear implicits.
Arguments start V T : clear implicits.
