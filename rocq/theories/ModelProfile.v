(** The profile of a simulation: the readings of the clock, the two tables
    HW.timings and HW.calls, and the table printed at the end of a run.
    Source: /repo/src/hw2d/model.py, /repo/src/hw2d/run.py:250-294.

    [clk i] is the result of the i-th call of time.time() of the process, in
    units of a fixed small amount of time; nothing is assumed about it in this
    file (time.time() is not a monotonic clock).  The sums and differences of
    times are exact here, in the program they are binary64.  Everything else of
    the step is the text of ModelHW.v. *)
From Coq Require Import List Arith ZArith QArith Bool String.
From Verif Require Import Num NdArray ModelGradients ModelArakawa ModelProperties ModelHW.
Import ListNotations.
Local Open Scope nd_scope.

(** the calls of self.log: (name, time), oldest first *)
Definition events : Type := list (string * Z).

(** a computation that reads the clock: from the number of readings made so
    far to the calls of self.log, the result or exception, and the new number
    of readings *)
Definition T (X : Type) : Type := nat -> (events * res X * nat)%type.
Definition tret {X} (x : X) : T X := fun i => ([], Ok x, i).
Definition tlift {X} (x : res X) : T X := fun i => ([], x, i).
(** model.py:229-238 [HW.log] *)
Definition tlog (name : string) (t : Z) : T unit := fun i => ([(name, t)], Ok tt, i).
Definition tbind {X Y} (m : T X) (f : X -> T Y) : T Y := fun i =>
  match m i with
  | (l, Ok x, j) => match f x j with (l', r, k) => ((l ++ l')%list, r, k) end
  | (l, Exn e, j) => (l, Exn e, j)
  end.
Notation "'tm*' x ':=' m 'in' k" := (tbind m (fun x => k))
  (at level 200, x name, m at level 100, k at level 200, right associativity).

Section Timed.
Context {A : Type} {Nm : Num A}.
Variable clk : nat -> Z.
(** time.time() *)
Definition tnow : T Z := fun i => ([], Ok (clk i), S i).

(** model.py:305-311 [get_phi] *)
Definition t_get_phi (h : hw A) (omega : nd A) (dx : A) : T (arr A) :=
  tm* t0 := tnow in
  let o_mean := mean_all omega in
  let centered_omega := omega - o_mean in
  tm* phi := tlift (poisson_solver (schemes h) centered_omega dx) in
  tm* t1 := tnow in
  tm* _ := tlog "get_phi" (t1 - t0)%Z in
  tret phi.

(** model.py:313-317 [diffuse] *)
Definition t_diffuse (h : hw A) (a : nd A) (dx : A) (N : Z) : T (arr A) :=
  tm* t0 := tnow in
  tm* r := tlift (diffuse_N (schemes h) a dx N) in
  tm* t1 := tnow in
  tm* _ := tlog "diffuse" (t1 - t0)%Z in
  tret r.

(** model.py:63-168 [hw2d_gradient] as called by [HW.gradient_2d]; the timed
    parts are 94-96, 109-113 and 122-126 *)
Definition t_hw2d_gradient (h : hw A) (density omega : arr A) (dt dx : A)
    (phi : option (arr A)) (zonal : bool) (age : option (arr A)) : T (ns A) :=
  let pb := hpb h in let nu := hnu h in let c1 := hc1 h in
  tm* phi := match phi with Some p => tret p | None => t_get_phi h (Ok omega) dx end in
  tm* t0 := tnow in
  tm* dy_p := tlift (gradient_func (schemes h) (Ok phi) dx 0) in
  tm* t1 := tnow in
  tm* _ := tlog "gradient_2d" (t1 - t0)%Z in
  tm* diff := tlift (if zonal then zonal_transform (Ok phi) - zonal_transform (Ok density)
                     else Ok phi - Ok density) in
  tm* o := tlift (sc c1 * Ok diff) in
  tm* o := (if truthy pb then
              tm* t0 := tnow in
              tm* arak_comp_o := tlift (sc (nopp pb) * poisson_bracket (schemes h) (Ok phi) (Ok omega) dx) in
              tm* t1 := tnow in
              tm* _ := tlog "poisson_bracket" (t1 - t0)%Z in
              tlift (iadd (Ok o) (Ok arak_comp_o))
            else tret o) in
  tm* o := (if truthy nu then
              tm* d := t_diffuse h (Ok omega) dx (hN h) in
              tm* Do := tlift (sc nu * Ok d) in
              tlift (iadd (Ok o) (Ok Do))
            else tret o) in
  tm* n := tlift (sc c1 * Ok diff) in
  tm* n := (if truthy pb then
              tm* t0 := tnow in
              tm* arak_comp_n := tlift (sc (nopp pb) * poisson_bracket (schemes h) (Ok phi) (Ok density) dx) in
              tm* t1 := tnow in
              tm* _ := tlog "poisson_bracket" (t1 - t0)%Z in
              tlift (iadd (Ok n) (Ok arak_comp_n))
            else tret n) in
  tm* n := (if truthy (hkappa h) then
              tm* kap := tlift (sc (nopp (hkappa h)) * force (Ok dy_p)) in
              tlift (iadd (Ok n) (Ok kap))
            else tret n) in
  tm* nD := (if truthy nu then
              tm* d := t_diffuse h (Ok density) dx (hN h) in
              tm* Dn := tlift (sc nu * Ok d) in
              tm* n := tlift (iadd (Ok n) (Ok Dn)) in
              tret (n, Dn)
            else tret (n, scal (nofZ 0))) in
  let n := fst nD in let Dn := snd nD in
  tm* return_dict := tlift (match age with
    | Some a => let* a' := Ok a + sc dt in
                Ok [("density", n); ("omega", o); ("age", a')]%string
    | None => Ok [("density", n); ("omega", o)]%string
    end) in
  if htest h then
    tm* gammas := tlift (hw_get_gammas h (Ok density) (Ok phi)) in
    tm* d := t_diffuse h (Ok phi) dx (hN h) in
    tm* Dp := tlift (sc nu * Ok d) in
    tm* DE := tlift (get_DE (Ok density) (Ok phi) (Ok Dn) (Ok Dp)) in
    tm* DU := tlift (get_DU (Ok density) (Ok omega) (Ok Dn) (Ok Dp)) in
    tm* dE_dt := tlift (get_dE_dt (Ok (fst gammas)) (Ok (snd gammas)) (Ok DE)) in
    tm* dU_dt := tlift (get_dU_dt (Ok (fst gammas)) (Ok DU)) in
    tret (ns_set (ns_set return_dict "dE" dE_dt) "dU" dU_dt)
  else tret return_dict.

(** model.py:319-352 [gradient_2d] *)
Definition t_gradient_2d (h : hw A) (y : ns A) (phi : option (arr A)) (dt dx : A) : T (ns A) :=
  if existsb (fun k => ns_has y k) reserved then tlift (Exn TypeError)
  else if ns_has y "debug" then tlift (Exn Unmodelled)
  else match ns_get y "density", ns_get y "omega" with
  | Ok n, Ok o =>
      t_hw2d_gradient h n o dt dx phi (hzonal h)
        (match ns_get y "age" with Ok a => Some a | Exn _ => None end)
  | _, _ => tlift (Exn TypeError)
  end.

Definition tget (y : ns A) (k : string) : T (arr A) := tlift (ns_get y k).
Definition tscale (c : A) (y : ns A) : T (ns A) := tlift (ns_scale y c).
Definition tadd (x y : ns A) : T (ns A) := tlift (ns_add x y).

(** model.py:247-262 [euler_step] *)
Definition t_euler_step (h : hw A) (plasma : ns A) (dt dx : A) : T (ns A) :=
  tm* t0 := tnow in
  let y := ns_without "phi" plasma in
  tm* g := t_gradient_2d h y (match ns_get plasma "phi" with Ok p => Some p | Exn _ => None end)
             (nofZ 0) dx in
  tm* d := tscale dt g in
  tm* y := tadd y d in
  tm* om := tget y "omega" in
  tm* phi := t_get_phi h (Ok om) dx in
  let y := ns_set y "phi" phi in
  tm* age := tget plasma "age" in
  tm* age' := tlift (Ok age + sc dt) in
  let y := ns_set y "age" age' in
  tm* t1 := tnow in
  tm* _ := tlog "full_step" (t1 - t0)%Z in
  tret y.

(** one stage of model.py:270-279 *)
Definition t_stage (h : hw A) (y : ns A) (p : arr A) (dtk dt dx : A) : T (ns A) :=
  tm* g := t_gradient_2d h y (Some p) dtk dx in
  tscale dt g.

(** model.py:264-303 [rk4_step] (debug = False) *)
Definition t_rk4_step (h : hw A) (plasma : ns A) (dt dx : A) : T (ns A) :=
  tm* t0 := tnow in
  let yn := ns_without "phi" plasma in
  tm* pn := tget plasma "phi" in
  tm* k1 := t_stage h yn pn (nofZ 0) dt dx in
  tm* t1 := tscale half k1 in
  tm* y1 := tadd yn t1 in
  tm* o1 := tget y1 "omega" in
  tm* p1 := t_get_phi h (Ok o1) dx in
  tm* k2 := t_stage h y1 p1 (ndiv dt (nofZ 2)) dt dx in
  tm* t2 := tscale half k2 in
  tm* y2 := tadd yn t2 in
  tm* o2 := tget y2 "omega" in
  tm* p2 := t_get_phi h (Ok o2) dx in
  tm* k3 := t_stage h y2 p2 (ndiv dt (nofZ 2)) dt dx in
  tm* y3 := tadd yn k3 in
  tm* o3 := tget y3 "omega" in
  tm* p3 := t_get_phi h (Ok o3) dx in
  tm* k4 := t_stage h y3 p3 dt dt dx in
  tm* k2' := tscale (nofZ 2) k2 in
  tm* s := tadd k1 k2' in
  tm* k3' := tscale (nofZ 2) k3 in
  tm* s := tadd s k3' in
  tm* s := tadd s k4 in
  tm* s := tscale (ndiv (nofZ 1) (nofZ 6)) s in
  tm* yk1 := tadd yn s in
  tm* ok1 := tget yk1 "omega" in
  tm* phi := t_get_phi h (Ok ok1) dx in
  let yk1 := ns_set yk1 "phi" phi in
  tm* age := tget plasma "age" in
  tm* age' := tlift (Ok age + sc dt) in
  let yk1 := ns_set yk1 "age" age' in
  tm* tn := tnow in
  tm* _ := tlog "full_step" (tn - t0)%Z in
  tret yk1.

(** the loop of run.py:258-260 without the output *)
Fixpoint t_steps (step : ns A -> T (ns A)) (k : nat) (plasma : ns A) : T (ns A) :=
  match k with
  | O => tret plasma
  | S k' => tm* p := step plasma in t_steps step k' p
  end.

(** run.py:250-260: the potential of the initial vorticity, then k steps *)
Definition t_run (h : hw A) (plasma : ns A) (dt dx : A) (k : nat) : T (ns A) :=
  tm* om := tget plasma "omega" in
  tm* phi := t_get_phi h (Ok om) dx in
  t_steps (fun p => t_rk4_step h p dt dx) k (ns_set plasma "phi" phi).
End Timed.

(** ** The two tables *)
(** model.py:219-225 [watch_fncs] *)
Definition watch_fncs : list string :=
  ["full_step"; "get_phi"; "diffuse"; "gradient_2d"; "poisson_bracket"]%string.
(** model.py:226-227: {k: (timings[k], calls[k])} *)
Definition prof : Type := list (string * (Z * Z)).
Definition prof0 : prof := map (fun k => (k, (0%Z, 0%Z))) watch_fncs.
(** model.py:237-238: self.timings[name] += time; self.calls[name] += 1 *)
Fixpoint plog (p : prof) (name : string) (t : Z) : res prof :=
  match p with
  | [] => Exn KeyError
  | (k, (a, c)) :: p' =>
      if String.eqb name k then Ok ((k, ((a + t)%Z, (c + 1)%Z)) :: p')
      else let* q := plog p' name t in Ok ((k, (a, c)) :: q)
  end.
Fixpoint plogs (p : prof) (l : events) : res prof :=
  match l with
  | [] => Ok p
  | (name, t) :: l' => let* q := plog p name t in plogs q l'
  end.

(** ** The printed table *)
(** a cell of a float column *)
Inductive cell := CQ (q : Q) | CNaN | CPInf | CNInf.
(** division of numpy floats *)
Definition cdiv (a b : Z) : cell :=
  if Z.eqb b 0 then (if Z.eqb a 0 then CNaN else if Z.ltb 0 a then CPInf else CNInf)
  else CQ (inject_Z a / inject_Z b).
(** x * 100 *)
Definition c100 (c : cell) : cell := match c with CQ q => CQ (q * 100) | c => c end.
Record row := { r_name : string; r_time : Z; r_calls : Z; r_tpc : cell; r_pct : cell }.
(** the order of DataFrame.sort_values: ascending, NaN last; five rows are
    sorted by insertion *)
Definition cell_leb (a b : cell) : bool :=
  match a, b with
  | _, CNaN => true
  | CNaN, _ => false
  | CNInf, _ => true
  | _, CPInf => true
  | CQ p, CQ q => Qle_bool p q
  | _, _ => false
  end.
Fixpoint row_insert (r : row) (l : list row) : list row :=
  match l with
  | [] => [r]
  | s :: l' => if cell_leb (r_tpc r) (r_tpc s) then r :: l else s :: row_insert r l'
  end.
Definition row_sort (l : list row) : list row := fold_right row_insert [] l.
Fixpoint prof_time (p : prof) (k : string) : res Z :=
  match p with
  | [] => Exn KeyError
  | (k', (a, _)) :: p' => if String.eqb k k' then Ok a else prof_time p' k
  end.
(** model.py:240-246 [print_log]: the rows in the printed order *)
Definition print_log (p : prof) : res (list row) :=
  let* full := prof_time p "full_step" in
  Ok (row_sort (map (fun e => match e with (k, (t, c)) =>
        {| r_name := k; r_time := t; r_calls := c; r_tpc := cdiv t c; r_pct := c100 (cdiv t full) |} end) p)).

(** run.py:250-294: the rows printed after the initial potential and k
    completed steps; an exception of a step leaves run without them *)
Definition run_profile {A} {Nm : Num A} (clk : nat -> Z) (h : hw A) (plasma : ns A) (dt dx : A) (k : nat) : res (list row) :=
  match t_run clk h plasma dt dx k O with
  | (l, Ok _, _) => let* p := plogs prof0 l in print_log p
  | (_, Exn e, _) => Exn e
  end.
