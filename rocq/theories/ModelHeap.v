(** The step functions with arrays in memory.
    Source: /repo/src/hw2d/model.py, /repo/src/hw2d/utils/namespaces.py,
            /repo/src/hw2d/gradients/numpy_gradients.py,
            /repo/src/hw2d/physical_properties/numpy_properties.py.

    ModelHW.v computes with array values.  Here a Namespace holds references to
    arrays in a heap: an operator allocates its result, [+=] and [-=] overwrite
    the array of the left operand, and copying a Namespace copies references.
    Python numbers are 0-d arrays in the heap as well.  Two references are
    either the same array or disjoint (slices are only read, and never kept).
    Arrays local to the Poisson solvers are not in the heap. *)
From Coq Require Import List Arith ZArith Bool String.
From Verif Require Import Num NdArray ModelGradients ModelArakawa ModelProperties ModelHW.
Import ListNotations.
Local Open Scope nd_scope.

Section Heap.
Context {A : Type} {Nm : Num A}.

(** ** Memory, the log of model.py:229-238, and exceptions *)
Definition heap := list (arr A).
Definition ref := nat.
Definition H (X : Type) : Type := heap -> list string * (heap * res X).
Definition hret {X} (x : X) : H X := fun h => ([], (h, Ok x)).
Definition hlift {X} (x : res X) : H X := fun h => ([], (h, x)).
(** model.py:229-238 [HW.log] *)
Definition hlog (name : string) : H unit := fun h => ([name], (h, Ok tt)).
Definition hbind {X Y} (m : H X) (f : X -> H Y) : H Y := fun h =>
  match m h with
  | (l, (h', Ok x)) => let '(l', r) := f x h' in ((l ++ l')%list, r)
  | (l, (h', Exn e)) => (l, (h', Exn e))
  end.
Notation "'dh*' x ':=' m 'in' k" := (hbind m (fun x => k))
  (at level 200, x name, m at level 100, k at level 200, right associativity).

(** the array behind a reference *)
Definition rd (r : ref) : H (arr A) := fun h =>
  ([], (h, match nth_error h r with Some a => Ok a | None => Exn Unmodelled end)).
(** the result of an operator is a new array *)
Definition new (x : nd A) : H ref := fun h =>
  match x with
  | Ok a => ([], ((h ++ [a])%list, Ok (List.length h)))
  | Exn e => ([], (h, Exn e))
  end.
Fixpoint upd (h : heap) (r : ref) (a : arr A) : heap :=
  match h, r with
  | [], _ => []
  | _ :: h', O => a :: h'
  | b :: h', S r' => b :: upd h' r' a
  end.
Definition op1 (f : nd A -> nd A) (r : ref) : H ref := dh* a := rd r in new (f (Ok a)).
Definition op2 (f : nd A -> nd A -> nd A) (r s : ref) : H ref :=
  dh* a := rd r in dh* b := rd s in new (f (Ok a) (Ok b)).
(** r += s, r -= s: the array of r is overwritten; r stays bound to it *)
Definition inplace (f : nd A -> nd A -> nd A) (r s : ref) : H ref :=
  dh* a := rd r in dh* b := rd s in
  fun h => match f (Ok a) (Ok b) with
           | Ok c => ([], (upd h r c, Ok r))
           | Exn e => ([], (h, Exn e))
           end.

(** ** Namespaces of references *)
Definition rns := list (string * ref).
(** self[k]; the properties omega, phi, density, dE, dU and age,
    namespaces.py:42-64 *)
Fixpoint rget (d : rns) (k : string) : res ref :=
  match d with
  | [] => Exn KeyError
  | (k', v) :: d' => if String.eqb k k' then Ok v else rget d' k
  end.
Definition rhas (d : rns) (k : string) : bool := match rget d k with Ok _ => true | Exn _ => false end.
(** d[k] = v *)
Fixpoint rset (d : rns) (k : string) (v : ref) : rns :=
  match d with
  | [] => [(k, v)]
  | (k', v') :: d' => if String.eqb k k' then (k, v) :: d' else (k', v') :: rset d' k v
  end.
(** namespaces.py:70-71 [copy]: {key: val for key, val in self.items()} *)
Definition rcopy (d : rns) : rns := map (fun kv => (fst kv, snd kv)) d.
(** {k: v for k, v in d.items() if k != key} (model.py:252, 267) *)
Definition rwithout (key : string) (d : rns) : rns := filter (fun kv => negb (String.eqb (fst kv) key)) d.
(** {key: f key val for key, val in self.items()} *)
Fixpoint rmap (f : string -> ref -> H ref) (d : rns) : H rns :=
  match d with
  | [] => hret []
  | (k, v) :: d' => dh* w := f k v in dh* d2 := rmap f d' in hret ((k, w) :: d2)
  end.
(** namespaces.py:28-34; there is no __iadd__, so [y += d] of model.py:257 is y = y + d *)
Definition radd (self other : rns) : H rns :=
  rmap (fun k v => dh* o := hlift (rget other k) in op2 (fun x y => x + y) o v) self.
(** namespaces.py:2-8 with a number *)
Definition rscale (c : A) (self : rns) : H rns := rmap (fun _ v => op1 (fun x => sc c * x) v) self.

(** ** The numerical schemes of model.py:200-203, on references *)
Record hbackend := {
  h_poisson : ref -> A -> H ref;
  h_diffuse : ref -> A -> Z -> H ref;
  h_bracket : ref -> ref -> A -> H ref;
  h_gradient : ref -> A -> Z -> H (option ref) }.

Variable (hb : hbackend).

(** model.py:305-311 [get_phi] *)
Definition get_phiH (omega : ref) (dx : A) : H ref :=
  dh* o_mean := op1 mean_all omega in
  dh* centered_omega := op2 (fun x y => x - y) omega o_mean in
  dh* phi := h_poisson hb centered_omega dx in
  dh* _ := hlog "get_phi" in
  hret phi.
(** model.py:313-317 [diffuse] *)
Definition diffuseH (a : ref) (dx : A) (N : Z) : H ref :=
  dh* r := h_diffuse hb a dx N in
  dh* _ := hlog "diffuse" in
  hret r.
(** model.py:355-359 [get_gammas] *)
Definition get_gammasH (h : hw A) (n p : ref) : H (ref * ref) :=
  dh* gamma_n := op2 (fun n p => get_gamma_n n p (hdx h) None) n p in
  dh* gamma_c := op2 (fun n p => get_gamma_c n p (hc1 h) (hdx h)) n p in
  hret (gamma_n, gamma_c).

(** model.py:63-168 [hw2d_gradient], as in ModelHW.v *)
Definition hw2d_gradientH (h : hw A) (density omega : ref) (dt dx : A)
    (phi : option ref) (zonal : bool) (age : option ref) : H rns :=
  let pb := hpb h in let nu := hnu h in let c1 := hc1 h in
  dh* phi := match phi with Some p => hret p | None => get_phiH omega dx end in
  dh* dy_p := h_gradient hb phi dx 0 in
  dh* _ := hlog "gradient_2d" in
  dh* diff := (if zonal then dh* zonal_phi := op1 zonal_transform phi in
                             dh* zonal_density := op1 zonal_transform density in
                             op2 (fun x y => x - y) zonal_phi zonal_density
               else op2 (fun x y => x - y) phi density) in
  (* 107-117 *)
  dh* o := op1 (fun x => sc c1 * x) diff in
  dh* o := (if truthy pb then
              dh* br := h_bracket hb phi omega dx in
              dh* arak_comp_o := op1 (fun x => sc (nopp pb) * x) br in
              dh* _ := hlog "poisson_bracket" in
              inplace iadd o arak_comp_o
            else hret o) in
  dh* o := (if truthy nu then
              dh* d := diffuseH omega dx (hN h) in
              dh* Do := op1 (fun x => sc nu * x) d in
              inplace iadd o Do
            else hret o) in
  (* 120-133 *)
  dh* n := op1 (fun x => sc c1 * x) diff in
  dh* n := (if truthy pb then
              dh* br := h_bracket hb phi density dx in
              dh* arak_comp_n := op1 (fun x => sc (nopp pb) * x) br in
              dh* _ := hlog "poisson_bracket" in
              inplace iadd n arak_comp_n
            else hret n) in
  dh* n := (if truthy (hkappa h) then
              dh* kap := match dy_p with
                         | Some r => op1 (fun x => sc (nopp (hkappa h)) * x) r
                         | None => hlift (Exn TypeError)
                         end in
              inplace iadd n kap
            else hret n) in
  dh* nD := (if truthy nu then
              dh* d := diffuseH density dx (hN h) in
              dh* Dn := op1 (fun x => sc nu * x) d in
              dh* n := inplace iadd n Dn in
              hret (n, Dn)
            else dh* z := new (Ok (scal (nofZ 0))) in hret (n, z)) in
  let n := fst nD in let Dn := snd nD in
  (* 149-155 *)
  dh* return_dict := match age with
    | Some a => dh* a' := op1 (fun x => x + sc dt) a in
                hret [("density", n); ("omega", o); ("age", a')]%string
    | None => hret [("density", n); ("omega", o)]%string
    end in
  (* 158-166 *)
  if htest h then
    dh* gammas := get_gammasH h density phi in
    dh* d := diffuseH phi dx (hN h) in
    dh* Dp := op1 (fun x => sc nu * x) d in
    dh* DE := (dh* dn := rd Dn in dh* dp := rd Dp in op2 (fun n p => get_DE n p (Ok dn) (Ok dp)) density phi) in
    dh* DU := (dh* dn := rd Dn in dh* dp := rd Dp in op2 (fun n o => get_DU n o (Ok dn) (Ok dp)) density omega) in
    dh* dE_dt := (dh* gc := rd (snd gammas) in op2 (fun gn de => get_dE_dt gn (Ok gc) de) (fst gammas) DE) in
    dh* dU_dt := op2 get_dU_dt (fst gammas) DU in
    hret (rset (rset return_dict "dE" dE_dt) "dU" dU_dt)
  else hret return_dict.

(** model.py:319-352 [gradient_2d] and its argument binding, as in ModelHW.v *)
Definition gradient_2dH (h : hw A) (y : rns) (phi : option ref) (dt dx : A) : H rns :=
  if existsb (fun k => rhas y k) reserved then hlift (Exn TypeError)
  else if rhas y "debug" then hlift (Exn Unmodelled)
  else match rget y "density", rget y "omega" with
  | Ok n, Ok o =>
      hw2d_gradientH h n o dt dx phi (hzonal h)
        (match rget y "age" with Ok a => Some a | Exn _ => None end)
  | _, _ => hlift (Exn TypeError)
  end.

(** model.py:248-262 [euler_step] *)
Definition euler_stepH (h : hw A) (plasma : rns) (dt dx : A) : H rns :=
  let y := rwithout "phi" plasma in
  dh* g := gradient_2dH h y (match rget plasma "phi" with Ok p => Some p | Exn _ => None end) (nofZ 0) dx in
  dh* d := rscale dt g in
  dh* y := radd y d in
  dh* om := hlift (rget y "omega") in
  dh* phi := get_phiH om dx in
  let y := rset y "phi" phi in
  dh* age := hlift (rget plasma "age") in
  dh* age' := op1 (fun x => x + sc dt) age in
  let y := rset y "age" age' in
  dh* _ := hlog "full_step" in
  hret y.

(** one stage of model.py:270-279 *)
Definition stageH (h : hw A) (y : rns) (p : ref) (dtk dt dx : A) : H rns :=
  dh* g := gradient_2dH h y (Some p) dtk dx in
  rscale dt g.

(** model.py:264-303 [rk4_step] (debug printing left out) *)
Definition rk4_stepH (h : hw A) (plasma : rns) (dt dx : A) : H rns :=
  let yn := rwithout "phi" plasma in
  dh* pn := hlift (rget plasma "phi") in
  dh* k1 := stageH h yn pn (nofZ 0) dt dx in
  dh* t1 := rscale half k1 in
  dh* y1 := radd yn t1 in
  dh* o1 := hlift (rget y1 "omega") in
  dh* p1 := get_phiH o1 dx in
  dh* k2 := stageH h y1 p1 (ndiv dt (nofZ 2)) dt dx in
  dh* t2 := rscale half k2 in
  dh* y2 := radd yn t2 in
  dh* o2 := hlift (rget y2 "omega") in
  dh* p2 := get_phiH o2 dx in
  dh* k3 := stageH h y2 p2 (ndiv dt (nofZ 2)) dt dx in
  dh* y3 := radd yn k3 in
  dh* o3 := hlift (rget y3 "omega") in
  dh* p3 := get_phiH o3 dx in
  dh* k4 := stageH h y3 p3 dt dt dx in
  dh* k2' := rscale (nofZ 2) k2 in
  dh* s := radd k1 k2' in
  dh* k3' := rscale (nofZ 2) k3 in
  dh* s := radd s k3' in
  dh* s := radd s k4 in
  dh* s := rscale (ndiv (nofZ 1) (nofZ 6)) s in
  dh* yk1 := radd yn s in
  dh* ok1 := hlift (rget yk1 "omega") in
  dh* phi := get_phiH ok1 dx in
  let yk1 := rset yk1 "phi" phi in
  dh* age := hlift (rget plasma "age") in
  dh* age' := op1 (fun x => x + sc dt) age in
  let yk1 := rset yk1 "age" age' in
  dh* _ := hlog "full_step" in
  hret yk1.

(** the loop of run.py:258-260, all states kept: the last one first *)
Fixpoint runH (step : rns -> H rns) (k : nat) (plasma : rns) : H (list rns) :=
  match k with
  | O => hret [plasma]
  | S k' => dh* l := runH step k' plasma in
            dh* p := step (hd [] l) in
            hret (p :: l)
  end.
(** run2.py:352-360: a step that raises is tried again from the same plasma;
    [k] attempts *)
Fixpoint retryH (step : rns -> H rns) (k : nat) (plasma : rns) : H rns :=
  match k with
  | O => hlift (Exn OutOfFuel)
  | S k' => fun h => match step plasma h with
                     | (l, (h', Ok p)) => (l, (h', Ok p))
                     | (l, (h', Exn _)) => let '(l', r) := retryH step k' plasma h' in ((l ++ l')%list, r)
                     end
  end.
End Heap.
Arguments heap A : clear implicits.
Arguments hbackend A : clear implicits.
Arguments H A X : clear implicits.

(** ** The schemes of model.py:34-50 on references *)
Section Schemes.
Context {A : Type} {Nm : Num A}.
(** numpy_gradients.py:61-75 [periodic_laplace_N]: for N <= 0 the argument
    itself is returned *)
Fixpoint loopH (k : nat) (f : ref -> H A ref) (r : ref) : H A ref :=
  match k with O => hret r | S k' => hbind (f r) (loopH k' f) end.
Definition np_periodic_laplace_NH (r : ref) (dx : A) (N : Z) : H A ref :=
  loopH (Z.to_nat N) (op1 (fun a => np_periodic_laplace a dx)) r.
(** numba_gradients.py:58-70 [periodic_laplace_N]: np.pad copies *)
Definition nb_periodic_laplace_NH (r : ref) (dx : A) (N : Z) : H A ref :=
  hbind (if (N <? 0)%Z then hlift (Exn ValueError) else op1 (pad_all (Z.to_nat N)) r)
    (loopH (Z.to_nat N) (op1 (fun a => nb_laplace a dx))).
(** gradient functions: np.pad copies; None for an unknown axis *)
Definition gradH (g : nd A -> A -> Z -> res (option (arr A))) (r : ref) (dx : A) (axis : Z) : H A (option ref) :=
  hbind (rd r) (fun a => match g (Ok a) dx axis with
    | Ok (Some b) => hbind (new (Ok b)) (fun s => hret (Some s))
    | Ok None => hret None
    | Exn e => hlift (Exn e)
    end).
(** model.py:34-41 *)
Definition np_heap (solver : nd A -> A -> nd A) : hbackend A := {|
  h_poisson := fun r dx => op1 (fun t => solver t dx) r;
  h_diffuse := np_periodic_laplace_NH;
  h_bracket := fun r s dx => op2 (fun z p => np_periodic_arakawa_vec z p dx) r s;
  h_gradient := gradH np_periodic_gradient |}.
(** model.py:43-50 *)
Definition nb_heap (solver : nd A -> A -> nd A) : hbackend A := {|
  h_poisson := fun r dx => op1 (fun t => solver t dx) r;
  h_diffuse := nb_periodic_laplace_NH;
  h_bracket := fun r s dx => op2 (fun z p => nb_periodic_arakawa_stencil z p dx) r s;
  h_gradient := gradH nb_periodic_gradient |}.

(** numpy_properties.py:137-147 [get_enstrophy_phi]: [omega -= ...] overwrites
    what periodic_laplace_N returned; the code has N = 1 *)
Definition enstrophy_phi_at (N : Z) (n phi : ref) (dx : A) : H A ref :=
  hbind (np_periodic_laplace_NH phi dx N) (fun omega =>
  hbind (op1 mean_last2_keep omega) (fun m =>
  hbind (inplace isub omega m) (fun omega =>
  op2 (fun n omega => (mean_last2 (powk (n - omega) 2) / sc (nofZ 2))%nd) n omega))).
Definition get_enstrophy_phiH : ref -> ref -> A -> H A ref := enstrophy_phi_at 1.
End Schemes.
