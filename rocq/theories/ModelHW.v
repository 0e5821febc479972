(** The simulation object HW and the Namespace container.
    Source: /repo/src/hw2d/model.py, /repo/src/hw2d/utils/namespaces.py.

    What is modelled of [HW]: the physical parameters, the numerical schemes
    (a [backend] record), and the call counters [self.calls] as the list of
    names passed to [self.log], oldest first.  [self.timings] (wall-clock
    times), [self.counter], [self.L], [self.k0] and printing are not. *)
From Coq Require Import List Arith ZArith Bool String.
From Verif Require Import Num NdArray ModelGradients ModelArakawa ModelProperties.
Import ListNotations.
Local Open Scope nd_scope.

(** ** Log + exceptions.  The log survives an exception. *)
Definition M (X : Type) : Type := (list string * res X)%type.
Definition mret {X} (x : X) : M X := ([], Ok x).
Definition mlift {X} (x : res X) : M X := ([], x).
(** model.py:229-238 [HW.log]: one more call of [name] *)
Definition mlog (name : string) : M unit := ([name], Ok tt).
Definition mbind {X Y} (m : M X) (f : X -> M Y) : M Y :=
  match m with
  | (l, Ok x) => let '(l', r) := f x in ((l ++ l')%list, r)
  | (l, Exn e) => (l, Exn e)
  end.
Notation "'do*' x ':=' m 'in' k" := (mbind m (fun x => k))
  (at level 200, x name, m at level 100, k at level 200, right associativity).
Definition calls {X} (m : M X) (name : string) : nat := count_occ string_dec (fst m) name.

Section HW.
Context {A : Type} {Nm : Num A}.

(** ** Namespaces: insertion-ordered dictionaries of arrays / numbers
    (numbers are 0-d arrays) *)
Definition ns := list (string * arr A).

(** dict lookup; KeyError when missing *)
Fixpoint ns_get (d : ns) (k : string) : res (arr A) :=
  match d with
  | [] => Exn KeyError
  | (k', v) :: d' => if String.eqb k k' then Ok v else ns_get d' k
  end.
Definition ns_has (d : ns) (k : string) : bool :=
  match ns_get d k with Ok _ => true | Exn _ => false end.
(** d[k] = v: overwrite in place or append *)
Fixpoint ns_set (d : ns) (k : string) (v : arr A) : ns :=
  match d with
  | [] => [(k, v)]
  | (k', v') :: d' => if String.eqb k k' then (k, v) :: d' else (k', v') :: ns_set d' k v
  end.
Definition ns_keys (d : ns) : list string := map fst d.
(** {k: v for k, v in d.items() if k != key} (model.py:252, 267) *)
Definition ns_without (key : string) (d : ns) : ns :=
  filter (fun kv => negb (String.eqb (fst kv) key)) d.

(** {key: f key val for key, val in self.items()} *)
Fixpoint ns_map (f : string -> arr A -> nd A) (d : ns) : res ns :=
  match d with
  | [] => Ok []
  | (k, v) :: d' => let* w := f k v in let* d2 := ns_map f d' in Ok ((k, w) :: d2)
  end.

(** namespaces.py:28-34 [__add__] / [__radd__] *)
Definition ns_add (self other : ns) : res ns :=
  ns_map (fun k v => let* o := ns_get other k in Ok o + Ok v) self.
Definition ns_add_num (self : ns) (other : A) : res ns := ns_map (fun _ v => sc other + Ok v) self.
(** namespaces.py:36-40 [__sub__] *)
Definition ns_sub (self other : ns) : res ns :=
  ns_map (fun k v => let* o := ns_get other k in Ok o - Ok v) self.
Definition ns_sub_num (self : ns) (other : A) : res ns := ns_map (fun _ v => sc other - Ok v) self.
(** namespaces.py:2-8 [__mul__] / [__rmul__] *)
Definition ns_mul (self other : ns) : res ns :=
  ns_map (fun k v => let* o := ns_get other k in Ok o * Ok v) self.
Definition ns_scale (self : ns) (other : A) : res ns := ns_map (fun _ v => sc other * Ok v) self.
(** namespaces.py:16-20 [__truediv__] *)
Definition ns_div (self other : ns) : res ns :=
  ns_map (fun k v => let* o := ns_get other k in Ok v / Ok o) self.
Definition ns_div_num (self : ns) (other : A) : res ns := ns_map (fun _ v => Ok v / sc other) self.

(** ** The numerical schemes, model.py:200-203 *)
Record backend := {
  poisson_solver : nd A -> A -> nd A;
  diffuse_N : nd A -> A -> Z -> nd A;
  poisson_bracket : nd A -> nd A -> A -> nd A;
  gradient_func : nd A -> A -> Z -> res (option (arr A)) }.

(** model.py:172-218: the attributes of an HW object *)
Record hw := {
  schemes : backend;
  hN : Z;
  hc1 : A;
  hnu : A;
  hpb : A;
  hkappa : A;
  hdx : A;
  hzonal : bool;
  htest : bool }.

(** (-1) ** k for an integer k *)
Definition sign_pow (k : Z) : A := nofZ (if Z.even k then 1 else (-1)).

(** model.py:172-227 [HW.__init__]; [self.N = int(N)] with N an integer *)
Definition hw_init (b : backend) (dx : A) (N : Z) (c1 nu pb kappa : A) (zonal test : bool) : hw :=
  {| schemes := b; hN := N; hc1 := c1; hnu := nmul (sign_pow (N + 1)) nu;
     hpb := pb; hkappa := kappa; hdx := dx; hzonal := zonal; htest := test |}.

(** model.py:305-311 [get_phi] *)
Definition hw_get_phi (h : hw) (omega : nd A) (dx : A) : M (arr A) :=
  let o_mean := mean_all omega in
  let centered_omega := omega - o_mean in
  do* phi := mlift (poisson_solver (schemes h) centered_omega dx) in
  do* _ := mlog "get_phi" in
  mret phi.

(** model.py:313-317 [diffuse] *)
Definition hw_diffuse (h : hw) (a : nd A) (dx : A) (N : Z) : M (arr A) :=
  do* r := mlift (diffuse_N (schemes h) a dx N) in
  do* _ := mlog "diffuse" in
  mret r.

(** model.py:355-359 [get_gammas] *)
Definition hw_get_gammas (h : hw) (n p : nd A) : res (arr A * arr A) :=
  let* gamma_n := get_gamma_n n p (hdx h) None in
  let* gamma_c := get_gamma_c n p (hc1 h) (hdx h) in
  Ok (gamma_n, gamma_c).

(** model.py:63-168 [hw2d_gradient] as called by [HW.gradient_2d]
    (model.py:319-352), i.e. with the callbacks and parameters of [h].
    [age] is kwargs.get("age"); debug = False. *)
Definition hw2d_gradient (h : hw) (density omega : arr A) (dt dx : A)
    (phi : option (arr A)) (zonal : bool) (age : option (arr A)) : M ns :=
  let pb := hpb h in let nu := hnu h in let c1 := hc1 h in
  (* 86-87 *)
  do* phi := match phi with Some p => mret p | None => hw_get_phi h (Ok omega) dx end in
  (* 95-96 *)
  do* dy_p := mlift (gradient_func (schemes h) (Ok phi) dx 0) in
  do* _ := mlog "gradient_2d" in
  (* 99-104 *)
  do* diff := mlift (if zonal then zonal_transform (Ok phi) - zonal_transform (Ok density)
                     else Ok phi - Ok density) in
  (* 107-117 *)
  do* o := mlift (sc c1 * Ok diff) in
  do* o := (if truthy pb then
              do* arak_comp_o := mlift (sc (nopp pb) * poisson_bracket (schemes h) (Ok phi) (Ok omega) dx) in
              do* _ := mlog "poisson_bracket" in
              mlift (iadd (Ok o) (Ok arak_comp_o))
            else mret o) in
  do* o := (if truthy nu then
              do* d := hw_diffuse h (Ok omega) dx (hN h) in
              do* Do := mlift (sc nu * Ok d) in
              mlift (iadd (Ok o) (Ok Do))
            else mret o) in
  (* 120-133 *)
  do* n := mlift (sc c1 * Ok diff) in
  do* n := (if truthy pb then
              do* arak_comp_n := mlift (sc (nopp pb) * poisson_bracket (schemes h) (Ok phi) (Ok density) dx) in
              do* _ := mlog "poisson_bracket" in
              mlift (iadd (Ok n) (Ok arak_comp_n))
            else mret n) in
  do* n := (if truthy (hkappa h) then
              do* kap := mlift (sc (nopp (hkappa h)) * force (Ok dy_p)) in
              mlift (iadd (Ok n) (Ok kap))
            else mret n) in
  do* nD := (if truthy nu then
              do* d := hw_diffuse h (Ok density) dx (hN h) in
              do* Dn := mlift (sc nu * Ok d) in
              do* n := mlift (iadd (Ok n) (Ok Dn)) in
              mret (n, Dn)
            else mret (n, scal (nofZ 0))) in
  let n := fst nD in let Dn := snd nD in
  (* 149-155 *)
  do* return_dict := mlift (match age with
    | Some a => let* a' := Ok a + sc dt in
                Ok [("density", n); ("omega", o); ("age", a')]%string
    | None => Ok [("density", n); ("omega", o)]%string
    end) in
  (* 158-166 *)
  if htest h then
    do* gammas := mlift (hw_get_gammas h (Ok density) (Ok phi)) in
    do* d := hw_diffuse h (Ok phi) dx (hN h) in
    do* Dp := mlift (sc nu * Ok d) in
    do* DE := mlift (get_DE (Ok density) (Ok phi) (Ok Dn) (Ok Dp)) in
    do* DU := mlift (get_DU (Ok density) (Ok omega) (Ok Dn) (Ok Dp)) in
    do* dE_dt := mlift (get_dE_dt (Ok (fst gammas)) (Ok (snd gammas)) (Ok DE)) in
    do* dU_dt := mlift (get_dU_dt (Ok (fst gammas)) (Ok DU)) in
    mret (ns_set (ns_set return_dict "dE" dE_dt) "dU" dU_dt)
  else mret return_dict.

(** names that may not occur in a [**y] passed to gradient_2d: the explicit
    keyword arguments of the call (254, 270: duplicate keyword) and of the
    inner call of hw2d_gradient (330-352) *)
Definition reserved : list string :=
  ["dt"; "dx"; "phi"; "zonal"; "get_phi_func"; "gradient_func"; "diffuse_func";
   "poisson_bracket_func"; "get_gammas_func"; "make_zonal_func"; "log";
   "poisson_bracket_coeff"; "kappa_coeff"; "c1"; "nu"; "N"; "TEST_CONSERVATION"; "self"]%string.

(** self.gradient_2d( **y, phi=phi, dt=dt, dx=dx, zonal=self.zonal):
    argument binding of model.py:319-329 (a key named "debug" would switch
    the debug printing on; not modelled) *)
Definition gradient_2d (h : hw) (y : ns) (phi : option (arr A)) (dt dx : A) : M ns :=
  if existsb (fun k => ns_has y k) reserved then mlift (Exn TypeError)
  else if ns_has y "debug" then mlift (Exn Unmodelled)
  else match ns_get y "density", ns_get y "omega" with
  | Ok n, Ok o =>
      hw2d_gradient h n o dt dx phi (hzonal h)
        (match ns_get y "age" with Ok a => Some a | Exn _ => None end)
  | _, _ => mlift (Exn TypeError)
  end.

Definition mget (y : ns) (k : string) : M (arr A) := mlift (ns_get y k).
Definition mscale (c : A) (y : ns) : M ns := mlift (ns_scale y c).
Definition madd (x y : ns) : M ns := mlift (ns_add x y).
Definition half : A := ndiv (nofZ 1) (nofZ 2).

(** model.py:248-262 [euler_step] *)
Definition euler_step (h : hw) (plasma : ns) (dt dx : A) : M ns :=
  let y := ns_without "phi" plasma in
  do* g := gradient_2d h y (match ns_get plasma "phi" with Ok p => Some p | Exn _ => None end)
             (nofZ 0) dx in
  do* d := mscale dt g in
  do* y := madd y d in
  do* om := mget y "omega" in
  do* phi := hw_get_phi h (Ok om) dx in
  let y := ns_set y "phi" phi in
  do* age := mget plasma "age" in
  do* age' := mlift (Ok age + sc dt) in
  let y := ns_set y "age" age' in
  do* _ := mlog "full_step" in
  mret y.

(** one stage of model.py:270-279: k = dt * self.gradient_2d( **y, phi=p, ...) *)
Definition stage (h : hw) (y : ns) (p : arr A) (dtk dt dx : A) : M ns :=
  do* g := gradient_2d h y (Some p) dtk dx in
  mscale dt g.

(** model.py:264-303 [rk4_step] (debug printing left out) *)
Definition rk4_step (h : hw) (plasma : ns) (dt dx : A) : M ns :=
  let yn := ns_without "phi" plasma in
  do* pn := mget plasma "phi" in
  do* k1 := stage h yn pn (nofZ 0) dt dx in
  do* t1 := mscale half k1 in
  do* y1 := madd yn t1 in
  do* o1 := mget y1 "omega" in
  do* p1 := hw_get_phi h (Ok o1) dx in
  do* k2 := stage h y1 p1 (ndiv dt (nofZ 2)) dt dx in
  do* t2 := mscale half k2 in
  do* y2 := madd yn t2 in
  do* o2 := mget y2 "omega" in
  do* p2 := hw_get_phi h (Ok o2) dx in
  do* k3 := stage h y2 p2 (ndiv dt (nofZ 2)) dt dx in
  do* y3 := madd yn k3 in
  do* o3 := mget y3 "omega" in
  do* p3 := hw_get_phi h (Ok o3) dx in
  do* k4 := stage h y3 p3 dt dt dx in
  do* k2' := mscale (nofZ 2) k2 in
  do* s := madd k1 k2' in
  do* k3' := mscale (nofZ 2) k3 in
  do* s := madd s k3' in
  do* s := madd s k4 in
  do* s := mscale (ndiv (nofZ 1) (nofZ 6)) s in
  do* yk1 := madd yn s in
  do* ok1 := mget yk1 "omega" in
  do* phi := hw_get_phi h (Ok ok1) dx in
  let yk1 := ns_set yk1 "phi" phi in
  do* age := mget plasma "age" in
  do* age' := mlift (Ok age + sc dt) in
  let yk1 := ns_set yk1 "age" age' in
  do* _ := mlog "full_step" in
  mret yk1.

(** k consecutive steps, as in the loop run.py:258-260 *)
Fixpoint steps (step : ns -> M ns) (k : nat) (plasma : ns) : M ns :=
  match k with
  | O => mret plasma
  | S k' => do* p := step plasma in steps step k' p
  end.

End HW.
Arguments ns A : clear implicits.
Arguments backend A : clear implicits.
Arguments hw A : clear implicits.
