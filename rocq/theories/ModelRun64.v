(** The driver run.py with the Hasegawa-Wakatani physics in binary64.
    Source: /repo/src/hw2d/run.py:27-329, /repo/src/hw2d/model.py:172-227,
            /repo/src/hw2d/utils/io.py:32-73 (float32 datasets).

    As ModelRunHW.v, with every number a binary64 number and every operation
    rounded.  Properties are left out (run with properties=[]), and with them
    the functions they need. *)
From Coq Require Import Arith ZArith Bool String List SpecFloat.
From Verif Require Import Num NdArray ModelHW ModelIO ModelRun.
Import ListNotations.
Local Open Scope string_scope.
Local Existing Instance TimeF64.
Local Existing Instance NumF64.

(** storing a binary64 number into a float32 dataset and reading it back
    (h5py and numpy convert with the processor's rounding to nearest even);
    io.py:32-73 creates the datasets with dtype float32 *)
Definition f32_64 (x : f64) : f64 :=
  match x with
  | S754_finite s m e =>
      match SpecFloat.binary_round 24 128 s m e with
      | S754_finite s' m' e' => SpecFloat.binary_round 53 1024 s' m' e'
      | y => y
      end
  | _ => x
  end.

(** np.sum(plasma.density), run.py:280: numpy adds in an order that depends on
    the memory layout and on the processor; here any order, a tree of
    additions whose leaves are positions *)
Inductive order := Leaf (i : nat) | Plus (l r : order).
Fixpoint total (t : order) (v : list f64) : f64 :=
  match t with
  | Leaf i => nth i v (f64_ofZ 0)
  | Plus l r => SFadd 53 1024 (total l v) (total r v)
  end.
(** the number of terms of such a sum *)
Fixpoint leaves (t : order) : nat := match t with Leaf _ => 1 | Plus l r => leaves l + leaves r end.
(** np.isnan, run.py:280 *)
Definition is_nan64 (x : f64) : bool := match x with S754_nan => true | _ => false end.
(** np.all(v == 0), run.py:206 *)
Definition all_zero64 (a : arr f64) : bool := forallb (fun x => negb (truthy x)) (data a).

(** an attribute used as a number, as int(), as a truth value; model.py:205-218 *)
Definition attr_num64 (a : attr f64) : f64 :=
  match a with AT t => t | AZ z => f64_ofZ z | AB b => f64_ofZ (if b then 1 else 0) end.
Definition attr_int64 (a : attr f64) : res Z :=
  match a with AT t => f64_trunc t | AZ z => Ok z | AB b => Ok (if b then 1 else 0)%Z end.
Definition attr_bool64 (a : attr f64) : bool := match a with AT t => truthy t | AZ z => negb (z =? 0)%Z | AB b => b end.
(** the keyword arguments, model.py:172-186 *)
Definition hw_keywords64 : list string :=
  ["dx"; "N"; "c1"; "nu"; "k0"; "poisson_bracket_coeff"; "kappa_coeff"; "zonal"; "debug"; "TEST_CONSERVATION"].
Definition kw64 (d : physics (T := f64)) (k : string) (default : attr f64) : attr f64 :=
  match dget d k with Some a => a | None => default end.

(** model.py:172-227: HW( **physics_params, debug=False).  A missing or unknown
    keyword is a TypeError; k0 = 0 a ZeroDivisionError (line 213). *)
Definition hw_of_phys64 (b : backend f64) (d : physics (T := f64)) : res (hw f64) :=
  if negb (forallb (fun k => existsb (String.eqb k) hw_keywords64) (keys d)) then Exn TypeError
  else if dhas d "debug" then Exn TypeError
  else match dget d "dx", dget d "N", dget d "c1", dget d "nu", dget d "k0" with
  | Some dx, Some N, Some c1, Some nu, Some k0 =>
      let* N := attr_int64 N in
      if negb (truthy (attr_num64 k0)) then Exn ZeroDivisionError
      else Ok (hw_init b (attr_num64 dx) N (attr_num64 c1) (attr_num64 nu)
                 (attr_num64 (kw64 d "poisson_bracket_coeff" (AZ 1))) (attr_num64 (kw64 d "kappa_coeff" (AZ 1)))
                 (attr_bool64 (kw64 d "zonal" (AB false))) (attr_bool64 (kw64 d "TEST_CONSERVATION" (AB true))))
  | _, _, _, _, _ => Exn TypeError
  end.

(** a number held by a 0-d array *)
Definition as_scalar64 (a : arr f64) : res f64 := match shape a with [] => Ok (get a []) | _ => Exn ValueError end.

(** run.py:158-163, 260: one step on the Namespace of the loop *)
Definition hw_step64 (b : backend f64) (d : physics (T := f64)) (pl : plasma (arr f64) f64) (dt dx : f64) : res (plasma (arr f64) f64) :=
  let* h := hw_of_phys64 b d in
  let* y := snd (rk4_step h [("density", p_density pl); ("omega", p_omega pl); ("phi", p_phi pl); ("age", scal (p_age pl))] dt dx) in
  let* n := ns_get y "density" in
  let* o := ns_get y "omega" in
  let* p := ns_get y "phi" in
  let* a := ns_get y "age" in
  let* age := as_scalar64 a in
  Ok (mkPlasma n o p age).
(** run.py:250-251 *)
Definition hw_phi64 (b : backend f64) (d : physics (T := f64)) (omega : arr f64) (dx : attr f64) : res (arr f64) :=
  let* h := hw_of_phys64 b d in snd (hw_get_phi h (Ok omega) (attr_num64 dx)).

(** what run.py calls (27-329); [t]: the order of the additions of np.sum;
    [y], [x]: size of the simulation and of the saved frames *)
Definition hw_sim64 (b : backend f64) (t : order) (y x : nat) : sim (arr f64) f64 :=
  mkSim (hw_step64 b) (hw_phi64 b) (fun a => is_nan64 (total t (data a))) is_nan64 all_zero64
    (fun _ _ _ _ _ _ => Exn Unmodelled) (fun _ => [])
    (grid y x (fun _ _ => f64_ofZ 0)) (grid y x (fun _ _ => f64_ofZ 0))
    (fun a => mkArr (shape a) (map f32_64 (data a))) f32_64.

(** run.py:147-155 *)
Definition physics_params64 (dx : f64) (N : Z) (c1 nu k0 pb kap : f64) : physics (T := f64) :=
  [("dx", AT dx); ("N", AZ N); ("c1", AT c1); ("nu", AT nu); ("k0", AT k0);
   ("poisson_bracket_coeff", AT pb); ("kappa_coeff", AT kap)].
(** run.py:158-163 *)
Definition plasma64 (n o phi : arr f64) : plasma (arr f64) f64 := mkPlasma n o phi (f64_ofZ 0).
