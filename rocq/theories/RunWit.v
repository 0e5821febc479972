(** A small concrete simulation to run the drivers on: frames are integers,
    one step adds [Qnum dx] to the density and 2 to the vorticity, the potential
    is twice the vorticity. *)
From Coq Require Import Arith ZArith Bool String List Lia QArith.
From Verif Require Import Num NdArray ModelIO ModelRun SpecIO SpecRun.
Import ListNotations.
Local Close Scope Q_scope.
Local Open Scope nat_scope.
Local Open Scope string_scope.

Section Toy.
Context {T : Type} (TN : TimeNum T) (dxZ : T -> Z).

Definition toy_step (_ : physics (T := T)) (pl : plasma Z T) (dt dx : T) : res (plasma Z T) :=
  Ok (mkPlasma (p_density pl + dxZ dx) (p_omega pl + 2) (2 * (p_omega pl + 2)) (nadd (p_age pl) dt))%Z.
Definition toy_value (n p o : row Z T) : row Z T :=
  match n, p with RFrame a, RFrame b => RNum (nofZ (a * b)) | _, _ => n end.
Definition toy_sim : sim Z T :=
  mkSim toy_step (fun _ o _ => Ok (2 * o)%Z) (fun _ => false) (fun _ => false) (Z.eqb 0)
    (fun name n p o dx c1 => if String.eqb name "gamma_n" then Ok (nofZ (n * p)) else Exn KeyError)
    (fun _ => [("gamma_n", fun n p o => Ok (zip3 toy_value n p o))])
    0%Z 0%Z (fun v => v) (fun t => t).

(** the plasma a fresh toy run starts with: the potential is arbitrary *)
Definition toy_init : plasma Z T := mkPlasma 5%Z 7%Z 1%Z (nofZ 0).
Definition toy_phys (one : T) : physics (T := T) :=
  [("dx", AT one); ("N", AZ 3); ("c1", AT one); ("nu", AT one); ("k0", AT one);
   ("poisson_bracket_coeff", AZ 1); ("kappa_coeff", AZ 1)].
(** arguments: step size, end time, recording start, buffer length, snaps *)
Definition toy_cfg (phys : physics (T := T)) (one step end_ rec : T) (B : nat) (snaps : Z) (cont last : bool) (props : list string) : cfg Z T :=
  mkCfg step end_ phys one one 4 4 4 4 true rec cont B snaps None last false false props.
End Toy.

(** exact times *)
Definition qdx (q : Q) : Z := Qnum q.
Definition tq := toy_sim TimeQ qdx.
Definition qcfg (end_ : Q) (B : nat) (snaps : Z) (cont last : bool) (props : list string) : cfg Z Q :=
  toy_cfg (toy_phys 1%Q) 1%Q 1%Q end_ 0%Q B snaps cont last props.
Definition qrun (c : cfg Z Q) (d : disk Z Q) : disk Z Q := disk_of (@run Z Q TimeQ tq c (@toy_init Q TimeQ)) d.
Definition qrun2 (fuel : nat) (c : cfg Z Q) (d : disk Z Q) : disk Z Q := disk_of (@run2 Z Q TimeQ tq c fuel (@toy_init Q TimeQ)) d.
Definition qres (c : cfg Z Q) (d : disk Z Q) : res unit := result_of (@run Z Q TimeQ tq c (@toy_init Q TimeQ)) d.
Definition qres2 (fuel : nat) (c : cfg Z Q) (d : disk Z Q) : res unit := result_of (@run2 Z Q TimeQ tq c fuel (@toy_init Q TimeQ)) d.

(** reading a dataset *)
Definition get {V T} (d : disk V T) (k : string) : option (dataset V T) :=
  match d with Some f => dget (dsets f) k | None => None end.
Definition times {T} (l : list T) : option (dataset Z T) := Some (Rows (map (fun t => RNum t) l)).
Definition vals {T} (l : list Z) : option (dataset Z T) := Some (Rows (map (fun t => RFrame t) l)).
Definition len {V T} (d : option (dataset V T)) : option nat :=
  match d with Some (Rows l) => Some (List.length l) | _ => None end.

Definition stepF : f64 := ndiv (Num := NumF64) (f64_ofZ 1) (f64_ofZ 10).
Definition endF : f64 := ndiv (Num := NumF64) (f64_ofZ 3) (f64_ofZ 10).

Definition frun (c : cfg Z f64) : disk Z f64 :=
  disk_of (@run Z f64 TimeF64 (toy_sim TimeF64 (fun _ => 1%Z)) c (@toy_init f64 TimeF64)) None.
Definition frun2 (fuel : nat) (c : cfg Z f64) : disk Z f64 :=
  disk_of (@run2 Z f64 TimeF64 (toy_sim TimeF64 (fun _ => 1%Z)) c fuel (@toy_init f64 TimeF64)) None.
Definition fcfg (end_ : f64) : cfg Z f64 := toy_cfg (toy_phys stepF) stepF stepF end_ (f64_ofZ 0) 2 1 false false [].

(** a simulation whose step raises as soon as the density reaches 7 *)
Definition bad_sim : sim Z Q :=
  mkSim (fun ph pl dt dx => if (7 <=? p_density pl)%Z then Exn ValueError else toy_step TimeQ qdx ph pl dt dx)
    (s_phi tq) (s_nan tq) (s_nanT tq) (s_zero tq) (s_prop tq) (s_table tq) (s_zeroV tq) (s_zeroF tq) (s_f32V tq) (s_f32T tq).
