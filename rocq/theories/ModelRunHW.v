(** The drivers with the Hasegawa-Wakatani physics plugged in, in exact
    arithmetic.
    Source: /repo/src/hw2d/model.py:172-218, /repo/src/hw2d/run2.py:43-58,
            /repo/src/hw2d/utils/run_properties.py:46-101.

    Numbers are reals, so nothing is ever NaN; storing into float32 is an
    arbitrary rounding function [rnd] applied to every entry. *)
From Coq Require Import Arith ZArith Bool Reals String List.
From Verif Require Import Num NdArray ModelGradients ModelArakawa ModelPoisson ModelProperties ModelHW ModelBackend
  ModelSpectral ModelIO ModelRun.
Import ListNotations.
Local Open Scope R_scope.
Local Open Scope string_scope.

(** truncation towards zero, and rounding half to even *)
Definition R_trunc (x : R) : Z := if Rle_dec 0 x then Int_part x else (- Int_part (- x))%Z.
Definition R_round_even (x : R) : Z :=
  let f := Int_part x in
  if Rlt_dec (x - IZR f) (1 / 2) then f
  else if Rlt_dec (1 / 2) (x - IZR f) then (f + 1)%Z
  else if Z.even f then f else (f + 1)%Z.
(** run.py:253 int(), run2.py:349 round( , 4), run2.py:365 np.sum *)
Definition TimeR : TimeNum R := {|
  t_num := NumR;
  t_int := fun x => Ok (R_trunc x);
  t_round4 := fun x => IZR (R_round_even (x * 10000)) / 10000;
  t_sum := fun l => fold_left Rplus l 0 |}.

(** an attribute used as a number, as int(), as a truth value *)
Definition attr_num (a : attr R) : R := match a with AT t => t | AZ z => IZR z | AB b => if b then 1 else 0 end.
Definition attr_int (a : attr R) : Z := match a with AT t => R_trunc t | AZ z => z | AB b => if b then 1 else 0 end%Z.
Definition attr_bool (a : attr R) : bool := match a with AT t => truthy t | AZ z => negb (z =? 0)%Z | AB b => b end.

Definition hw_keywords : list string :=
  ["dx"; "N"; "c1"; "nu"; "k0"; "poisson_bracket_coeff"; "kappa_coeff"; "zonal"; "debug"; "TEST_CONSERVATION"].
Definition kw (d : physics (T := R)) (k : string) (default : attr R) : attr R :=
  match dget d k with Some a => a | None => default end.

(** model.py:172-227: HW( **physics_params, debug=False).  A missing or unknown
    keyword is a TypeError; k0 = 0 a ZeroDivisionError (line 213). *)
Definition hw_of_phys (b : backend R) (d : physics (T := R)) : res (hw R) :=
  if negb (forallb (fun k => existsb (String.eqb k) hw_keywords) (keys d)) then Exn TypeError
  else if dhas d "debug" then Exn TypeError
  else match dget d "dx", dget d "N", dget d "c1", dget d "nu", dget d "k0" with
  | Some dx, Some N, Some c1, Some nu, Some k0 =>
      if Req_EM_T (attr_num k0) 0 then Exn ZeroDivisionError
      else Ok (hw_init b (attr_num dx) (attr_int N) (attr_num c1) (attr_num nu)
                 (attr_num (kw d "poisson_bracket_coeff" (AZ 1))) (attr_num (kw d "kappa_coeff" (AZ 1)))
                 (attr_bool (kw d "zonal" (AB false))) (attr_bool (kw d "TEST_CONSERVATION" (AB true))))
  | _, _, _, _, _ => Exn TypeError
  end.

(** a number held by a 0-d array *)
Definition as_scalar (a : arr R) : res R := match shape a with [] => Ok (get a []) | _ => Exn ValueError end.

(** run.py:158-163, 260: one step on the Namespace of the loop *)
Definition hw_step (b : backend R) (d : physics (T := R)) (pl : plasma (arr R) R) (dt dx : R) : res (plasma (arr R) R) :=
  let* h := hw_of_phys b d in
  let* y := snd (rk4_step h [("density", p_density pl); ("omega", p_omega pl); ("phi", p_phi pl); ("age", scal (p_age pl))] dt dx) in
  let* n := ns_get y "density" in
  let* o := ns_get y "omega" in
  let* p := ns_get y "phi" in
  let* a := ns_get y "age" in
  let* age := as_scalar a in
  Ok (mkPlasma n o p age).
(** run.py:250-251 *)
Definition hw_phi (b : backend R) (d : physics (T := R)) (omega : arr R) (dx : attr R) : res (arr R) :=
  let* h := hw_of_phys b d in snd (hw_get_phi h (Ok omega) (attr_num dx)).

(** run2.py:43-58 and the calls 309-315, 385-391: DE, DU, dE_dt, dU_dt need
    arguments that are not passed, which is a TypeError; an unknown name is a
    KeyError *)
Definition property_fncs (name : string) (n p o : arr R) (dx c1 : R) : res (arr R) :=
  let n := Ok n in let p := Ok p in let o := Ok o in
  if String.eqb name "gamma_n" then get_gamma_n n p dx None
  else if String.eqb name "gamma_n_spectral" then get_gamma_n_spectrally n p dx
  else if String.eqb name "gamma_c" then get_gamma_c n p c1 dx
  else if String.eqb name "energy" then get_energy n p dx
  else if String.eqb name "thermal_energy" then get_energy_N_spectrally n
  else if String.eqb name "kinetic_energy" then get_energy_V_spectrally p dx
  else if String.eqb name "enstrophy" then get_enstrophy n o dx
  else if String.eqb name "enstrophy_phi" then get_enstrophy_phi n p dx
  else if existsb (String.eqb name) ["DE"; "DU"; "dE_dt"; "dU_dt"] then Exn TypeError
  else Exn KeyError.
Definition hw_prop (name : string) (n p o : arr R) (dx c1 : R) : res R :=
  let* a := property_fncs name n p o dx c1 in as_scalar a.

(** h5_file[name][i:i+b] as one array: the frames have the shape of the dataset *)
Fixpoint frames_data (nx ny : nat) (l : list (row (arr R) R)) : res (list R) :=
  match l with
  | [] => Ok []
  | RFrame a :: l' =>
      if list_eq_dec Nat.eq_dec (shape a) [nx; ny] then
        let* d := frames_data nx ny l' in Ok (data a ++ d)%list
      else Exn Unmodelled
  | RNum _ :: _ => Exn Unmodelled
  end.
Definition stack_rows (nx ny : nat) (l : list (row (arr R) R)) : nd R :=
  let* d := frames_data nx ny l in Ok (mkArr [nx; ny; List.length l] d).
(** a 1-d result as rows *)
Definition as_rows (x : nd R) : res (list (row (arr R) R)) :=
  let* a := x in match shape a with [_] => Ok (map RNum (data a)) | _ => Exn TypeError end.

(** run_properties.py:46-48 and 92-101; the attributes it needs were looked up
    before *)
Definition property_mapping (at_ : physics (T := R)) : prop_table (arr R) R :=
  let nx := Z.to_nat (attr_int (kw at_ "x_save" (AZ 0))) in
  let ny := Z.to_nat (attr_int (kw at_ "y_save" (AZ 0))) in
  let L := 2 * PI / attr_num (kw at_ "k0" (AZ 0)) in
  let dx := L / attr_num (kw at_ "x_save" (AZ 0)) in
  let c1 := attr_num (kw at_ "c1" (AZ 0)) in
  let on (f : nd R -> nd R -> nd R -> nd R) n p o :=
    as_rows (f (stack_rows nx ny n) (stack_rows nx ny p) (stack_rows nx ny o)) in
  [("gamma_n", on (fun n p o => get_gamma_n n p dx None));
   ("gamma_n_spectral", on (fun n p o => get_gamma_n_spectrally n p dx));
   ("gamma_c", on (fun n p o => get_gamma_c n p c1 dx));
   ("energy", on (fun n p o => get_energy n p dx));
   ("thermal_energy", on (fun n p o => get_energy_N_spectrally n));
   ("kinetic_energy", on (fun n p o => get_energy_V_spectrally p dx));
   ("enstrophy", on (fun n p o => get_enstrophy n o dx));
   ("enstrophy_phi", on (fun n p o => get_enstrophy_phi n p dx))].

(** np.all(v == 0), run.py:206 *)
Definition all_zero (a : arr R) : bool := forallb (fun x => if Req_EM_T x 0 then true else false) (data a).

(** [y], [x]: size of the simulation, [ys], [xs]: of the saved frames *)
Definition hw_sim (b : backend R) (rnd : R -> R) (y x ys xs : nat) : sim (arr R) R :=
  mkSim (hw_step b) (hw_phi b) (fun _ => false) (fun _ => false) all_zero hw_prop property_mapping
    (grid y x (fun _ _ => 0)) (grid ys xs (fun _ _ => 0))
    (fun a => mkArr (shape a) (map rnd (data a))) rnd.

(** run.py:147-155 *)
Definition physics_params (dx : R) (N : Z) (c1 nu k0 pb kap : R) : physics (T := R) :=
  [("dx", AT dx); ("N", AZ N); ("c1", AT c1); ("nu", AT nu); ("k0", AT k0);
   ("poisson_bracket_coeff", AT pb); ("kappa_coeff", AT kap)].
(** run2.py:193-202 *)
Definition physics_params2 (dx : R) (N : Z) (c1 nu k0 pb kap : R) (zonal : bool) : physics (T := R) :=
  (physics_params dx N c1 nu k0 pb kap ++ [("zonal", AB zonal)])%list.
(** run.py:115-119, 158-163; run2.py:166-170, 204-209 *)
Definition domain_dx (k0 : R) (x : nat) : R := 2 * PI / k0 / INR x.
Definition plasma0 (n o phi : arr R) : plasma (arr R) R := mkPlasma n o phi 0.
