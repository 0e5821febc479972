(** The Hasegawa-Wakatani system on a periodic grid, written down
    independently of the code. *)
From Coq Require Import List Arith ZArith Reals.
From Verif Require Import Num NdArray Spec Cplx SpecFourier.
Import ListNotations.
Local Open Scope R_scope.

Notation field := (nat -> nat -> R).

(** Arakawa's bracket f_x g_y - f_y g_x as the average of his three forms *)
Section Jac.
Variables (ny nx : nat) (dx : R) (f g : field) (i j : nat).
Local Notation F a b := (f (sh ny i a) (sh nx j b)).
Local Notation G a b := (g (sh ny i a) (sh nx j b)).
Definition jac_pp : R :=
  (F 0 1 - F 0 (-1)) * (G 1 0 - G (-1) 0) - (F 1 0 - F (-1) 0) * (G 0 1 - G 0 (-1)).
Definition jac_px : R :=
  F 0 1 * (G 1 1 - G (-1) 1) - F 0 (-1) * (G 1 (-1) - G (-1) (-1))
  - F 1 0 * (G 1 1 - G 1 (-1)) + F (-1) 0 * (G (-1) 1 - G (-1) (-1)).
Definition jac_xp : R :=
  G 1 0 * (F 1 1 - F 1 (-1)) - G (-1) 0 * (F (-1) 1 - F (-1) (-1))
  - G 0 1 * (F 1 1 - F (-1) 1) + G 0 (-1) * (F 1 (-1) - F (-1) (-1)).
Definition jacobian : R := (jac_pp + jac_px + jac_xp) / 3 / (4 * dx ^ 2).
End Jac.

(** the mean-free potential of a vorticity: divide every non-zero Fourier
    mode by the symbol of the Laplacian *)
Definition invlap (ny nx : nat) (dx : R) (om : field) : field := fun i j =>
  re (idft2 ny nx (fun k l =>
    if ((k =? 0)%nat && (l =? 0)%nat)%bool then C0
    else Cscal (/ lap_symbol ny nx dx k l)
               (dft2 ny nx (fun i j => RtoC (om i j)) (Z.of_nat k) (Z.of_nat l))) i j).

(** deviation from the average over y (rows) *)
Definition yavg (ny : nat) (f : field) (j : nat) : R := rsum ny (fun i => f i j) / INR ny.
Definition ydev (ny : nat) (f : field) : field := fun i j => f i j - yavg ny f j.

(** model parameters; [nu] is the user's viscosity *)
Record par := mkPar { pN : nat; pc1 : R; pnu : R; ppb : R; pkap : R; pzon : bool }.

(** hyper-diffusion (-1)^(N+1) nu lap^N *)
Definition hyper (p : par) (ny nx : nat) (dx : R) (f : field) : field := fun i j =>
  (-1) ^ (pN p + 1) * pnu p * lap_iter (pN p) ny nx dx f i j.

(** phi - n, or its zonal deviation *)
Definition coupling (p : par) (ny : nat) (phi n : field) : field := fun i j =>
  if pzon p then ydev ny phi i j - ydev ny n i j else phi i j - n i j.

(** time derivatives for a given potential *)
Definition rhs_n (p : par) (ny nx : nat) (dx : R) (phi n : field) : field := fun i j =>
  pc1 p * coupling p ny phi n i j
  - ppb p * jacobian ny nx dx phi n i j
  - pkap p * cdy ny dx phi i j
  + hyper p ny nx dx n i j.
Definition rhs_o (p : par) (ny nx : nat) (dx : R) (phi n o : field) : field := fun i j =>
  pc1 p * coupling p ny phi n i j
  - ppb p * jacobian ny nx dx phi o i j
  + hyper p ny nx dx o i j.

(** pairs (density, vorticity) *)
Notation state := (field * field)%type.
Definition sadd (x y : state) : state := (fadd (fst x) (fst y), fadd (snd x) (snd y)).
Definition sscale (c : R) (x : state) : state := (fscale c (fst x), fscale c (snd x)).
Definition szero : state := (fconst 0, fconst 0).

(** the autonomous system d/dt (n, o) = hw_rhs (n, o) *)
Definition hw_rhs (p : par) (ny nx : nat) (dx : R) (y : state) : state :=
  let phi := invlap ny nx dx (snd y) in
  (rhs_n p ny nx dx phi (fst y), rhs_o p ny nx dx phi (fst y) (snd y)).

(** one explicit Euler / classical Runge-Kutta step of y' = F y *)
Definition euler (F : state -> state) (dt : R) (y : state) : state := sadd y (sscale dt (F y)).
Definition rk4_from (F : state -> state) (k1 : state) (dt : R) (y : state) : state :=
  let k2 := F (sadd y (sscale (dt / 2) k1)) in
  let k3 := F (sadd y (sscale (dt / 2) k2)) in
  let k4 := F (sadd y (sscale dt k3)) in
  sadd y (sscale (dt / 6) (sadd (sadd (sadd k1 (sscale 2 k2)) (sscale 2 k3)) k4)).
Definition rk4 (F : state -> state) (dt : R) (y : state) : state := rk4_from F (F y) dt y.
Fixpoint iter_step (step : state -> state) (k : nat) (y : state) : state :=
  match k with O => y | S k' => iter_step step k' (step y) end.

(** mirror image in x: column j <-> column -j (mod nx) *)
Definition mirror (nx : nat) (f : field) : field := fun i j => f i (pidx nx (- Z.of_nat j)).

(** energy with the kinetic part taken in Fourier space: for the mean-free
    potential phi of o, - mean(phi o) = mean |grad phi|^2 *)
Definition spec_energy (ny nx : nat) (dx : R) (n o : field) : R :=
  (gmean ny nx (fun i j => n i j ^ 2) - gmean ny nx (fun i j => invlap ny nx dx o i j * o i j)) / 2.

(** the system split into its linear part (bracket switched off) and the
    quadratic bracket terms: hw_rhs y = hw_lin y + hw_quad y y *)
Definition hw_lin (p : par) (ny nx : nat) (dx : R) (y : state) : state :=
  hw_rhs (mkPar (pN p) (pc1 p) (pnu p) 0 (pkap p) (pzon p)) ny nx dx y.
Definition hw_quad (p : par) (ny nx : nat) (dx : R) (y z : state) : state :=
  let phi := invlap ny nx dx (snd y) in
  (fscale (- ppb p) (jacobian ny nx dx phi (fst z)), fscale (- ppb p) (jacobian ny nx dx phi (snd z))).

Fixpoint ssum (n : nat) (f : nat -> state) : state :=
  match n with O => szero | S k => sadd (ssum k f) (f k) end.
(** Taylor coefficients (in time) of the solution through y: comparing
    powers of t in Y' = hw_lin Y + hw_quad Y Y, Y = sum t^k c_k *)
Definition hw_taylor (p : par) (ny nx : nat) (dx : R) (c : nat -> state) (y : state) : Prop :=
  c 0%nat = y /\
  forall k, sscale (INR k + 1) (c (S k)) =
    sadd (hw_lin p ny nx dx (c k)) (ssum (S k) (fun i => hw_quad p ny nx dx (c i) (c (k - i)%nat))).

(** Y solves the semi-discrete system on [0, T] *)
Definition hw_solution (p : par) (ny nx : nat) (dx : R) (Y : R -> state) (T : R) : Prop :=
  forall t i j, 0 <= t <= T -> (i < ny)%nat -> (j < nx)%nat ->
    derivable_pt_lim (fun s => fst (Y s) i j) t (fst (hw_rhs p ny nx dx (Y t)) i j) /\
    derivable_pt_lim (fun s => snd (Y s) i j) t (snd (hw_rhs p ny nx dx (Y t)) i j).
(** largest difference of two states over the grid is at most e *)
Definition within (ny nx : nat) (e : R) (y z : state) : Prop :=
  forall i j, (i < ny)%nat -> (j < nx)%nat ->
    Rabs (fst y i j - fst z i j) <= e /\ Rabs (snd y i j - snd z i j) <= e.
