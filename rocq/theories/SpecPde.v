(** Smooth solutions of the Hasegawa-Wakatani equations on a periodic box.
    Independent of grids and of the code. *)
From Coquelicot Require Import Coquelicot.
From Coq Require Import List Arith ZArith Reals.

From Verif Require Import Spec SpecHW SpecSmooth SpecConv.
From Verif Require SpecRunHW.
Local Open Scope R_scope.

(** [Q t], [O t], [P t] are the derivatives (see [smooth]) of density,
    vorticity and potential at time t, so [Q t 0 0] is the density; all
    derivatives up to order 6 + 2 N are bounded by M.  The potential solves
    Poisson's equation up to the mean of the vorticity and has mean zero. *)
Record pde_solution (p : par) (Ly Lx T M : R) (Q O P : R -> nat -> nat -> pfield) : Prop := {
  ps_n : forall t, 0 <= t <= T -> smooth (6 + 2 * pN p) M (Q t 0%nat 0%nat) (Q t) /\ periodic Ly Lx (Q t 0%nat 0%nat);
  ps_o : forall t, 0 <= t <= T -> smooth (6 + 2 * pN p) M (O t 0%nat 0%nat) (O t) /\ periodic Ly Lx (O t 0%nat 0%nat);
  ps_p : forall t, 0 <= t <= T -> smooth (6 + 2 * pN p) M (P t 0%nat 0%nat) (P t) /\ periodic Ly Lx (P t 0%nat 0%nat);
  ps_dt : forall t, 0 <= t <= T -> exists PU QU,
    (pzon p = true -> antider_y (P t 0%nat 0%nat) PU /\ antider_y (Q t 0%nat 0%nat) QU) /\
    forall y x, derivable_pt_lim (fun s => Q s 0%nat 0%nat y x) t (pde_n p Ly (P t) (Q t) PU QU y x) /\
                derivable_pt_lim (fun s => O s 0%nat 0%nat y x) t (pde_o p Ly (P t) (Q t) (O t) PU QU y x);
  ps_poisson : forall t, 0 <= t <= T -> exists c, forall y x, dlap (P t) 0%nat 0%nat y x = O t 0%nat 0%nat y x - c;
  ps_mean : forall t, 0 <= t <= T -> is_RInt (fun x => RInt (fun y => P t 0%nat 0%nat y x) 0 Ly) 0 Lx 0 }.

(** a grid of square cells that fills the box *)
Definition fills (ny nx : nat) (h Ly Lx : R) : Prop := (0 < ny)%nat /\ (0 < nx)%nat /\ 0 < h /\ INR ny * h = Ly /\ INR nx * h = Lx.
(** density and vorticity at the grid points at time t *)
Definition at_grid (h : R) (Q O : R -> nat -> nat -> pfield) (t : R) : state := (sample h (Q t 0%nat 0%nat), sample h (O t 0%nat 0%nat)).
(** root mean square of the difference of two states *)
Definition rms_dist (ny nx : nat) (y z : state) : R := sqrt (msq2 ny nx (sdiff y z)).
(** a recorded frame against the solution: root mean squares of the errors of
    density and vorticity (together) and of the potential are at most [e], and
    every single error is at most [e']; the potential of a frame at time zero is
    the one the initial noise gave and is not compared *)
Definition near_pde (ny nx : nat) (h e e' : R) (Q O P : R -> nat -> nat -> pfield) (f : SpecRunHW.frame) : Prop :=
  let t := SpecRunHW.f_t f in let u := sample h (P t 0%nat 0%nat) in let y := (SpecRunHW.f_n f, SpecRunHW.f_o f) in
  rms_dist ny nx y (at_grid h Q O t) <= e /\ within ny nx e' y (at_grid h Q O t) /\
  (0 < t -> sqrt (msq ny nx (fsub (SpecRunHW.f_p f) u)) <= e /\
    forall i j, (i < ny)%nat -> (j < nx)%nat -> Rabs (SpecRunHW.f_p f i j - u i j) <= e').
