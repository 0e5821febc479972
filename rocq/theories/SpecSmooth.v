(** Smooth doubly periodic fields of continuous coordinates, and the
    Hasegawa-Wakatani equations as partial differential equations.  Nothing
    here mentions the grid's stencils or the code. *)
From Coq Require Import List Arith ZArith Reals.
From Verif Require Import Spec SpecHW.
Import ListNotations.
Local Open Scope R_scope.

(** a field of (y, x) *)
Notation pfield := (R -> R -> R).

(** [D a b] is the derivative of u taken a times in y and b times in x, for
    all orders up to k; every one of them is bounded by M *)
Definition smooth (k : nat) (M : R) (u : pfield) (D : nat -> nat -> pfield) : Prop :=
  (forall y x, D 0%nat 0%nat y x = u y x) /\
  (forall a b y x, (a + b < k)%nat -> derivable_pt_lim (fun s => D a b y s) x (D a (S b) y x)) /\
  (forall a b y x, (a + b < k)%nat -> derivable_pt_lim (fun s => D a b s x) y (D (S a) b y x)) /\
  (forall a b y x, (a + b <= k)%nat -> Rabs (D a b y x) <= M).

(** periods of the box *)
Definition periodic (Ly Lx : R) (u : pfield) : Prop :=
  forall y x, u (y + Ly) x = u y x /\ u y (x + Lx) = u y x.

(** values at the grid points *)
Definition sample (dx : R) (u : pfield) : field := fun i j => u (INR i * dx) (INR j * dx).

(** Laplacian of a family of derivatives, its iterate, Poisson bracket *)
Definition dlap (D : nat -> nat -> pfield) : nat -> nat -> pfield :=
  fun a b y x => D (2 + a)%nat b y x + D a (2 + b)%nat y x.
Fixpoint dlap_iter (m : nat) (D : nat -> nat -> pfield) : nat -> nat -> pfield :=
  match m with O => D | S m' => dlap (dlap_iter m' D) end.
Definition bracket (P Q : nat -> nat -> pfield) (y x : R) : R :=
  P 0%nat 1%nat y x * Q 1%nat 0%nat y x - P 1%nat 0%nat y x * Q 0%nat 1%nat y x.

(** average over one period in y; [U] is an antiderivative of u in y *)
Definition antider_y (u U : pfield) : Prop := forall y x, derivable_pt_lim (fun s => U s x) y (u y x).
Definition mean_y (Ly : R) (U : pfield) (x : R) : R := (U Ly x - U 0 x) / Ly.

(** right-hand sides of the partial differential equations; P, Q, O are the
    derivatives of potential, density and vorticity, [PU] and [QU]
    antiderivatives in y of potential and density (for the zonal variant) *)
Definition pde_coupling (p : par) (Ly : R) (P Q : nat -> nat -> pfield) (PU QU : pfield) (y x : R) : R :=
  if pzon p then (P 0%nat 0%nat y x - mean_y Ly PU x) - (Q 0%nat 0%nat y x - mean_y Ly QU x)
  else P 0%nat 0%nat y x - Q 0%nat 0%nat y x.
Definition pde_hyper (p : par) (D : nat -> nat -> pfield) (y x : R) : R :=
  (-1) ^ (pN p + 1) * pnu p * dlap_iter (pN p) D 0%nat 0%nat y x.
Definition pde_n (p : par) (Ly : R) (P Q : nat -> nat -> pfield) (PU QU : pfield) (y x : R) : R :=
  pc1 p * pde_coupling p Ly P Q PU QU y x - ppb p * bracket P Q y x
  - pkap p * P 1%nat 0%nat y x + pde_hyper p Q y x.
Definition pde_o (p : par) (Ly : R) (P Q O : nat -> nat -> pfield) (PU QU : pfield) (y x : R) : R :=
  pc1 p * pde_coupling p Ly P Q PU QU y x - ppb p * bracket P O y x + pde_hyper p O y x.

(** constants of the error bounds (times dx^2); Mp, Mq, Mo bound the
    derivatives of potential, density and vorticity *)
Definition zerr (p : par) (Mp Mq : R) : R := if pzon p then Rabs (pc1 p) * (Mp + Mq) / 24 else 0.
Definition err_n (p : par) (Mp Mq : R) : R :=
  zerr p Mp Mq + Rabs (ppb p) * (4 * Mp * Mq) + Rabs (pkap p) * (Mp / 6) + Rabs (pnu p) * (INR (pN p) * 2 ^ pN p / 12 * Mq).
Definition err_o (p : par) (Mp Mq Mo : R) : R :=
  zerr p Mp Mq + Rabs (ppb p) * (4 * Mp * Mo) + Rabs (pnu p) * (INR (pN p) * 2 ^ pN p / 12 * Mo).

(** finite sums of waves A cos(ky y + kx x + th) that fit into the box *)
Record cwave := mkWave { wA : R; wth : R; wk : Z; wl : Z }.
Definition kyw (Ly : R) (w : cwave) : R := 2 * PI * IZR (wk w) / Ly.
Definition kxw (Lx : R) (w : cwave) : R := 2 * PI * IZR (wl w) / Lx.
Definition wave (Ly Lx : R) (w : cwave) : pfield := fun y x => wA w * cos (kyw Ly w * y + kxw Lx w * x + wth w).
Definition wsum (g : cwave -> R) (ws : list cwave) : R := fold_right (fun w s => g w + s) 0 ws.
Definition trig (Ly Lx : R) (ws : list cwave) : pfield := fun y x => wsum (fun w => wave Ly Lx w y x) ws.
(** its derivatives: every one turns the phase by pi/2 *)
Definition trigD (Ly Lx : R) (ws : list cwave) (a b : nat) : pfield := fun y x =>
  wsum (fun w => kyw Ly w ^ a * kxw Lx w ^ b * wave Ly Lx (mkWave (wA w) (wth w + INR (a + b) * (PI / 2)) (wk w) (wl w)) y x) ws.
(** a bound of all derivatives up to order k *)
Definition trigM (Ly Lx : R) (ws : list cwave) (k : nat) : R :=
  wsum (fun w => (1 + Rabs (kyw Ly w) + Rabs (kxw Lx w)) ^ k * Rabs (wA w)) ws.
(** not constant, and at least two cells per wavelength (strictly more) *)
Definition resolved (ny nx : nat) (w : cwave) : Prop :=
  (2 * Z.abs (wk w) < Z.of_nat ny)%Z /\ (2 * Z.abs (wl w) < Z.of_nat nx)%Z /\ ~ (wk w = 0 /\ wl w = 0)%Z.
