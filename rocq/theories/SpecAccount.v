(** Energy and enstrophy carried along with the fields: the rates the code
    reports, and what a step adds to a carried number. *)
From Coq Require Import List Arith ZArith Reals.
From Verif Require Import Num NdArray Spec SpecFourier SpecHW.
Import ListNotations.
Local Open Scope R_scope.

(** sources and sinks of the balance equations as the code defines them:
    Gamma_n - Gamma_c - D_E and Gamma_n - D_U with
    Gamma_n = - mean(n d_y phi), Gamma_c = c1 mean((n - phi)^2),
    D_E = mean(n D_n - phi D_phi), D_U = - mean((n - o)(D_n - D_phi)) *)
Definition reported_dE (p : par) (ny nx : nat) (dx : R) (y : state) : R :=
  let n := fst y in let phi := invlap ny nx dx (snd y) in
  - gmean ny nx (fun i j => n i j * cdy ny dx phi i j)
  - pc1 p * gmean ny nx (fun i j => (n i j - phi i j) ^ 2)
  - gmean ny nx (fun i j => n i j * hyper p ny nx dx n i j - phi i j * hyper p ny nx dx phi i j).
Definition reported_dU (p : par) (ny nx : nat) (dx : R) (y : state) : R :=
  let n := fst y in let o := snd y in let phi := invlap ny nx dx o in
  - gmean ny nx (fun i j => n i j * cdy ny dx phi i j)
  + gmean ny nx (fun i j => (n i j - o i j) * (hyper p ny nx dx n i j - hyper p ny nx dx phi i j)).

(** what one step adds to a number e with e' = r(y) carried beside y' = F y *)
Definition euler_gain (r : state -> R) (dt : R) (y : state) : R := dt * r y.
Definition rk4_gain (F : state -> state) (r : state -> R) (dt : R) (y : state) : R :=
  let y1 := sadd y (sscale (dt / 2) (F y)) in
  let y2 := sadd y (sscale (dt / 2) (F y1)) in
  let y3 := sadd y (sscale dt (F y2)) in
  dt / 6 * (r y + 2 * r y1 + 2 * r y2 + r y3).
(** sum of g over the first k states of the iteration *)
Fixpoint along (step : state -> state) (g : state -> R) (k : nat) (y : state) : R :=
  match k with O => 0 | S k' => g y + along step g k' (step y) end.

(** enstrophy mean((n - o)^2) / 2 *)
Definition enstrophy (ny nx : nat) (y : state) : R :=
  gmean ny nx (fun i j => (fst y i j - snd y i j) ^ 2) / 2.
Definition energy (ny nx : nat) (dx : R) (y : state) : R := spec_energy ny nx dx (fst y) (snd y).
