(** Plane waves on the grid and the amplitude equations they obey, written
    down independently of the code. *)
From Coq Require Import List Arith ZArith Reals Bool.
From Verif Require Import Num NdArray Spec Cplx SpecFourier SpecHW.
Local Open Scope R_scope.

Section W.
Variables (ny nx : nat) (k l : Z).
(** phase at cell (i, j): k periods along y, l along x *)
Definition phase (i j : nat) : R := 2 * PI * IZR k / INR ny * INR i + 2 * PI * IZR l / INR nx * INR j.
(** real part of z exp(i phase) *)
Definition pwave (z : C) : field := fun i j => re z * cos (phase i j) - im z * sin (phase i j).
End W.

(** more than two cells per wavelength, not constant *)
Definition fits (ny nx : nat) (k l : Z) : Prop :=
  (2 * Z.abs k < Z.of_nat ny)%Z /\ (2 * Z.abs l < Z.of_nat nx)%Z /\ ~ (k = 0 /\ l = 0)%Z.

(** central difference along an axis with n cells: i sin(2 pi k / n) / dx *)
Definition gsym (n : nat) (dx : R) (k : Z) : R := sin (2 * PI * IZR k / INR n) / dx.
(** minus the five-point Laplacian *)
Definition lsym (ny nx : nat) (dx : R) (k l : Z) : R :=
  4 * (sin (PI * IZR k / INR ny) ^ 2 + sin (PI * IZR l / INR nx) ^ 2) / dx ^ 2.
(** square of the wave number *)
Definition ksq (ny nx : nat) (dx : R) (k l : Z) : R :=
  (2 * PI * IZR k / (INR ny * dx)) ^ 2 + (2 * PI * IZR l / (INR nx * dx)) ^ 2.

(** amplitudes (density, vorticity) *)
Notation amps := (C * C)%type.
Definition aadd (v w : amps) : amps := (Cadd (fst v) (fst w), Cadd (snd v) (snd w)).
Definition ascal (c : R) (v : amps) : amps := (Cscal c (fst v), Cscal c (snd v)).
Definition amul (c : C) (v : amps) : amps := (Cmul c (fst v), Cmul c (snd v)).

Section A.
Variables (p : par) (ny nx : nat) (dx : R) (k l : Z).
(** the coupling acts on every wave, except on zonal ones (k = 0) when it is
    restricted to deviations from the average over y *)
Definition c1_of : R := if (pzon p && (k =? 0)%Z)%bool then 0 else pc1 p.
(** damping rate of the hyper-diffusion *)
Definition damp : R := pnu p * lsym ny nx dx k l ^ pN p.
(** the linear system for the amplitudes: phi = - o / k^2,
    n' = c1 (phi - n) - i kappa g phi - damp n,  o' = c1 (phi - n) - damp o *)
Definition amp_rhs (v : amps) : amps :=
  let phi := Cscal (- / ksq ny nx dx k l) (snd v) in
  let cp := Cscal c1_of (Csub phi (fst v)) in
  (Csub (Csub cp (Cmul (mkC 0 (pkap p * gsym ny dx k)) phi)) (Cscal damp (fst v)),
   Csub cp (Cscal damp (snd v))).
(** exponential series cut after the first / fourth power *)
Definition amp_euler (dt : R) (v : amps) : amps := aadd v (ascal dt (amp_rhs v)).
Definition amp_rk4 (dt : R) (v : amps) : amps :=
  let v1 := amp_rhs v in let v2 := amp_rhs v1 in let v3 := amp_rhs v2 in let v4 := amp_rhs v3 in
  aadd v (aadd (ascal dt v1) (aadd (ascal (dt ^ 2 / 2) v2) (aadd (ascal (dt ^ 3 / 6) v3) (ascal (dt ^ 4 / 24) v4)))).
(** growth rate of the drift wave without damping: the larger real part of the
    roots of mu^2 + b mu + i e = 0 *)
Definition drift_b : R := c1_of * (1 + / ksq ny nx dx k l).
Definition drift_e : R := c1_of * (pkap p * gsym ny dx k) / ksq ny nx dx k l.
Definition drift_u : R := sqrt ((drift_b ^ 2 + sqrt (drift_b ^ 4 + 16 * drift_e ^ 2)) / 2).
Definition drift_rate : R := (drift_u - drift_b) / 2.
Definition wstate (v : amps) : state := (pwave ny nx k l (fst v), pwave ny nx k l (snd v)).
End A.

Fixpoint aiter (f : amps -> amps) (m : nat) (v : amps) : amps :=
  match m with O => v | S m' => aiter f m' (f v) end.

(** 1 + z + z^2/2 + z^3/6 + z^4/24 *)
Definition growth4 (z : C) : C :=
  Cadd C1 (Cadd z (Cadd (Cscal (/ 2) (Cpow z 2)) (Cadd (Cscal (/ 6) (Cpow z 3)) (Cscal (/ 24) (Cpow z 4))))).
Definition growth4R (x : R) : R := 1 + x + x ^ 2 / 2 + x ^ 3 / 6 + x ^ 4 / 24.

(** no coupling, no drift, no bracket: hyper-diffusion only *)
Definition pure_diffusion (N : nat) (nu : R) (zon : bool) : par := mkPar N 0 nu 0 0 zon.
(** alternating signs *)
Definition checker : field := fun i j => (-1) ^ (i + j).
