(** Vocabulary: the three centred forms of dA/dx dB/dy - dA/dy dB/dx on a
    periodic grid, and their weighted sums. *)
From Coq Require Import Arith ZArith Reals.
From Verif Require Import Num NdArray Spec SpecHW.
Local Open Scope R_scope.

Section J.
Variables (ny nx : nat) (dx : R).
(** centred differences, not divided by the distance *)
Definition Dx (f : field) : field := fun i j => f i (sh nx j 1) - f i (sh nx j (-1)).
Definition Dy (f : field) : field := fun i j => f (sh ny i 1) j - f (sh ny i (-1)) j.
(** A_x B_y - A_y B_x, (A B_y)_x - (A B_x)_y, (B A_x)_y - (B A_y)_x *)
Definition j_adv (A B : field) : field := fun i j => (Dx A i j * Dy B i j - Dy A i j * Dx B i j) / (4 * dx ^ 2).
Definition j_fluxA (A B : field) : field := fun i j => (Dx (fmul A (Dy B)) i j - Dy (fmul A (Dx B)) i j) / (4 * dx ^ 2).
Definition j_fluxB (A B : field) : field := fun i j => (Dy (fmul B (Dx A)) i j - Dx (fmul B (Dy A)) i j) / (4 * dx ^ 2).
Definition j_mix (a b c : R) (A B : field) : field := fun i j => a * j_adv A B i j + b * j_fluxA A B i j + c * j_fluxB A B i j.
End J.
