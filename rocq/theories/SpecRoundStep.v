(** Vocabulary of the theorems on rounding errors of whole time steps.
    Independent of the model. *)
From Coq Require Import ZArith Reals SpecFloat Bool.
From Verif Require Import Num NdArray Spec SpecHW SpecRound.
Local Open Scope R_scope.

(** all values of a real field on the grid are at most [b] in size *)
Definition bdd (ny nx : nat) (b : R) (f : field) : Prop :=
  forall i j, (i < ny)%nat -> (j < nx)%nat -> Rabs (f i j) <= b.
Definition sbdd (ny nx : nat) (b : R) (y : state) : Prop := bdd ny nx b (fst y) /\ bdd ny nx b (snd y).

(** the inverse Laplacian enlarges fields at most by the factor [Lam] *)
Definition inv_bound (ny nx : nat) (h Lam : R) : Prop :=
  forall f b, bdd ny nx b f -> bdd ny nx (Lam * b) (invlap ny nx h f).

(** change of the time derivatives when the potential is changed by at most
    [d], for fields of size [B] *)
Definition phi_err (p : par) (h d B : R) : R :=
  Rabs (pc1 p) * ((if pzon p then 2 else 1) * d) + Rabs (ppb p) * (2 * (d * B) / h ^ 2) + Rabs (pkap p) * (d / h).

(** Lipschitz constant of the system on fields of size [B] *)
Definition lip (p : par) (h Lam B : R) : R :=
  Rabs (pc1 p) * ((if pzon p then 2 else 1) * (Lam + 1)) + Rabs (ppb p) * (4 * (Lam * B) / h ^ 2)
  + Rabs (pkap p) * (Lam / h) + Rabs (pnu p) * (8.01 / h ^ 2) ^ pN p.

(** error of one computed time derivative: rounding of terms of total size
    [S], and potential off by [d] *)
Definition rhs_err (p : par) (ny : nat) (h d B S : R) : R := (roundings p ny + 2.1) * uro * S + phi_err p h d B.

(** error of one computed step of length [t] *)
Definition step_err (p : par) (ny : nat) (h d B S t : R) : R := 2 * t * rhs_err p ny h d B S + 10 * uro * B.

(** a potential solver that, for every vorticity of size [B], returns a
    potential of size [P] within [d] of the exact one *)
Definition solves64 (ny nx : nat) (dx : f64) (get_phi : nd f64 -> f64 -> nd f64) (B P d : R) : Prop :=
  forall om, bounded64 ny nx B om ->
  exists phi, get_phi (Ok (grid ny nx om)) dx = Ok (grid ny nx phi) /\ bounded64 ny nx P phi /\
    forall i j, (i < ny)%nat -> (j < nx)%nat -> near (phi i j) (invlap ny nx (fval dx) (values om) i j) d.

(** two binary64 fields are finite and within [e] of the real state [y] *)
Definition close64 (ny nx : nat) (e : R) (n o : nat -> nat -> f64) (y : state) : Prop :=
  forall i j, (i < ny)%nat -> (j < nx)%nat -> near (n i j) (fst y i j) e /\ near (o i j) (snd y i j) e.

(** all states on the way *)
Definition stays (ny nx : nat) (b : R) (step : state -> state) (k : nat) (y : state) : Prop :=
  forall j, (j <= k)%nat -> sbdd ny nx b (iter_step step j y).

(** [phi] is of size [P] and within [d] of the exact potential of [o] *)
Definition pot64 (ny nx : nat) (dx : f64) (P d : R) (phi o : nat -> nat -> f64) : Prop :=
  bounded64 ny nx P phi /\
  forall i j, (i < ny)%nat -> (j < nx)%nat -> near (phi i j) (invlap ny nx (fval dx) (values o) i j) d.
