(** Simulations that diverge. *)
From Coq Require Import Arith ZArith Bool String List Permutation Floats.SpecFloat.
From Verif Require Import Num NdArray ModelIO ModelRun SpecIO SpecRun.
Import ListNotations.

Section SpecDiverge.
Context {V T : Type} {TN : TimeNum T}.
Variable s : sim V T.
Variable c : cfg V T.

(** the density first sums to NaN after step [d] *)
Definition diverges_at (traj : nat -> plasma V T) (d : nat) : Prop :=
  1 <= d /\ (forall j, j < d -> s_nan s (p_density (traj j)) = false) /\ s_nan s (p_density (traj d)) = true.
(** and it does so after every later step up to [n] *)
Definition stays_diverged (traj : nat -> plasma V T) (d n : nat) : Prop :=
  forall j, d <= j <= n -> s_nan s (p_density (traj j)) = true.
(** [r] is the first recorded iteration from [d] on *)
Definition first_recorded (time : nat -> T) (d r : nat) : Prop :=
  d <= r /\ recorded c time r = true /\ forall j, d <= j < r -> recorded c time j = false.

(** entries of the file that hold a sound state *)
Definition sound (l : log V T) : Prop := Forall (fun tp => s_nan s (p_density (snd tp)) = false) l.

(** down-sampling and storing keep NaN *)
Definition keeps_nan (ds : V -> V) : Prop := forall v, s_nan s v = true -> s_nan s (s_f32V s (ds v)) = true.
End SpecDiverge.

(** binary64: what np.sum of a list may return.  numpy adds in blocks, pairwise
    and in lanes, so any order and bracketing is allowed. *)
Inductive sums : list f64 -> f64 -> Prop :=
| sums_one : forall x, sums [x] x
| sums_add : forall a b x y, sums a x -> sums b y -> sums (a ++ b) (SFadd 53 1024 x y)
| sums_perm : forall a b x, Permutation a b -> sums a x -> sums b x.
(** a field that no step can repair: a NaN, or infinities of both signs *)
Definition lost (a : arr f64) : Prop :=
  In S754_nan (data a) \/ (In (S754_infinity false) (data a) /\ In (S754_infinity true) (data a)).
