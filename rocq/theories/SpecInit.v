(** Vocabulary for statements about initial conditions. *)
From Coq Require Import Arith ZArith Reals.
From Verif Require Import Spec Cplx SpecFourier.
Local Open Scope R_scope.

(** mean zero, standard deviation one *)
Definition normalised (ny nx : nat) (v : nat -> nat -> R) : Prop :=
  gmean ny nx v = 0 /\ gmean ny nx (fun i j => v i j ^ 2) = 1.

(** bin of the frequency opposite to that of bin k *)
Definition opposite (n k : nat) : nat := if (k =? 0)%nat then 0%nat else (n - k)%nat.

(** some wave other than the mean is present in the real part of the draw *)
Definition some_wave (ny nx : nat) (re_ im_ : nat -> nat -> R) : Prop :=
  exists a b, (a < ny)%nat /\ (b < nx)%nat /\ (a <> 0 \/ b <> 0)%nat /\
    (re_ a b + re_ (opposite ny a) (opposite nx b) <> 0 \/ im_ a b <> im_ (opposite ny a) (opposite nx b)).

(** the band [lo, hi] contains an interval; 0 stands for "no bound" *)
Definition proper_band (lo hi : R) : Prop := lo = 0 \/ hi = 0 \/ lo < hi.

(** squared length of the wave vector of a bin, in waves per unit length, for a
    box of the given size *)
Definition wave_sq (ny nx : nat) (size : R) (a b : nat) : R :=
  (IZR (sfreq ny a) / size) ^ 2 + (IZR (sfreq nx b) / size) ^ 2.

(** the smooth band filter: close to 1 between lo and hi, close to 0 outside;
    0 stands for "no bound" *)
Definition logistic (t : R) : R := 1 / (1 + exp (- t)).
Definition gain (lo hi q : R) : R :=
  (if Req_EM_T lo 0 then 1 else logistic (1000 * (q - lo))) - (if Req_EM_T hi 0 then 0 else logistic (1000 * (q - hi))).

(** the function get_2d_sine samples along one axis; the box is [0, 1) *)
Definition sine_profile (L s : R) : R := sin (2 * PI * L * s + 1).

(** the field v has the waves of the draw, with amplitudes s c gain(q)/q for the
    band from 1/(100 L) to n/(12 L) of SQUARED frequencies, in a box of size L *)
Definition init_wave (n : nat) (L s c : R) (dr : (nat -> nat -> R) * (nat -> nat -> R)) (v : nat -> nat -> R) : Prop :=
  forall a b, (a < n)%nat -> (b < n)%nat -> (a <> 0 \/ b <> 0)%nat ->
    let q := wave_sq n n L a b in
    dft2 n n (fun i j => RtoC (v i j)) (Z.of_nat a) (Z.of_nat b)
    = Cscal (s * c * (gain (/ (100 * L)) (INR n / (12 * L)) q / q))
        (mkC (fst dr a b + fst dr (opposite n a) (opposite n b)) (snd dr a b - snd dr (opposite n a) (opposite n b))).
