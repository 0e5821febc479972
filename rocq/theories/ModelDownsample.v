(** Down-sampling of saved frames.
    Source: /repo/src/hw2d/utils/downsample.py:1-67. *)
From Coq Require Import Arith ZArith Bool Reals List.
From Verif Require Import Num NdArray Cplx ModelRunHW.
Import ListNotations.

Section Ds.
Context {A : Type} `{Num A}.

(** downsample.py:20-23: the slices 0::2 and 1::2 *)
Definition s_evens : pslice := PS (Some 0%Z) None 2.
Definition s_odds : pslice := PS (Some 1%Z) None 2.

(** downsample.py:15-24: numpy axis [i] of an array of rank [rank] is position
    rank-1-i of the reversed shape *)
Fixpoint mean_ds_loop (rank : nat) (axes : list nat) (x : arr A) : nd A :=
  match axes with
  | [] => Ok x
  | i :: axes' =>
      let k := rank - 1 - i in
      if dim x k =? 1 then Ok x
      else
        let* y := div_ (add_ (Ok (slice_pos k s_evens x)) (Ok (slice_pos k s_odds x))) (sc (nofZ 2)) in
        mean_ds_loop rank axes' y
  end.
(** downsample.py:6-25 *)
Definition mean_downsample2x (x : nd A) : nd A :=
  let* a := x in
  let rank := length (shape a) in
  mean_ds_loop rank (seq 1 (rank - 1)) a.

(** downsample.py:38-42, x[::s] along one axis: a zero step is a ValueError; a
    negative one walks down from the last entry *)
Definition slice_step (k : nat) (s : Z) (x : arr A) : arr A :=
  if (0 <? s)%Z then slice_pos k (PS None None (Z.to_nat s)) x
  else
    let m := Z.to_nat (- s) in
    build (upd k (fun n => (n + (m - 1)) / m) (shape x))
          (fun ix => get x (upd k (fun i => dim x k - 1 - i * m) ix)).
(** downsample.py:28-43 (an integer factor; slices refuse any other number with
    a TypeError) *)
Definition skip_downsampleNx (x : nd A) (lowerscale : Z) : nd A :=
  let* a := x in
  let rank := length (shape a) in
  if (rank =? 0) then Exn IndexError
  else if (lowerscale =? 0)%Z && (2 <=? rank) then Exn ValueError
  else Ok (fold_left (fun y k => slice_step k lowerscale y) (seq 0 (rank - 1)) a).

(** downsample.py:49: the axes where the shapes differ, in numpy's order;
    both arguments are x.shape there *)
Definition differing_axes (s t : list nat) : list nat :=
  filter (fun i => negb (nth i s 0 =? nth i t 0)) (seq 0 (length s)).
(** downsample.py:52-53: np.insert(sh, pos, v) *)
Definition np_insert (sh : list nat) (pos v : nat) : list nat := firstn pos sh ++ v :: skipn pos sh.
(** downsample.py:46-59, an integer factor > 0.  [median] stands for np.median
    along a numpy axis, which no execution reaches; new_shape is only used in
    the loop. *)
Definition median_downsampleNx (median : nat -> arr A -> nd A) (x : nd A) (lowerscale : nat) : nd A :=
  let* a := x in
  match rev (shape a) with
  | [] => Exn IndexError
  | d0 :: ds =>
      let xshape := rev (shape a) in
      let new_shape := d0 :: map (fun d => d / lowerscale) ds in
      let along_axis := differing_axes xshape xshape in
      let sh := snd (fold_left (fun '(j, sh) i => (S j, np_insert sh (i + 1 + j) (nth i xshape 0 / nth i new_shape 0)))
                       along_axis (0, xshape)) in
      fold_left (fun y ax => let* b := y in median (ax + 1) b) along_axis
        (Ok (mkArr (rev sh) (data a)))
  end.
End Ds.

Local Open Scope R_scope.

(** scipy.signal.resample(f, num) of a real signal of length nx.  Its rfft: *)
Definition rfft1 (nx : nat) (f : nat -> R) (k : nat) : C :=
  csum nx (fun i => Cscal (f i) (wn nx (- (Z.of_nat k * Z.of_nat i)))).
(** the spectrum handed to irfft: the first min(num,nx)//2+1 coefficients, the
    Nyquist coefficient of the shorter length doubled when down-sampling,
    halved when up-sampling *)
Definition resample_spec (num nx : nat) (X : nat -> C) (k : nat) : C :=
  let N := Nat.min num nx in
  if (k <=? N / 2)%nat then
    if Nat.even N && (k =? N / 2)%nat then
      if (num <? nx)%nat then Cscal 2 (X k) else if (nx <? num)%nat then Cscal (1 / 2) (X k) else X k
    else X k
  else C0.
(** irfft to length num of coefficients 0..num//2, which takes the real part of
    the first and (for even num) the last one *)
Definition irfft1 (num : nat) (Y : nat -> C) (j : nat) : R :=
  (/ INR num * nsum (num / 2 + 1) (fun k =>
    (if (k =? 0)%nat || (2 * k =? num)%nat then 1 else 2) * re (Cmul (Y k) (wn num (Z.of_nat k * Z.of_nat j)))))%R.
(** the result is scaled by num/nx *)
Definition resample1 (num nx : nat) (f : nat -> R) (j : nat) : R :=
  irfft1 num (resample_spec num nx (rfft1 nx f)) j * (INR num / INR nx).

(** scipy.signal.resample(x, num, axis): an empty axis or a length below one is
    a ValueError of the transforms; position [k] counts from the last axis *)
Definition resample_pos (k : nat) (num : Z) (x : arr R) : nd R :=
  if (length (shape x) <=? k)%nat then Exn IndexError
  else if (num <? 1)%Z || (dim x k =? 0)%nat then Exn ValueError
  else
    let n := Z.to_nat num in
    Ok (build (upd k (fun _ => n) (shape x))
         (fun ix => resample1 n (dim x k) (fun i => get x (upd k (fun _ => i) ix)) (nth k ix 0%nat))).

(** round(n / lowerscale), downsample.py:64-65, and the same expression in
    run.py:169-170 and run2.py:216-217 *)
Definition round_div (n : nat) (lowerscale : R) : Z := R_round_even (INR n / lowerscale).
(** downsample.py:62-67 with the default axes (-1,-2), lowerscale <> 0 *)
Definition fourier_downsample (x : nd R) (lowerscale : R) : nd R :=
  let* a := x in
  match shape a with
  | nx :: ny :: _ =>
      let* b := resample_pos 0 (round_div nx lowerscale) a in
      resample_pos 1 (round_div ny lowerscale) b
  | _ => Exn IndexError
  end.
