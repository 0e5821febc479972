(** Finite-difference operators of hw2d.
    Source: /repo/src/hw2d/gradients/{numpy,numba,phiml}_gradients.py *)
From Coq Require Import List Arith ZArith Bool.
From Verif Require Import Num NdArray.
Import ListNotations.
Local Open Scope nd_scope.

Section Gradients.
Context {A : Type} {N : Num A}.

(** numpy_gradients.py:22-39 [laplace]: the slices and the order of the
    operations are those of the source. *)
Definition np_laplace (padded : nd A) (dx : A) : nd A :=
  (sl2 s_lo s_mid padded
   + sl2 s_mid s_lo padded
   - sc (nofZ 4) * sl2 s_mid s_mid padded
   + sl2 s_mid s_hi padded
   + sl2 s_hi s_mid padded) / sc (npow dx 2).

(** numpy_gradients.py:53-57 and :134-140: pad width chosen by rank. *)
Definition np_pad_by_rank (x : nd A) : nd A :=
  let* a := x in
  if 2 <? length (shape a) then pad_last2 (Ok a) else pad_all 1 (Ok a).

(** numpy_gradients.py:42-58 [periodic_laplace] *)
Definition np_periodic_laplace (x : nd A) (dx : A) : nd A :=
  np_laplace (np_pad_by_rank x) dx.

(** [for _ in range(n): arr = f arr] *)
Fixpoint loop {B} (n : nat) (f : B -> B) (x : B) : B :=
  match n with O => x | S n' => loop n' f (f x) end.

(** numpy_gradients.py:61-75 [periodic_laplace_N]; range(N) is empty for N < 0 *)
Definition np_periodic_laplace_N (x : nd A) (dx : A) (n : Z) : nd A :=
  loop (Z.to_nat n) (fun a => np_periodic_laplace a dx) x.

(** numpy_gradients.py:100-119 [gradient]; an unknown axis falls through and
    returns None. *)
Definition np_gradient (padded : nd A) (dx : A) (axis : Z) : option (nd A) :=
  let d := sc (nmul (nofZ 2) dx) in
  if (axis =? 0)%Z then Some ((slf2 s_hi s_mid padded - slf2 s_lo s_mid padded) / d)
  else if (axis =? 1)%Z then Some ((slf2 s_mid s_hi padded - slf2 s_mid s_lo padded) / d)
  else if (axis =? -2)%Z then Some ((sl2 s_hi s_mid padded - sl2 s_lo s_mid padded) / d)
  else if (axis =? -1)%Z then Some ((sl2 s_mid s_hi padded - sl2 s_mid s_lo padded) / d)
  else None.

(** numpy_gradients.py:122-141 [periodic_gradient].  Outer [option]: Python
    None; inner [res]: exceptions.  np.pad runs before the axis test. *)
Definition np_periodic_gradient (x : nd A) (dx : A) (axis : Z) : res (option (arr A)) :=
  let* p := (if (axis <? 0)%Z then pad_last2 x else pad_all 1 x) in
  match np_gradient (Ok p) dx axis with
  | None => Ok None
  | Some r => let* a := r in Ok (Some a)
  end.

(** numba_gradients.py:5-23 [laplace] (jit, no fastmath: same operations in
    the same order; the two slices address the first two axes) *)
Definition nb_laplace (padded : nd A) (dx : A) : nd A :=
  (slf2 s_lo s_mid padded
   + slf2 s_mid s_lo padded
   - sc (nofZ 4) * slf2 s_mid s_mid padded
   + slf2 s_mid s_hi padded
   + slf2 s_hi s_mid padded) / sc (npow dx 2).

(** numba_gradients.py:26-37 [periodic_laplace] *)
Definition nb_periodic_laplace (x : nd A) (dx : A) : nd A :=
  nb_laplace (pad_all 1 x) dx.

(** numba_gradients.py:40-55 [laplace_N] *)
Definition nb_laplace_N (x : nd A) (dx : A) (n : Z) : nd A :=
  loop (Z.to_nat n) (fun a => nb_laplace a dx) x.

(** numba_gradients.py:58-70 [periodic_laplace_N]: pads once by N (np.pad
    rejects a negative width with ValueError), then shrinks N times. *)
Definition nb_periodic_laplace_N (x : nd A) (dx : A) (n : Z) : nd A :=
  let* a := x in
  if (n <? 0)%Z then Exn ValueError
  else nb_laplace_N (pad_all (Z.to_nat n) (Ok a)) dx n.

(** numba_gradients.py:73-89 [gradient] *)
Definition nb_gradient (padded : nd A) (dx : A) (axis : Z) : option (nd A) :=
  let d := sc (nmul (nofZ 2) dx) in
  if (axis =? 0)%Z then Some ((slf2 s_hi s_mid padded - slf2 s_lo s_mid padded) / d)
  else if (axis =? 1)%Z then Some ((slf2 s_mid s_hi padded - slf2 s_mid s_lo padded) / d)
  else None.

(** numba_gradients.py:92-105 [periodic_gradient] *)
Definition nb_periodic_gradient (x : nd A) (dx : A) (axis : Z) : res (option (arr A)) :=
  let* p := pad_all 1 x in
  match nb_gradient (Ok p) dx axis with
  | None => Ok None
  | Some r => let* a := r in Ok (Some a)
  end.

(** phiml_gradients.py:40-56 [periodic_laplace]: pm.convolve with a periodic
    extrapolation and kernel [[0,1,0],[1,-4,1],[0,1,0]], modelled as the
    same-size periodic correlation over the last two axes (the kernel is
    symmetric, so correlation and convolution coincide; the zero entries of
    the kernel and the summation order inside phiml are left out, which is
    why nothing bit-exact is claimed of it). *)
Definition pm_periodic_laplace (x : nd A) (dx : A) : nd A :=
  let* a := x in
  match shape a with
  | [nx; ny] =>
      Ok (grid ny nx (fun i j =>
        let p di dj := at2 a (pidx ny (Z.of_nat i + di)) (pidx nx (Z.of_nat j + dj)) in
        ndiv (nadd (nadd (nadd (nadd (p (-1)%Z 0%Z) (p 0%Z (-1)%Z)) (nmul (nofZ (-4)) (p 0%Z 0%Z)))
                   (p 0%Z 1%Z)) (p 1%Z 0%Z)) (npow dx 2)))
  | _ => Exn ValueError
  end.

(** phiml_gradients.py:59-74 [periodic_laplace_N] *)
Definition pm_periodic_laplace_N (x : nd A) (dx : A) (n : Z) : nd A :=
  loop (Z.to_nat n) (fun a => pm_periodic_laplace a dx) x.

(** phiml_gradients.py:120-132 [periodic_gradient]: pm.spatial_gradient with
    difference="central" and periodic padding along the named dimension.
    [along_y] says whether the dimension is "y" (rows) or "x" (columns). *)
Definition pm_periodic_gradient (x : nd A) (dx : A) (along_y : bool) : nd A :=
  let* a := x in
  match shape a with
  | [nx; ny] =>
      Ok (grid ny nx (fun i j =>
        let p di dj := at2 a (pidx ny (Z.of_nat i + di)) (pidx nx (Z.of_nat j + dj)) in
        ndiv (if along_y then nsub (p 1%Z 0%Z) (p (-1)%Z 0%Z) else nsub (p 0%Z 1%Z) (p 0%Z (-1)%Z))
             (nmul dx (nofZ 2))))
  | _ => Exn ValueError
  end.

End Gradients.
