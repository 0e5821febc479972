(** Arakawa's Poisson bracket: every implementation in hw2d.
    Source: /repo/src/hw2d/poisson_bracket/{numpy,numba,phiml}_arakawa.py *)
From Coq Require Import List Arith ZArith Bool.
From Verif Require Import Num NdArray.
Import ListNotations.

Section Arakawa.
Context {A : Type} {N : Num A}.
Local Notation "x +. y" := (nadd x y) (at level 50, left associativity).
Local Notation "x -. y" := (nsub x y) (at level 50, left associativity).
Local Notation "x *. y" := (nmul x y) (at level 40, left associativity).
Local Notation "x /. y" := (ndiv x y) (at level 40, left associativity).

(** [4 * dx**2], [12 * dx**2] *)
Definition four_dx2 (dx : A) : A := nofZ 4 *. npow dx 2.
Definition twelve_dx2 (dx : A) : A := nofZ 12 *. npow dx 2.

(** numpy_arakawa.py:21-37 [jpp]; z and p read zeta and psi at [row, col] *)
Definition np_jpp (z p : nat -> nat -> A) (dx : A) (i j : nat) : A :=
  ((z j (i + 1) -. z j (i - 1)) *. (p (j + 1) i -. p (j - 1) i)
   -. (z (j + 1) i -. z (j - 1) i) *. (p j (i + 1) -. p j (i - 1))) /. four_dx2 dx.

(** numpy_arakawa.py:40-59 [jpx] *)
Definition np_jpx (z p : nat -> nat -> A) (dx : A) (i j : nat) : A :=
  (z j (i + 1) *. (p (j + 1) (i + 1) -. p (j - 1) (i + 1))
   -. z j (i - 1) *. (p (j + 1) (i - 1) -. p (j - 1) (i - 1))
   -. z (j + 1) i *. (p (j + 1) (i + 1) -. p (j + 1) (i - 1))
   +. z (j - 1) i *. (p (j - 1) (i + 1) -. p (j - 1) (i - 1))) /. four_dx2 dx.

(** numpy_arakawa.py:62-81 [jxp] *)
Definition np_jxp (z p : nat -> nat -> A) (dx : A) (i j : nat) : A :=
  (z (j + 1) (i + 1) *. (p (j + 1) i -. p j (i + 1))
   -. z (j - 1) (i - 1) *. (p j (i - 1) -. p (j - 1) i)
   -. z (j + 1) (i - 1) *. (p (j + 1) i -. p j (i - 1))
   +. z (j - 1) (i + 1) *. (p j (i + 1) -. p (j - 1) i)) /. four_dx2 dx.

(** is (j, i) inside range(1, ny-1) x range(1, nx-1)? *)
Definition interior (ny nx j i : nat) : bool :=
  (1 <=? j) && (j <? ny - 1) && (1 <=? i) && (i <? nx - 1).

(** numpy_arakawa.py:84-104 [arakawa]: the double loop fills the interior of
    np.empty_like; [junk] is the uninitialised memory left in the border.
    A psi too small for the reads raises IndexError.  Floating dtype assumed
    (empty_like of an integer array would truncate). *)
Definition np_arakawa (junk : nat -> nat -> A) (zeta psi : nd A) (dx : A) : nd A :=
  let* z := zeta in let* p := psi in
  match shape z, shape p with
  | [nx; ny], [nx'; ny'] =>
      if (2 <? nx) && (2 <? ny) && ((nx' <? nx) || (ny' <? ny)) then Exn IndexError
      else Ok (grid ny nx (fun j i =>
        (if interior ny nx j i
         then np_jpp (at2 z) (at2 p) dx i j +. np_jpx (at2 z) (at2 p) dx i j
              +. np_jxp (at2 z) (at2 p) dx i j
         else junk j i) /. nofZ 3))
  | _, _ => Exn IndexError
  end.

(** numpy_arakawa.py:107-121 [periodic_arakawa] *)
Definition np_periodic_arakawa (junk : nat -> nat -> A) (zeta psi : nd A) (dx : A) : nd A :=
  slf2 s_mid s_mid (np_arakawa junk (pad_all 1 zeta) (pad_all 1 psi) dx).

Local Open Scope nd_scope.

(** numpy_arakawa.py:127-153 [arakawa_vec] *)
Definition np_arakawa_vec (zeta psi : nd A) (dx : A) : nd A :=
  let z sy sx := slf2 sy sx zeta in
  let p sy sx := slf2 sy sx psi in
  (z s_mid s_hi * (p s_hi s_mid - p s_lo s_mid + p s_hi s_hi - p s_lo s_hi)
   - z s_mid s_lo * (p s_hi s_mid - p s_lo s_mid + p s_hi s_lo - p s_lo s_lo)
   - z s_hi s_mid * (p s_mid s_hi - p s_mid s_lo + p s_hi s_hi - p s_hi s_lo)
   + z s_lo s_mid * (p s_mid s_hi - p s_mid s_lo + p s_lo s_hi - p s_lo s_lo)
   + z s_lo s_hi * (p s_mid s_hi - p s_lo s_mid)
   + z s_hi s_hi * (p s_hi s_mid - p s_mid s_hi)
   - z s_hi s_lo * (p s_hi s_mid - p s_mid s_lo)
   - z s_lo s_lo * (p s_mid s_lo - p s_lo s_mid)) / sc (twelve_dx2 dx).

(** numpy_arakawa.py:156-170 [periodic_arakawa_vec] *)
Definition np_periodic_arakawa_vec (zeta psi : nd A) (dx : A) : nd A :=
  np_arakawa_vec (pad_all 1 zeta) (pad_all 1 psi) dx.

(** numba_arakawa.py:75-91 [arakawa_vec] *)
Definition nb_arakawa_vec (zeta psi : nd A) (dx : A) : nd A :=
  let z sy sx := slf2 sy sx zeta in
  let p sy sx := slf2 sy sx psi in
  (z s_mid s_hi * (p s_hi s_mid - p s_lo s_mid + p s_hi s_hi - p s_lo s_hi)
   - z s_mid s_lo * (p s_hi s_mid - p s_lo s_mid + p s_hi s_lo - p s_lo s_lo)
   - z s_hi s_mid * (p s_mid s_hi - p s_mid s_lo + p s_hi s_hi - p s_hi s_lo)
   + z s_lo s_mid * (p s_mid s_hi - p s_mid s_lo + p s_lo s_hi - p s_lo s_lo)
   + z s_lo s_hi * (p s_mid s_hi - p s_lo s_mid)
   + z s_hi s_hi * (p s_hi s_mid - p s_mid s_hi)
   - z s_hi s_lo * (p s_hi s_mid - p s_mid s_lo)
   - z s_lo s_lo * (p s_mid s_lo - p s_lo s_mid)) / sc (twelve_dx2 dx).

(** numba_arakawa.py:94-95 [periodic_arakawa_vec] *)
Definition nb_periodic_arakawa_vec (zeta psi : nd A) (dx : A) : nd A :=
  nb_arakawa_vec (pad_all 1 zeta) (pad_all 1 psi) dx.

Local Close Scope nd_scope.

(** numba's @stencil: the kernel is evaluated at interior points with reads
    relative to the point ([z dy dx] = zeta[dy, dx] of the kernel text), the
    border is filled with 0; a second array smaller than the first is a
    ValueError. *)
Definition stencil (kernel : (Z -> Z -> A) -> (Z -> Z -> A) -> A) (zeta psi : nd A) : nd A :=
  let* z := zeta in let* p := psi in
  match shape z, shape p with
  | [nx; ny], [nx'; ny'] =>
      if (nx' <? nx) || (ny' <? ny) then Exn ValueError
      else Ok (grid ny nx (fun i j =>
        if interior ny nx i j
        then let rd (a : arr A) (dy dx : Z) :=
               at2 a (Z.to_nat (Z.of_nat i + dy)) (Z.to_nat (Z.of_nat j + dx)) in
             kernel (rd z) (rd p)
        else nzero))
  | _, _ => Exn ValueError
  end.

Local Open Scope Z_scope.
(** numba_arakawa.py:5-10 [jpp] *)
Definition nb_jpp (d : A) (z p : Z -> Z -> A) : A :=
  ((z 0 1 -. z 0 (-1)) *. (p 1 0 -. p (-1) 0)
   -. (z 1 0 -. z (-1) 0) *. (p 0 1 -. p 0 (-1))) /. four_dx2 d.
(** numba_arakawa.py:13-20 [jpx] *)
Definition nb_jpx (d : A) (z p : Z -> Z -> A) : A :=
  (z 0 1 *. (p 1 1 -. p (-1) 1)
   -. z 0 (-1) *. (p 1 (-1) -. p (-1) (-1))
   -. z 1 0 *. (p 1 1 -. p 1 (-1))
   +. z (-1) 0 *. (p (-1) 1 -. p (-1) (-1))) /. four_dx2 d.
(** numba_arakawa.py:23-30 [jxp] *)
Definition nb_jxp (d : A) (z p : Z -> Z -> A) : A :=
  (z 1 1 *. (p 1 0 -. p 0 1)
   -. z (-1) (-1) *. (p 0 (-1) -. p (-1) 0)
   -. z 1 (-1) *. (p 1 0 -. p 0 (-1))
   +. z (-1) 1 *. (p 0 1 -. p (-1) 0)) /. four_dx2 d.

(** numba_arakawa.py:45-56 [arakawa_stencil] *)
Definition nb_kernel (z p : Z -> Z -> A) : A :=
  z 0 1 *. (p 1 0 -. p (-1) 0 +. p 1 1 -. p (-1) 1)
  -. z 0 (-1) *. (p 1 0 -. p (-1) 0 +. p 1 (-1) -. p (-1) (-1))
  -. z 1 0 *. (p 0 1 -. p 0 (-1) +. p 1 1 -. p 1 (-1))
  +. z (-1) 0 *. (p 0 1 -. p 0 (-1) +. p (-1) 1 -. p (-1) (-1))
  +. z (-1) 1 *. (p 0 1 -. p (-1) 0)
  +. z 1 1 *. (p 1 0 -. p 0 1)
  -. z 1 (-1) *. (p 1 0 -. p 0 (-1))
  -. z (-1) (-1) *. (p 0 (-1) -. p (-1) 0).
Local Close Scope Z_scope.

Local Open Scope nd_scope.
(** numba_arakawa.py:33-35 [arakawa] *)
Definition nb_arakawa (zeta psi : nd A) (dx : A) : nd A :=
  (stencil (nb_jpp dx) zeta psi + stencil (nb_jpx dx) zeta psi + stencil (nb_jxp dx) zeta psi)
  / sc (nofZ 3).

(** numba_arakawa.py:38-41 [periodic_arakawa] *)
Definition nb_periodic_arakawa (zeta psi : nd A) (dx : A) : nd A :=
  slf2 s_mid s_mid (nb_arakawa (pad_all 1 zeta) (pad_all 1 psi) dx).

(** numba_arakawa.py:59-61 [arakawa_stencil_full] *)
Definition nb_arakawa_stencil_full (zeta psi : nd A) (dx : A) : nd A :=
  slf2 s_mid s_mid (stencil nb_kernel zeta psi) / sc (twelve_dx2 dx).

(** numba_arakawa.py:64-69 [periodic_arakawa_stencil] *)
Definition nb_periodic_arakawa_stencil (zeta psi : nd A) (dx : A) : nd A :=
  nb_arakawa_stencil_full (pad_all 1 zeta) (pad_all 1 psi) dx.

(** phiml_arakawa.py:86-113 [arakawa_vec]; [t.y[a].x[b]] is the slice a of the
    rows (dimension y) and b of the columns (dimension x). *)
Definition pm_arakawa_vec (zeta psi : nd A) (dx : A) : nd A :=
  let z sy sx := sl2 sy sx zeta in
  let p sy sx := sl2 sy sx psi in
  (z s_hi s_mid * (p s_mid s_hi - p s_mid s_lo + p s_hi s_hi - p s_hi s_lo)
   - z s_lo s_mid * (p s_mid s_hi - p s_mid s_lo + p s_lo s_hi - p s_lo s_lo)
   - z s_mid s_hi * (p s_hi s_mid - p s_lo s_mid + p s_hi s_hi - p s_lo s_hi)
   + z s_mid s_lo * (p s_hi s_mid - p s_lo s_mid + p s_hi s_lo - p s_lo s_lo)
   + z s_hi s_lo * (p s_hi s_mid - p s_mid s_lo)
   + z s_hi s_hi * (p s_mid s_hi - p s_hi s_mid)
   - z s_lo s_hi * (p s_mid s_hi - p s_lo s_mid)
   - z s_lo s_lo * (p s_lo s_mid - p s_mid s_lo)) / sc (twelve_dx2 dx).

(** phiml_arakawa.py:116-133 [periodic_arakawa_vec] *)
Definition pm_periodic_arakawa_vec (zeta psi : nd A) (dx : A) : nd A :=
  pm_arakawa_vec (pad_last2 zeta) (pad_last2 psi) dx.

End Arakawa.
