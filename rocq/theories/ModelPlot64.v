(** Times and rows in binary64: the floor division, rounding and truncation with
    which the plots find the row of a time, as numpy and CPython do them.
    Source: /repo/src/hw2d/utils/plot/image.py:87-97, /repo/src/hw2d/utils/plot/movie.py:131-133, 167-174,
            /repo/src/hw2d/utils/plot/timetrace.py:143, 162, 319, 335.

    The numbers are those of the attributes of the file, which h5py returns as
    np.float64; a Python int (t, t0) is converted to binary64 by numpy before it
    takes part.  (np.arange and get_uniform_x are in ModelPlot.v for all kinds of
    numbers, TimeF64 included.) *)
From Coq Require Import Arith ZArith Bool Reals String List SpecFloat.
From Verif Require Import Num NdArray ModelIO ModelRun ModelRunHW ModelPlot.
Import ListNotations.
Local Open Scope string_scope.

(** 0.5, in numpy's floor_divide for image.py:93 *)
Definition half64 : f64 := S754_finite false 4503599627370496 (-53).

(** C's fmod (exact, with the sign of x), used by image.py:93 through numpy's
    floor_divide *)
Definition f64_fmod (x y : f64) : f64 :=
  match x, y with
  | S754_finite s m e, S754_finite _ m' e' =>
      let d := Z.min e e' in
      let r := ((Z.pos m * 2 ^ (e - d)) mod (Z.pos m' * 2 ^ (e' - d)))%Z in
      match r with
      | 0%Z => S754_zero s
      | _ => binary_normalize 53 1024 (if s then - r else r)%Z d s
      end
  | S754_zero _, (S754_finite _ _ _ | S754_infinity _) => x
  | S754_finite _ _ _, S754_infinity _ => x
  | _, _ => S754_nan
  end.
(** C's floor, image.py:93 through numpy's floor_divide *)
Definition f64_floor (x : f64) : f64 :=
  match x with
  | S754_finite s m e =>
      if (0 <=? e)%Z then x
      else match ((if s then - Z.pos m else Z.pos m) / 2 ^ (- e))%Z with
           | 0%Z => S754_zero s
           | a => f64_ofZ a
           end
  | _ => x
  end.
(** the sign bit, in numpy's floor_divide for image.py:93 *)
Definition f64_neg (x : f64) : bool :=
  match x with S754_zero s | S754_finite s _ _ | S754_infinity s => s | S754_nan => false end.
(** numpy's a // b for np.float64 (npy_floor_divide, npy_divmod): image.py:93,
    timetrace.py:143, 162, 319, 335 *)
Definition f64_floordiv (a b : f64) : f64 :=
  if SFeqb b (f64_ofZ 0) then SFdiv 53 1024 a b
  else
  let md := f64_fmod a b in
  let div := SFdiv 53 1024 (SFsub 53 1024 a md) b in
  let div := if negb (SFeqb md (f64_ofZ 0)) && xorb (SFltb b (f64_ofZ 0)) (SFltb md (f64_ofZ 0))
             then SFsub 53 1024 div (f64_ofZ 1) else div in
  if SFeqb div (f64_ofZ 0) then S754_zero (f64_neg (SFdiv 53 1024 a b))
  else
  let fl := f64_floor div in
  if SFltb half64 (SFsub 53 1024 div fl) then SFadd 53 1024 fl (f64_ofZ 1) else fl.

Section File.
Context {V : Type}.
(** attributes of the file as numbers: image.py:91, 93 *)
Definition attr_num64 (a : attr f64) : f64 := match a with AT t => t | AZ z => f64_ofZ z | AB b => f64_ofZ (if b then 1 else 0) end.
(** parameters.get("initial_time", 0): image.py:93, movie.py:167-171 *)
Definition initial_time64 (f : h5 V f64) : f64 :=
  match dget (attrs f) "initial_time" with Some a => attr_num64 a | None => f64_ofZ 0 end.
(** the length of a data set: image.py:97, movie.py:167 *)
Definition rows_len64 (f : h5 V f64) (name : string) : res nat :=
  let* d := dlook (dsets f) name in
  match d with Rows l => Ok (List.length l) | Whole _ => Exn Unmodelled end.
(** image.py:93-97: the row shown for time t *)
Definition image_row64 (f : h5 V f64) (t : f64) : res nat :=
  let* dt := dlook (attrs f) "frame_dt" in
  let* t_idx := f64_trunc (f64_floordiv (SFsub 53 1024 t (initial_time64 f)) (attr_num64 dt)) in
  let* n := rows_len64 f "density" in
  row_index n t_idx.
(** movie.py:131-133: int(round(time / dt)) *)
Definition time_to_length64 (time dt : f64) : res Z := f64_trunc (f64_rint (SFdiv 53 1024 time dt)).
(** movie.py:167-171: the first and the last row of the movie of equally spaced
    frames; t1 = None stands for the end of the file *)
Definition movie_rows64 (f : h5 V f64) (t0 : f64) (t1 : option f64) : res (Z * Z) :=
  let* dt := dlook (attrs f) "frame_dt" in
  let dt := attr_num64 dt in
  let* n := rows_len64 f "density" in
  let t1 := match t1 with Some t => t | None => SFmul 53 1024 (f64_ofZ (Z.of_nat n - 1)) dt end in
  let* a := time_to_length64 (SFsub 53 1024 t0 (initial_time64 f)) dt in
  let* b := time_to_length64 (SFsub 53 1024 t1 (initial_time64 f)) dt in
  Ok (a, b).
(** timetrace.py:143, 319: the first row drawn, for files of equally spaced frames *)
Definition start_index64 (f : h5 V f64) (t : f64) : res Z :=
  let* dt := dlook (attrs f) "frame_dt" in
  f64_trunc (f64_floordiv t (attr_num64 dt)).
End File.
