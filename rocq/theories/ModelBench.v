(** The benchmark script.
    Source: /repo/src/hw2d/utils/performance_comparison.py.
    Times are not modelled.  perfplot.bench (a library) calls
    setup(n) for each size, then every kernel on the result, and raises
    PerfplotError unless np.allclose(reference, value) holds for the value of
    every kernel but the first, whose value is the reference; it stops early
    when max_time is used up.  Arithmetic is exact. *)
From Coq Require Import List Arith ZArith Bool Reals String.
From Verif Require Import Num NdArray ModelGradients ModelArakawa ModelPoisson.
Import ListNotations.
Local Open Scope R_scope.
Local Open Scope string_scope.

(** numpy.gradient(f, axis=-2) of a 2-d array, unit spacing, edge_order 1 *)
Definition numpy_gradient_2 (x : nd R) : nd R :=
  let* a := x in
  match shape a with
  | [nx; ny] =>
      if (ny <? 2)%nat then Exn ValueError
      else Ok (grid ny nx (fun i j =>
        if (i =? 0)%nat then at2 a 1 j - at2 a 0 j
        else if (i =? ny - 1)%nat then at2 a (ny - 1) j - at2 a (ny - 2) j
        else (at2 a (i + 1) j - at2 a (i - 1) j) / 2))
  | _ => Exn Unmodelled
  end.
(** performance_comparison.py:18; dx is not used *)
Definition np_instrinsic_gradient (x : nd R) (dx : R) : nd R := slf2 s_mid s_mid (numpy_gradient_2 (pad_all 1 x)).

(** a function that returns None: its value is not compared here *)
Definition some_ (x : res (option (arr R))) : nd R := let* o := x in match o with Some a => Ok a | None => Exn Unmodelled end.

(** performance_comparison.py:14-53 [get_function_defs], with the lambdas of
    67-72: the kernels of a group, all on a pair of arrays (groups other than
    the bracket use the first).  [junk] is the uninitialised memory of the loop
    version of the bracket.  None: the function returns None. *)
Definition kernel := (arr R * arr R -> nd R)%type.
Definition get_function_defs (junk : nat -> nat -> R) (dx : R) (function_name : string) : option (list kernel) :=
  if String.eqb function_name "periodic_gradient" then Some
    [fun ab => some_ (np_periodic_gradient (Ok (fst ab)) dx 0);
     fun ab => np_instrinsic_gradient (Ok (fst ab)) dx;
     fun ab => some_ (nb_periodic_gradient (Ok (fst ab)) dx 0)]
  else if String.eqb function_name "periodic_laplace" then Some
    [fun ab => np_periodic_laplace (Ok (fst ab)) dx;
     fun ab => nb_periodic_laplace (Ok (fst ab)) dx]
  else if String.eqb function_name "poisson_solvers" then Some
    [fun ab => np_fourier_poisson_double (Ok (fst ab)) dx 1;
     fun ab => nb_fourier_poisson_double (Ok (fst ab)) dx 1]
  else if String.eqb function_name "poisson_bracket" then Some
    [fun ab => np_periodic_arakawa junk (Ok (fst ab)) (Ok (snd ab)) dx;
     fun ab => np_periodic_arakawa_vec (Ok (fst ab)) (Ok (snd ab)) dx;
     fun ab => nb_periodic_arakawa (Ok (fst ab)) (Ok (snd ab)) dx;
     fun ab => nb_periodic_arakawa_stencil (Ok (fst ab)) (Ok (snd ab)) dx;
     fun ab => nb_periodic_arakawa_vec (Ok (fst ab)) (Ok (snd ab)) dx]
  else None.

(** np.allclose(a, b) of arrays of the same shape: rtol 1e-5, atol 1e-8 *)
Definition isclose (a b : R) : bool := if Rle_dec (Rabs (a - b)) (/ 10 ^ 8 + / 10 ^ 5 * Rabs b) then true else false.
Definition allclose (a b : arr R) : res bool :=
  if list_eq_dec Nat.eq_dec (shape a) (shape b) then Ok (forallb (fun p => isclose (fst p) (snd p)) (combine (data a) (data b)))
  else Exn Unmodelled.

(** the check of one setup: true if all values agree with the first *)
Fixpoint check_all (reference : arr R) (ks : list kernel) (x : arr R * arr R) : res bool :=
  match ks with
  | [] => Ok true
  | k :: l => let* v := k x in let* e := allclose reference v in if e : bool then check_all reference l x else Ok false
  end.
Definition check (ks : list kernel) (x : arr R * arr R) : res bool :=
  match ks with
  | [] => Exn IndexError
  | k :: l => let* v := k x in check_all v l x
  end.

(** performance_comparison.py:63-82 for one group and one set of arrays *)
Definition group_check (junk : nat -> nat -> R) (dx : R) (name : string) (x : arr R * arr R) : res bool :=
  match get_function_defs junk dx name with None => Exn TypeError | Some ks => check ks x end.

(** performance_comparison.py:62: 2 ** np.array(range(4, 13)) *)
Definition sizes : list nat := map (fun k => 2 ^ k)%nat (seq 4 9).
(** [f] on each element until one is not [Ok true] *)
Fixpoint all_ok {X} (f : X -> res bool) (l : list X) : res bool :=
  match l with
  | [] => Ok true
  | x :: l' => let* e := f x in if e : bool then all_ok f l' else Ok false
  end.
(** performance_comparison.py:56-85 [main]: [input] are the arrays set up for a
    group and size, [measured] the number of sizes there is time for.  The
    argument scale is not used.  [Ok false]: PerfplotError; iterating over None
    is a TypeError. *)
Definition bench_main (junk : nat -> nat -> R) (function_names : list string) (dx : R) (scale : Z)
    (input : string -> nat -> arr R * arr R) (measured : string -> nat) : res bool :=
  all_ok (fun name =>
    match get_function_defs junk dx name with
    | None => Exn TypeError
    | Some ks => all_ok (fun n => check ks (input name n)) (firstn (measured name) sizes)
    end) function_names.
(** performance_comparison.py:60: the default *)
Definition default_groups : list string := ["periodic_gradient"; "periodic_laplace"; "poisson_bracket"; "poisson_solvers"].
