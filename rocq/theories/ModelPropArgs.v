(** The argument [properties] of run2.py, as Python treats it.
    Source: /repo/src/hw2d/run2.py:74, 93-103, 163-173.

    A list is the caller's object (or the default of the signature, which all
    calls of the process share) and is extended in place; a tuple or a string
    cannot be extended by a list.  Other iterables are not modelled. *)
From Coq Require Import Arith ZArith Bool String List.
From Verif Require Import Num NdArray ModelIO ModelRun.
Import ListNotations.
Local Open Scope string_scope.

(** what may be passed for [properties] *)
Inductive pyseq := PyList (l : list string) | PyTuple (l : list string) | PyStr (s : string).

(** iterating over a string gives its characters *)
Fixpoint chars (s : string) : list string :=
  match s with
  | EmptyString => []
  | String a s' => String a EmptyString :: chars s'
  end.
Definition seq_items (q : pyseq) : list string :=
  match q with PyList l => l | PyTuple l => l | PyStr s => chars s end.
(** [x in q]: for strings a substring test *)
Definition seq_in (x : string) (q : pyseq) : bool :=
  match q with
  | PyList l | PyTuple l => existsb (String.eqb x) l
  | PyStr s => match String.index 0 x s with Some _ => true | None => false end
  end.
(** run2.py:172-173 *)
Definition with_show (q : pyseq) (show : string) : res pyseq :=
  if seq_in show q then Ok q
  else match q with
       | PyList l => Ok (PyList (l ++ [show])%list)
       | PyTuple _ | PyStr _ => Exn TypeError
       end.

(** run2.py:94-103: the default of the signature *)
Definition default_props : list string :=
  ["gamma_n"; "gamma_n_spectral"; "gamma_c"; "energy"; "thermal_energy"; "kinetic_energy"; "enstrophy"; "enstrophy_phi"].

(** one call: [arg] is the argument if there is one, [default] the default list
    before the call.  The names used, and the default list afterwards. *)
Definition call_props (default : list string) (arg : option pyseq) (show : string) : res (list string) * list string :=
  match arg with
  | Some q => (let* q' := with_show q show in Ok (seq_items q'), default)
  | None => let l := effective_props default show in (Ok l, l)
  end.
(** the default list after a number of calls (argument and show_property of
    each); it is extended whether or not the call succeeds in the end *)
Definition default_after (default : list string) (calls : list (option pyseq * string)) : list string :=
  fold_left (fun d call => snd (call_props d (fst call) (snd call))) calls default.

Section Call.
Context {V T : Type} {TN : TimeNum T}.
Definition with_props (c : cfg V T) (l : list string) : cfg V T :=
  mkCfg (c_step c) (c_end c) (c_phys c) (c_dx c) (c_c1 c) (c_x c) (c_y c) (c_xs c) (c_ys c) (c_output c) (c_rec c) (c_continue c)
    (c_blen c) (c_snaps c) (c_down c) (c_last c) (c_force c) (c_adaptive c) l.
(** run2.py:164-165, 172-173 and the rest ([run2] repeats the computations of
    lines 164-165, which have no effect) *)
Definition run2_call (s : sim V T) (c : cfg V T) (fuel : nat) (pl0 : plasma V T) (default : list string) (arg : option pyseq) (show : string) : IO V T unit :=
  ibind (ilift (t_int (ndiv (c_end c) (c_step c)))) (fun _ =>
  if (c_snaps c =? 0)%Z then ifail ZeroDivisionError
  else ibind (ilift (fst (call_props default arg show))) (fun l => run2 s (with_props c l) fuel pl0)).
End Call.
