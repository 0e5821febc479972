(** The image script: which fields it shows, with which titles, colour limits and
    ticks, and under which names it saves them.
    Source: /repo/src/hw2d/utils/plot/image.py:13-143, over exact reals.

    matplotlib is not modelled: a figure is the list of its panels, and imshow
    without limits takes the least and the largest entry as colour limits (its
    documented default).  Figure sizes, paddings and progress bars are left out. *)
From Coq Require Import Arith ZArith Bool Reals String Ascii List.
From Verif Require Import Num NdArray ModelIO ModelRun ModelRunHW ModelPlot ModelHelpers.
Import ListNotations.
Local Open Scope string_scope.

(** ** Strings *)
(** str(n) for an int n >= 0, in the f-string of image.py:84: decimal digits *)
Definition digit (n : nat) : string := String (ascii_of_nat (48 + n)) "".
Fixpoint str_digits (fuel n : nat) : string :=
  match fuel with
  | O => digit n
  | S fuel' => if (n <? 10)%nat then digit n else str_digits fuel' (n / 10) ++ digit (n mod 10)
  end.
Definition str_nat (n : nat) : string := str_digits n n.
(** s.replace(old, new) for a non-empty old, image.py:84: leftmost first, no overlap *)
Fixpoint str_replace (fuel : nat) (old new s : string) : string :=
  match fuel with
  | O => s
  | S fuel' =>
      match s with
      | "" => ""
      | String c s' =>
          if String.prefix old s then new ++ str_replace fuel' old new (String.substring (String.length old) (String.length s - String.length old) s)
          else String c (str_replace fuel' old new s')
      end
  end.
Definition py_replace (old new s : string) : string := str_replace (String.length s) old new s.
(** s[:-4], image.py:141 *)
Definition but_last4 (s : string) : string := String.substring 0 (String.length s - 4) s.

(** ** image.py:13-72 [plot_dict] *)
Record panel := mkPanel {
  p_title : string;           (* image.py:61 *)
  p_data : arr R;             (* image.py:46, 49 *)
  p_clim : option (R * R) }.  (* colour limits of an image; None: a line, image.py:44-46 *)
(** image.py:38-65: one panel per entry; the running limits start from 0 *)
Fixpoint plot_loop (l : list (string * arr R)) (vmin vmax : R) : res (list panel * (R * R)) :=
  match l with
  | [] => Ok ([], (vmin, vmax))
  | (label, d) :: l' =>
      let* line := (match List.length (shape d) with 1 => Ok true | 2 => Ok false | _ => Exn BaseException end) in
      let* lo := np_min (data d) in
      let* hi := np_max (data d) in
      let* r := plot_loop l' (Rmin lo vmin) (Rmax hi vmax) in
      Ok (mkPanel label d (if line : bool then None else Some (lo, hi)) :: fst r, snd r)
  end.
(** image.py:24-72: plt.subplots(1, n) has no axes for n = 0 (a ValueError) and
    returns one axes, not an array, for n = 1 (which [0] rejects); coupled colour
    bars all get the common limits *)
Definition plot_dict (plot_dic : list (string * arr R)) (couple_cbars : bool) : res (list panel) :=
  match plot_dic with
  | [] => Exn ValueError
  | [_] => Exn TypeError
  | _ =>
      let* r := plot_loop plot_dic 0%R 0%R in
      Ok (if couple_cbars then map (fun p => mkPanel (p_title p) (p_data p) (match p_clim p with Some _ => Some (snd r) | None => None end)) (fst r)
          else fst r)
  end.

(** ** image.py:75-143 [main] *)
(** file[field_name][t_idx]: image.py:97 *)
Definition field_row (f : h5 (arr R) R) (name : string) (t_idx : Z) : res (arr R) :=
  let* d := dlook (dsets f) name in
  match d with
  | Rows l => let* r := row_index (List.length l) t_idx in
              match nth_error l r with Some (RFrame v) => Ok v | _ => Exn Unmodelled end
  | Whole _ => Exn Unmodelled
  end.
(** what the script leaves: the panels, the ticks of their axes (those of the
    vertical axis are shared), the files saved and the path it prints *)
Record drawn := mkDrawn {
  d_panels : list panel;
  d_xticks : list nat;
  d_yticks : list nat;
  d_files : list string;
  d_said : string }.
(** image.py:84: [text] is str(t) *)
Definition save_path (file_path text : string) : string := py_replace ".h5" ".jpg" file_path ++ "_t=" ++ text.
(** image.py:75-143 *)
Definition image_main (file_path text : string) (t : R) (save_types : list string) (zero_omega ticks : bool) (f : h5 (arr R) R) : res drawn :=
  let save_file_path := save_path file_path text in
  let* dt := attr_look f "frame_dt" in
  let* t_idx := floordiv (t - initial_time f)%R dt in
  let* n := field_row f "density" t_idx in
  let* o := field_row f "omega" t_idx in
  let* p := field_row f "phi" t_idx in
  let* xy := (match shape n with [y; x] => Ok (x, y) | _ => Exn ValueError end) in
  let* o := (if zero_omega then sub_ (Ok o) (mean_all (Ok o)) else Ok o) in
  let* fig := plot_dict [(latex_format "density", n); (latex_format "omega", o); (latex_format "phi", p)] false in
  let tk (m : nat) := if ticks then [0; m / 2; m] else [] in
  Ok (mkDrawn fig (tk (fst xy)) (tk (snd xy)) (map (fun ty => but_last4 save_file_path ++ ty) save_types) save_file_path).
