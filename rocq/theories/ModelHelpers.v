(** Printing of parameters and names in plots.
    Source: /repo/src/hw2d/utils/helpers.py, /repo/src/hw2d/utils/latex_format.py. *)
From Coq Require Import Arith Ascii ZArith Bool String List.
Import List.
From Verif Require Import NdArray ModelIO.
Import ListNotations.
Local Open Scope string_scope.

(** ** helpers.py *)
(** a value of the dictionary: a number, a text, anything else (arrays, lists, None) *)
Inductive value (A : Type) := VNum (x : A) | VStr (s : string) | VOther.
Arguments VNum {A} x. Arguments VStr {A} s. Arguments VOther {A}.
Section Print.
Context {A : Type}.

(** helpers.py:7-11: np.isscalar is true of texts *)
Definition is_number (v : value A) : bool := match v with VNum _ => true | VStr _ => true | VOther => false end.
(** n blanks *)
Fixpoint blanks (n : nat) : string := match n with O => "" | S m => String " " (blanks m) end.
(** f"{s:<{w}}" and f"{s:>{w}}" *)
Definition pad_right (w : nat) (s : string) : string := s ++ blanks (w - String.length s).
Definition pad_left (w : nat) (s : string) : string := blanks (w - String.length s) ++ s.
(** helpers.py:68: f"{v:>{value_length}{value_format}}"; [fmt x] is the number in
    value_format; the format ".2g" of a text is a ValueError *)
Definition format_value (fmt : A -> string) (value_length : nat) (v : value A) : res string :=
  match v with VNum x => Ok (pad_left value_length (fmt x)) | VStr _ => Exn ValueError | VOther => Exn TypeError end.

(** l[j::i] *)
Fixpoint every {X} (l : list X) (j i : nat) : list X :=
  match l with
  | [] => []
  | x :: l' => match j with O => x :: every l' (i - 1) i | S j' => every l' j' i end
  end.
(** max of a list of lengths: helpers.py:34, 50 *)
Definition longest_key (column : list (string * value A)) : res nat :=
  match column with [] => Exn ValueError | _ => Ok (list_max (map (fun kv => String.length (fst kv)) column)) end.
Fixpoint mapM {X Y} (g : X -> res Y) (l : list X) : res (list Y) :=
  match l with [] => Ok [] | x :: l' => let* y := g x in let* r := mapM g l' in Ok (y :: r) end.

(** helpers.py:60-70: the entries of one column are appended to the lines *)
Fixpoint add_column (cell : string * value A -> res string) (column : list (string * value A)) (lines : list (list string)) : res (list (list string)) :=
  match column, lines with
  | [], _ => Ok lines
  | _ :: _, [] => Exn IndexError
  | kv :: c, l :: ls => let* s := cell kv in
                        let* r := add_column cell c ls in
                        Ok ((l ++ [s])%list :: r)
  end.
Fixpoint add_columns (cell : nat -> string * value A -> res string) (columns : list (nat * list (string * value A))) (lines : list (list string)) : res (list (list string)) :=
  match columns with
  | [] => Ok lines
  | (w, c) :: l => let* ls := add_column (cell w) c lines in add_columns cell l ls
  end.
(** helpers.py:44-75: one number of columns; None: does not fit *)
Definition try_layout (fmt : A -> string) (spacing key_spacing : string) (value_length : nat) (max_line_length : Z)
    (d : list (string * value A)) (i : nat) : res (option (list string)) :=
  let columns := map (fun j => every d j i) (seq 0 i) in
  let* widths := mapM (fun c => let* n := longest_key c in Ok (n + 1)) columns in
  let line_length := list_sum (map (fun w => w + String.length spacing + value_length) widths) + (i - 1) * String.length key_spacing in
  if (Z.of_nat line_length <? max_line_length)%Z then
    let number_of_lines := list_max (map (@List.length _) columns) in
    let cell w kv := let* v := format_value fmt value_length (snd kv) in
                     Ok (pad_right w (fst kv ++ ":") ++ spacing ++ v) in
    let* lines := add_columns cell (combine widths columns) (repeat [] number_of_lines) in
    Ok (Some (map (String.concat key_spacing) lines))
  else Ok None.
(** helpers.py:44: from all in one line to one per line *)
Fixpoint layouts (try_ : nat -> res (option (list string))) (i : nat) : res (option (list string)) :=
  match i with
  | O => Ok None
  | S i' => let* r := try_ i in match r with Some l => Ok (Some l) | None => layouts try_ i' end
  end.
(** helpers.py:14-75 [format_print_dict]: the lines printed, or None; [columns]: the width of
    the terminal, if there is one *)
Definition format_print_dict (fmt : A -> string) (columns : option Z) (spacing key_spacing : string) (max_line_length : Z) (value_length : nat)
    (dictionary : list (string * value A)) : res (option (list string)) :=
  let d := filter (fun kv => is_number (snd kv)) dictionary in
  let* _ := longest_key d in
  let max_line_length := match columns with Some c => Z.min max_line_length c | None => max_line_length end in
  layouts (try_layout fmt spacing key_spacing value_length max_line_length d) (List.length d).
End Print.

(** ** latex_format.py *)
(** latex_format.py:1-44; of two entries with the same key the later one counts *)
Definition names_source : list (string * string) :=
  [("int_gamma_n", "$\Gamma_n(t) = \int{dk_y \; \Gamma_n \left( k_y \right) }$");
   ("integrated gamma_n", "$\Gamma_n(t) = \int{dk_y \; \Gamma_n \left( k_y \right) }$");
   ("gamma_n", "$\Gamma_n$");
   ("gamma_n_k", "$\Gamma_n \left(k_y\right)$");
   ("gamma_n_spectral", "$\int{\Gamma_n \left( k_y \right) }$");
   ("gamma_c", "$\Gamma_c$");
   ("ky_phi", "$\phi \left( k_y \right)$");
   ("ky_omega", "$\Omega \left( k_y \right)$");
   ("ky_density", "$n \left( k_y \right)$");
   ("ky", "$k_y$");
   ("mean", "$\mu$");
   ("std", "$\sigma$");
   ("delta_k", "$\delta_k$");
   ("U_phi", "$U_\phi$");
   ("U_centered", "$U \left( \Omega-\mu \left( \Omega \right), n \right)$");
   ("nu", "$\nu$");
   ("density", "density ($n$)");
   ("phi", "potential ($\phi$)");
   ("omega", "vorticity ($\Omega$)");
   ("dE_dt", "$\partial_t E$");
   ("dU_dt", "$\partial_t U$");
   ("DE_v", "$DE_v$");
   ("DE_n", "$DE_n$");
   ("DEv", "$DE_v$");
   ("DEn", "$DE_n$");
   ("DE", "$DE$");
   ("DU", "$DU$");
   ("E", "E");
   ("U", "U");
   ("cfl", "cfl");
   ("mean_gamma_n", "$\mu \left( \Gamma_n \right)$");
   ("std_gamma_n", "$\sigma \left( \Gamma_n \right)$");
   ("mean_gamma_c", "$\mu \left( \Gamma_c \right)$");
   ("std_gamma_c", "$\sigma \left( \Gamma_c \right)$");
   ("mean_int_gamma_n", "$\mu_t \left( \int \Gamma_n \left(k_y\right) \right)$");
   ("std_gamma_n", "$\sigma \left( \int \Gamma_n \left(k_y\right) \right)$");
   ("c1", "$c_1$");
   ("kinetic_energy", "$E_K$");
   ("thermal_energy", "$E_T$");
   ("energy", "Energy $(E)$");
   ("enstrophy", "Enstrophy $(U)$");
   ("enstrophy_phi", "Enstrophy $(U(n,\phi))$")].
(** names[s]: a KeyError for an unknown name; the last entry wins *)
Definition name_look (s : string) : res string :=
  match find (fun kv => String.eqb (fst kv) s) (rev names_source) with Some kv => Ok (snd kv) | None => Exn KeyError end.
(** latex_format.py:53-58 *)
Definition latex_format (s : string) : string := match name_look s with Ok v => v | Exn _ => s end.
(** sub in s; s.find("_"); s[:i] for i >= -1; s[i:] for i >= 0 *)
Definition contains (sub s : string) : bool := match String.index 0 sub s with Some _ => true | None => false end.
Definition find_underscore (s : string) : Z := match String.index 0 "_" s with Some n => Z.of_nat n | None => -1 end.
Definition upto (s : string) (i : Z) : string :=
  if (i <? 0)%Z then String.substring 0 (String.length s - 1) s else String.substring 0 (Z.to_nat i) s.
Definition after (s : string) (i : Z) : string := String.substring (Z.to_nat i) (String.length s - Z.to_nat i) s.
(** latex_format.py:47-50 *)
Definition metric_format (s : string) : res string :=
  if existsb (fun m => contains m s) ["mean"; "median"; "std"] then
    let* v := name_look (after s (find_underscore s + 1)) in
    Ok (upto s (find_underscore s) ++ " " ++ v)
  else Ok "".
