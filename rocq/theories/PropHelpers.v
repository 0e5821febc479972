(** Properties of printed parameters and of names: C55, C85. *)
From Coq Require Import Arith ZArith Bool Lia String List.
Import List.
From Verif Require Import NdArray ModelIO ModelHelpers SpecHelpers HelpersFacts SpecDownsample.
Import ListNotations.
Local Open Scope string_scope.

(** every number once, in order, in aligned columns; as many columns as fit *)
Theorem C55_table : forall (A : Type) (fmt : A -> string) spacing key_spacing vl (d : list (string * value A)) columns maxl lines, no_text d -> numbers d <> [] ->
  format_print_dict fmt columns spacing key_spacing maxl vl d = Ok (Some lines) ->
  let l := numbers d in
  exists i rows, (0 < i <= List.length l)%nat /\ lines = map (String.concat key_spacing) rows /\
    List.length (concat rows) = List.length l /\
    (forall q kx, nth_error l q = Some kx -> nth_error (concat rows) q = Some (entry fmt spacing vl (column_width l i (q mod i) + 1) kx)) /\
    (forall r, (r < List.length rows)%nat -> List.length (nth r rows []) = Nat.min i (List.length l - r * i) /\ (r * i < List.length l)%nat) /\
    (Z.of_nat (table_width (String.length spacing) (String.length key_spacing) vl l i) < width_limit columns maxl)%Z /\
    forall j, (i < j <= List.length l)%nat -> ~ (Z.of_nat (table_width (String.length spacing) (String.length key_spacing) vl l j) < width_limit columns maxl)%Z.
Proof. intros. now apply table_ok. Qed.
Print Assumptions C55_table.

(** lines are short enough when the values are *)
Theorem C55_width : forall (A : Type) (fmt : A -> string) spacing key_spacing vl (d : list (string * value A)) columns maxl lines, no_text d -> numbers d <> [] ->
  (forall k x, In (k, x) (numbers d) -> (String.length (fmt x) <= vl)%nat) ->
  format_print_dict fmt columns spacing key_spacing maxl vl d = Ok (Some lines) ->
  forall s, In s lines -> (Z.of_nat (String.length s) < width_limit columns maxl)%Z.
Proof. intros A fmt spacing key_spacing vl d columns maxl lines Nt Ne Hf E. exact (width_ok fmt spacing key_spacing vl d columns maxl lines Nt Ne Hf E). Qed.
Print Assumptions C55_width.

(** nothing is printed exactly when some entry alone is too wide *)
Theorem C55_nothing : forall (A : Type) (fmt : A -> string) spacing key_spacing vl (d : list (string * value A)) columns maxl, no_text d -> numbers d <> [] ->
  (format_print_dict fmt columns spacing key_spacing maxl vl d = Ok None <->
   exists k x, In (k, x) (numbers d) /\ (width_limit columns maxl <= Z.of_nat (String.length k + 1 + String.length spacing + vl))%Z).
Proof. intros. now apply nothing_iff. Qed.
Print Assumptions C55_nothing.

(** without numbers: an error *)
Theorem C55_empty : forall (A : Type) (fmt : A -> string) spacing key_spacing vl (d : list (string * value A)) columns maxl, no_text d -> numbers d = [] -> format_print_dict fmt columns spacing key_spacing maxl vl d = Exn ValueError.
Proof. intros. now apply empty_fails. Qed.
Print Assumptions C55_empty.

(** texts are not skipped but make the printing fail *)
Theorem C55_text_refuted : ~ (forall (fmt : nat -> string) d, numbers d <> [] -> exists o, format_print_dict fmt None " " " | " 90 7 d = Ok o).
Proof. exact text_fails. Qed.
Print Assumptions C55_text_refuted.

(** a value such as -1.2e-05 makes the line too long *)
Theorem C55_width_refuted : ~ (forall (fmt : nat -> string) d lines, no_text d -> (forall n, String.length (fmt n) <= 8)%nat ->
    format_print_dict fmt None " " " | " 90 7 d = Ok (Some lines) -> forall s, In s lines -> (String.length s < 90)%nat).
Proof. exact too_wide. Qed.
Print Assumptions C55_width_refuted.

Example C55_example : let d := [("nx", VNum 1%nat); ("shape", VOther); ("dt", VNum 2%nat)] in no_text d /\ format_print_dict (fun n => if Nat.eqb n 1 then "1" else "2") None " " " | " 90 7 d = Ok (Some ["nx:       1 | dt:       2"]).
Proof. split; [intros k s [H|[H|[H|[]]]]; discriminate|]. vm_compute. reflexivity. Qed.

Example C55_example_lines : format_print_dict (fun n : nat => "1") (Some 13%Z) " " " | " 90 7 [("nx", VNum 1%nat); ("dt", VNum 2%nat)] = Ok (Some ["nx:       1"; "dt:       1"]).
Proof. vm_compute. reflexivity. Qed.

(** the name of a statistic of a known quantity *)
Theorem C85_metric : forall m k v, In m ["mean"; "median"; "std"] -> name_look k = Ok v -> metric_format (m ++ "_" ++ k) = Ok (m ++ " " ++ v).
Proof. exact metric_ok. Qed.
Print Assumptions C85_metric.

Theorem C85_no_metric : forall s, contains "mean" s = false -> contains "median" s = false -> contains "std" s = false -> metric_format s = Ok "".
Proof. exact metric_none. Qed.
Print Assumptions C85_no_metric.

(** unknown names are shown unchanged *)
Theorem C85_unknown : forall s, name_look s = Exn KeyError -> latex_format s = s.
Proof. intros s E. unfold latex_format. now rewrite E. Qed.
Print Assumptions C85_unknown.

(** the name of a statistic alone loses its last letter *)
Theorem C85_bare_metric_refuted : ~ (forall m, In m ["mean"; "std"] -> metric_format m = Ok m).
Proof. intros H. specialize (H "mean" (or_introl eq_refl)). vm_compute in H. discriminate. Qed.
Print Assumptions C85_bare_metric_refuted.

(** of a name given twice only the second entry is used *)
Theorem C85_duplicate_refuted : ~ (forall k v, In (k, v) names_source -> latex_format k = v).
Proof. intros H. specialize (H "std_gamma_n" "$\sigma \left( \Gamma_n \right)$"). assert (I : In ("std_gamma_n", "$\sigma \left( \Gamma_n \right)$") names_source) by (vm_compute; tauto). specialize (H I). vm_compute in H. discriminate. Qed.
Print Assumptions C85_duplicate_refuted.

Example C85_example : name_look "gamma_n" = Ok "$\Gamma_n$" /\ metric_format "std_gamma_n" = Ok "std $\Gamma_n$" /\ name_look "alpha" = Exn KeyError.
Proof. repeat split; vm_compute; reflexivity. Qed.
