(** Vocabulary of the theorems about the diagnostics in binary64. *)
From Coq Require Import List Arith ZArith Reals Permutation SpecFloat.
From Verif Require Import Num NdArray Spec SpecHW SpecFourier SpecRound SpecRoundStep ModelRun64 ModelProps64.
Import ListNotations.
Local Open Scope R_scope.
Local Existing Instance NumR.

(** the positions a sum reads, in the order of the tree *)
Fixpoint reads (t : order) : list nat := match t with Leaf i => [i] | Plus l r => (reads l ++ reads r)%list end.
(** every one of the first [n] positions is read exactly once; a position from
    [n] on stands for a starting value 0 *)
Definition covers (t : order) (n : nat) : Prop := Permutation (filter (fun i => i <? n)%nat (reads t)) (seq 0 n).
(** the longest chain of additions *)
Fixpoint depth (t : order) : nat := match t with Leaf _ => 0 | Plus l r => S (Nat.max (depth l) (depth r)) end.
(** a sum over [ny] x [nx] cells in some order, in the range of the theorems *)
Definition sum_of (t : order) (ny nx : nat) : Prop :=
  covers t (ny * nx) /\ INR (ny * nx) <= 2 ^ 50 /\ INR (depth t) <= 1000000000000.

(** the diagnostics in the real numbers *)
Definition flux (ny nx : nat) (h : R) (n p : field) : R := - gmean ny nx (fun i j => n i j * cdy ny h p i j).
Definition sink (ny nx : nat) (c1 : R) (n p : field) : R := c1 * gmean ny nx (fun i j => (n i j - p i j) ^ 2).
Definition energy2 (ny nx : nat) (h : R) (n p : field) : R :=
  gmean ny nx (fun i j => n i j ^ 2 + (cdx nx h p i j ^ 2 + cdy ny h p i j ^ 2)) / 2.
Definition enstrophy2 (ny nx : nat) (n o : field) : R := gmean ny nx (fun i j => (n i j - o i j) ^ 2) / 2.

(** two fields within [e] of each other, a field bounded by [B] *)
Definition fwithin (ny nx : nat) (e : R) (f g : field) : Prop := forall i j, (i < ny)%nat -> (j < nx)%nat -> Rabs (f i j - g i j) <= e.
Definition fbdd (ny nx : nat) (B : R) (f : field) : Prop := forall i j, (i < ny)%nat -> (j < nx)%nat -> Rabs (f i j) <= B.

(** the four diagnostics of the fields [n], [o], [phi] within the bounds of
    those of the exact state [y] *)
Definition diag64 (ny nx : nat) (dx c1 : f64) (t : order) (B P e d : R) (n o phi : nat -> nat -> f64) (y : state) : Prop :=
  let h := fval dx in let D := INR (depth t) in let N := Ok (grid ny nx n) in let F := Ok (grid ny nx phi) in
  (exists g, gamma_n_by (Nm := NumF64) (mean64 t) N F dx = sc g /\ near g (flux ny nx h (fst y) (invlap ny nx h (snd y)))
     ((1.01 * D + 7) * uro * (B * (P / h)) + (B * (d / h) + P / h * e))) /\
  (exists g, gamma_c_by (Nm := NumF64) (mean64 t) N F c1 dx = sc g /\ near g (sink ny nx (fval c1) (fst y) (invlap ny nx h (snd y)))
     ((1.01 * D + 6) * uro * (Rabs (fval c1) * ((B + P) * (B + P))) + eta + Rabs (fval c1) * ((e + d) * (2 * (B + P) + (e + d))))) /\
  (exists g, energy_by (Nm := NumF64) (mean64 t) N F dx = sc g /\ near g (energy2 ny nx h (fst y) (invlap ny nx h (snd y)))
     ((1.01 * D + 14) * uro * ((B * B + 2 * (P / h * (P / h))) / 2) + (e * (2 * B + e) + 2 * (d / h * (2 * (P / h) + d / h))) / 2)) /\
  (exists g, enstrophy_by (Nm := NumF64) (mean64 t) N (Ok (grid ny nx o)) dx = sc g /\ near g (enstrophy2 ny nx (fst y) (snd y))
     ((1.01 * D + 6) * uro * ((B + B) * (B + B) / 2) + (e + e) * (2 * (B + B) + (e + e)) / 2)).

