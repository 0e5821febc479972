(** Property C06, the diagnostics: a stack of frames gives one number per frame,
    the one the frame alone gives. Statements only; proofs are in FrameFacts.v.
    The mean is summed in the fixed order of NdArray.v ([mean_last2]); numpy may
    sum a stack in another order than a frame (DESIGN.md, what is not modelled). *)
From Coq Require Import List Arith ZArith Lia QArith.
From Verif Require Import Num NdArray NdFacts ModelGradients Spec GradFacts GradProps ModelProperties FrameFacts.
Import ListNotations.
Local Open Scope nat_scope.

Theorem C06_properties_framewise :
  forall (A : Type) (N : Num A) (a b : arr A) (c1 dx : A) nx ny rest,
    wf a -> wf b -> shape a = nx :: ny :: rest -> shape b = nx :: ny :: rest -> 0 < ny -> 0 < nx ->
    per_frame2 (fun n p => get_gamma_n n p dx None) rest a b /\
    per_frame2 (fun n p => get_gamma_c n p c1 dx) rest a b /\
    per_frame2 (fun n p => get_energy n p dx) rest a b /\
    per_frame2 (fun n o => get_enstrophy n o dx) rest a b /\
    per_frame2 (fun n p => get_enstrophy_phi n p dx) rest a b.
Proof.
  intros A N a b c1 dx nx ny rest Ha Hb Sa Sb Hy Hx. repeat split.
  - exact (pf_gamma_n nx ny rest Hy Hx a b Ha Hb Sa Sb dx).
  - exact (pf_gamma_c nx ny rest a b Ha Hb Sa Sb c1 dx).
  - exact (pf_energy nx ny rest Hy Hx a b Ha Hb Sa Sb dx).
  - exact (pf_enstrophy nx ny rest a b Ha Hb Sa Sb dx).
  - exact (pf_enstrophy_phi nx ny rest Hy Hx a b Ha Hb Sa Sb dx).
Qed.
Print Assumptions C06_properties_framewise.

Theorem C06_dissipation_framewise :
  forall (A : Type) (N : Num A) (a b c d : arr A) nx ny rest,
    wf a -> wf b -> wf c -> wf d -> shape a = nx :: ny :: rest -> shape b = nx :: ny :: rest ->
    shape c = nx :: ny :: rest -> shape d = nx :: ny :: rest ->
    per_frame4 get_DE rest a b c d /\ per_frame4 get_DU rest a b c d.
Proof.
  intros A N a b c d nx ny rest Ha Hb Hc Hd Sa Sb Sc Sd. split.
  - exact (pf_DE nx ny rest a b Ha Hb Sa Sb c d Hc Hd Sc Sd).
  - exact (pf_DU nx ny rest a b Ha Hb Sa Sb c d Hc Hd Sc Sd).
Qed.
Print Assumptions C06_dissipation_framewise.

(** two frames of different content have different enstrophies: one number each *)
Example C06_properties_case :
  let a := @build Q [2; 2; 2] (fun ix => inject_Z (Z.of_nat (nth 0 ix 0 + 5 * nth 1 ix 0 * nth 2 ix 0))) in
  exists c, get_enstrophy (Nm:=NumQ) (Ok a) (Ok (build [2; 2; 2] (fun _ => 0%Q))) 1%Q = Ok c /\
    shape c = [2] /\ (get (N:=NumQ) c [0%nat] == (1 # 4))%Q /\ (get (N:=NumQ) c [1%nat] == (31 # 4))%Q.
Proof. eexists. split; [reflexivity|]. vm_compute. repeat split. Qed.
