(** Property C128: runs with c1 = 0, the flow without its drive. *)
From Coq Require Import List Arith ZArith Lia Bool Reals Lra String.
From Verif Require Import Num NdArray Spec SpecFourier SpecHW SpecPlasma SpecAccount ModelHW ModelBackend
  SpecIdeal BalanceWit HwExist StepProps IdealProps.
Import ListNotations.
Local Open Scope R_scope.

(** Exact solutions: mean o^2 and the kinetic energy are constant; without
    background gradient mean n^2 and mean n o as well. *)
Theorem C128_solution p ny nx dx q Y T :
  (0 < ny)%nat -> (0 < nx)%nat -> dx <> 0 -> pc1 p = 0 -> pnu p = 0 ->
  flow_invariant ny nx dx q \/ (pkap p = 0 /\ full_invariant ny nx dx q) ->
  hw_solution p ny nx dx Y T -> forall t, 0 <= t <= T -> q (Y t) = q (Y 0).
Proof. intros Hy Hx Hd. exact (id_solution p ny nx dx Hy Hx Hd q Y T). Qed.
(** With viscosity they can only decrease, for every order of hyper-diffusion. *)
Theorem C128_viscous p ny nx dx Y T :
  (0 < ny)%nat -> (0 < nx)%nat -> dx <> 0 -> pc1 p = 0 -> 0 <= pnu p -> hw_solution p ny nx dx Y T ->
  (forall s t, 0 <= s -> s <= t -> t <= T -> mean_oo ny nx (Y t) <= mean_oo ny nx (Y s)) /\
  (pkap p = 0 -> forall s t, 0 <= s -> s <= t -> t <= T -> mean_nn ny nx (Y t) <= mean_nn ny nx (Y s)).
Proof. intros Hy Hx Hd. exact (id_viscous p ny nx dx Hy Hx Hd Y T). Qed.

(** Euler steps of the code never lose any of them, and gain exactly dt^2 times
    the same mean of the slopes at every step. *)
Theorem C128_euler b p dx0 test ny nx dx pl n o phi a dt k :
  (0 < ny)%nat -> (0 < nx)%nat -> dx <> 0 -> backend_ok ny nx b -> pc1 p = 0 -> pnu p = 0 ->
  plasma_ok test ny nx pl n o phi a -> agree ny nx phi (invlap ny nx dx o) ->
  let F := hw_rhs p ny nx dx in
  exists pl' n' o' phi', snd (steps (fun pl => euler_step (hw_of b p dx0 test) pl dt dx) k pl) = Ok pl' /\
    plasma_ok test ny nx pl' n' o' phi' (a + INR k * dt) /\ agree ny nx phi' (invlap ny nx dx o') /\
    (forall q, flow_invariant ny nx dx q \/ (pkap p = 0 /\ full_invariant ny nx dx q) ->
       q (n', o') = q (n, o) + dt ^ 2 * along (euler F dt) (fun z => q (F z)) k (n, o)) /\
    mean_oo ny nx (n, o) <= mean_oo ny nx (n', o') /\ kinetic ny nx dx (n, o) <= kinetic ny nx dx (n', o') /\
    (pkap p = 0 -> mean_nn ny nx (n, o) <= mean_nn ny nx (n', o')).
Proof. intros Hy Hx Hd Hb. exact (id_euler b p dx0 test ny nx dx Hy Hx Hd Hb pl n o phi a dt k). Qed.
(** so Euler steps do not conserve: one step of a 4 x 4 case gains *)
Theorem C128_euler_conserves_refuted :
  ~ (forall p n o phi dt pl', pc1 p = 0 -> pnu p = 0 -> pkap p = 0 -> agree 4 4 phi (invlap 4 4 1 o) ->
     snd (euler_step (hw_of np_backend p 1 false) (pl0 4 4 n o phi 0) dt 1) = Ok pl' ->
     forall n' o', ns_get pl' "density" = Ok (grid 4 4 n') -> ns_get pl' "omega" = Ok (grid 4 4 o') ->
     mean_nn 4 4 (n', o') = mean_nn 4 4 (n, o)).
Proof. exact euler_gains. Qed.
(** rk4 steps of the code: the drift up to any fixed time is of fourth order *)
Theorem C128_rk4 b p dx0 test ny nx dx n o T q :
  (0 < ny)%nat -> (0 < nx)%nat -> dx <> 0 -> backend_ok ny nx b -> pc1 p = 0 -> pnu p = 0 ->
  flow_invariant ny nx dx q \/ (pkap p = 0 /\ full_invariant ny nx dx q) -> 0 <= T ->
  exists C h0, 0 <= C /\ 0 < h0 /\ forall pl phi a dt k,
    plasma_ok test ny nx pl n o phi a -> agree ny nx phi (invlap ny nx dx o) -> 0 < dt <= h0 -> INR k * dt <= T ->
    exists pl' n' o' phi', snd (steps (fun pl => rk4_step (hw_of b p dx0 test) pl dt dx) k pl) = Ok pl' /\
      plasma_ok test ny nx pl' n' o' phi' (a + INR k * dt) /\ agree ny nx phi' (invlap ny nx dx o') /\
      Rabs (q (n', o') - q (n, o)) <= C * dt ^ 4.
Proof. intros Hy Hx Hd Hb. exact (id_rk4 b p dx0 test ny nx dx Hy Hx Hd Hb n o T q). Qed.

(** Vorticity and potential do not feel the density (any gradient, any
    viscosity, any number of steps of either integrator). *)
Local Notation code_run rk b p dx0 test dx dt k pl :=
  (if rk then snd (steps (fun pl => rk4_step (hw_of b p dx0 test) pl dt dx) k pl)
         else snd (steps (fun pl => euler_step (hw_of b p dx0 test) pl dt dx) k pl)).
Theorem C128_vorticity_alone (rk : bool) b p dx0 test ny nx dx dt k pl1 pl2 n1 n2 o phi1 phi2 a1 a2 :
  (0 < ny)%nat -> (0 < nx)%nat -> dx <> 0 -> backend_ok ny nx b -> pc1 p = 0 ->
  plasma_ok test ny nx pl1 n1 o phi1 a1 -> agree ny nx phi1 (invlap ny nx dx o) ->
  plasma_ok test ny nx pl2 n2 o phi2 a2 -> agree ny nx phi2 (invlap ny nx dx o) ->
  exists pl1' pl2' n1' n2' o' phi',
    code_run rk b p dx0 test dx dt k pl1 = Ok pl1' /\ code_run rk b p dx0 test dx dt k pl2 = Ok pl2' /\
    plasma_ok test ny nx pl1' n1' o' phi' (a1 + INR k * dt) /\ plasma_ok test ny nx pl2' n2' o' phi' (a2 + INR k * dt).
Proof. intros Hy Hx Hd Hb. exact (id_alone b p dx0 test ny nx dx Hy Hx Hd Hb rk dt k pl1 pl2 n1 n2 o phi1 phi2 a1 a2). Qed.
(** Without gradient densities superpose in the same flow. *)
Theorem C128_superposition (rk : bool) b p dx0 test ny nx dx dt k pl1 pl2 pl3 n1 n2 n3 o phi1 phi2 phi3 a1 a2 a3 c d :
  (0 < ny)%nat -> (0 < nx)%nat -> dx <> 0 -> backend_ok ny nx b -> pc1 p = 0 -> pkap p = 0 ->
  plasma_ok test ny nx pl1 n1 o phi1 a1 -> agree ny nx phi1 (invlap ny nx dx o) ->
  plasma_ok test ny nx pl2 n2 o phi2 a2 -> agree ny nx phi2 (invlap ny nx dx o) ->
  plasma_ok test ny nx pl3 n3 o phi3 a3 -> agree ny nx phi3 (invlap ny nx dx o) ->
  agree ny nx n3 (fadd (fscale c n1) (fscale d n2)) ->
  exists pl1' pl2' pl3' n1' n2' o' phi',
    code_run rk b p dx0 test dx dt k pl1 = Ok pl1' /\ code_run rk b p dx0 test dx dt k pl2 = Ok pl2' /\
    code_run rk b p dx0 test dx dt k pl3 = Ok pl3' /\
    plasma_ok test ny nx pl1' n1' o' phi' (a1 + INR k * dt) /\ plasma_ok test ny nx pl2' n2' o' phi' (a2 + INR k * dt) /\
    plasma_ok test ny nx pl3' (fadd (fscale c n1') (fscale d n2')) o' phi' (a3 + INR k * dt).
Proof.
  intros Hy Hx Hd Hb. exact (id_superpose b p dx0 test ny nx dx Hy Hx Hd Hb rk dt k pl1 pl2 pl3 n1 n2 n3 o phi1 phi2 phi3 a1 a2 a3 c d).
Qed.
(** A density that is an affine function of the vorticity stays that function. *)
Theorem C128_locked (rk : bool) b p dx0 test ny nx dx dt k pl n o phi a c d :
  (0 < ny)%nat -> (0 < nx)%nat -> dx <> 0 -> backend_ok ny nx b -> pc1 p = 0 -> pkap p = 0 -> (1 <= pN p)%nat ->
  plasma_ok test ny nx pl n o phi a -> agree ny nx phi (invlap ny nx dx o) -> agree ny nx n (fun i j => c * o i j + d) ->
  exists pl' o' phi', code_run rk b p dx0 test dx dt k pl = Ok pl' /\
    plasma_ok test ny nx pl' (fun i j => c * o' i j + d) o' phi' (a + INR k * dt).
Proof. intros Hy Hx Hd Hb. exact (id_locked b p dx0 test ny nx dx Hy Hx Hd Hb rk dt k pl n o phi a c d). Qed.

(** the hypotheses hold for a state whose bracket does not vanish *)
Example C128_case : pc1 pid = 0 /\ pnu pid = 0 /\ pkap pid = 0 /\ (1 <= pN pid)%nat /\ backend_ok 4 4 np_backend /\
  plasma_ok false 4 4 (pl0 4 4 (cw 1 0) (cw 0 1) phi4 0) (cw 1 0) (cw 0 1) phi4 0 /\ agree 4 4 phi4 (invlap 4 4 1 (cw 0 1)) /\
  jacobian 4 4 1 phi4 (cw 1 0) 1 1 = - / (PI / 2) ^ 2 /\
  exists Y, hw_solution pid 4 4 1 Y 1 /\ Y 0 = (cw 1 0, cw 0 1).
Proof.
  repeat (split; [first [reflexivity|cbn; lia]|]). split; [left; reflexivity|]. split; [apply pl0_ok|].
  split; [intros i j _ _; reflexivity|]. split; [exact bracket_value|].
  destruct (hw_exists pid 4 4 1) as (K & _ & E); [lia|lia|lra|]. destruct (E (cw 1 0, cw 0 1) 1) as (Y & H1 & H2 & _); [lra|]. eauto.
Qed.

Print Assumptions C128_solution.
Print Assumptions C128_viscous.
Print Assumptions C128_euler.
Print Assumptions C128_euler_conserves_refuted.
Print Assumptions C128_rk4.
Print Assumptions C128_vorticity_alone.
Print Assumptions C128_superposition.
Print Assumptions C128_locked.
