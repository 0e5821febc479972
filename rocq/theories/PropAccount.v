(** Property C114: the energy and enstrophy carried along with the fields. *)
From Coq Require Import List Arith ZArith Lia Bool Reals Lra String.
From Verif Require Import Num NdArray NdFacts Spec SpecFourier ModelProperties ModelHW ModelBackend
  SpecHW SpecPlasma SpecAccount PoissonProps BalanceProps BalanceWit LogProps StepProps AccountProps.
Import ListNotations.
Local Open Scope R_scope.

(** What k steps add to the numbers stored under dE and dU. *)
Theorem C114_rk4_carried b p ny nx dx pl n o phi a dt k :
  (0 < ny)%nat -> (0 < nx)%nat -> dx <> 0 -> backend_ok ny nx b ->
  plasma_ok true ny nx pl n o phi a -> agree ny nx phi (invlap ny nx dx o) ->
  let F := hw_rhs p ny nx dx in let y' := iter_step (rk4 F dt) k (n, o) in
  exists pl' phi', snd (steps (fun pl => rk4_step (hw_of b p dx true) pl dt dx) k pl) = Ok pl' /\
    plasma_ok true ny nx pl' (fst y') (snd y') phi' (a + INR k * dt) /\ agree ny nx phi' (invlap ny nx dx (snd y')) /\
    (forall e, ns_get pl "dE" = Ok (scal e) ->
       ns_get pl' "dE" = Ok (scal (e + along (rk4 F dt) (rk4_gain F (reported_dE p ny nx dx) dt) k (n, o)))) /\
    (forall u, ns_get pl "dU" = Ok (scal u) ->
       ns_get pl' "dU" = Ok (scal (u + along (rk4 F dt) (rk4_gain F (reported_dU p ny nx dx) dt) k (n, o)))).
Proof. intros Hy Hx Hd Hb. exact (rk4_carried b p ny nx dx Hy Hx Hd Hb pl n o phi a dt k). Qed.
Theorem C114_euler_carried b p ny nx dx pl n o phi a dt k :
  (0 < ny)%nat -> (0 < nx)%nat -> dx <> 0 -> backend_ok ny nx b ->
  plasma_ok true ny nx pl n o phi a -> agree ny nx phi (invlap ny nx dx o) ->
  let F := hw_rhs p ny nx dx in let y' := iter_step (euler F dt) k (n, o) in
  exists pl' phi', snd (steps (fun pl => euler_step (hw_of b p dx true) pl dt dx) k pl) = Ok pl' /\
    plasma_ok true ny nx pl' (fst y') (snd y') phi' (a + INR k * dt) /\ agree ny nx phi' (invlap ny nx dx (snd y')) /\
    (forall e, ns_get pl "dE" = Ok (scal e) ->
       ns_get pl' "dE" = Ok (scal (e + along (euler F dt) (euler_gain (reported_dE p ny nx dx) dt) k (n, o)))) /\
    (forall u, ns_get pl "dU" = Ok (scal u) ->
       ns_get pl' "dU" = Ok (scal (u + along (euler F dt) (euler_gain (reported_dU p ny nx dx) dt) k (n, o)))).
Proof. intros Hy Hx Hd Hb. exact (euler_carried b p ny nx dx Hy Hx Hd Hb pl n o phi a dt k). Qed.

(** Ideal system, Euler steps: the fields gain more than the carried numbers,
    by exactly dt^2 times the energy (enstrophy) of the slopes. *)
Theorem C114_euler_ideal b p ny nx dx pl n o phi a e u dt k :
  (0 < ny)%nat -> (0 < nx)%nat -> dx <> 0 -> backend_ok ny nx b ->
  pnu p = 0 -> pkap p = 1 -> pzon p = false ->
  plasma_ok true ny nx pl n o phi a -> agree ny nx phi (invlap ny nx dx o) ->
  ns_get pl "dE" = Ok (scal e) -> ns_get pl "dU" = Ok (scal u) ->
  let F := hw_rhs p ny nx dx in
  exists pl' n' o' phi' e' u', snd (steps (fun pl => euler_step (hw_of b p dx true) pl dt dx) k pl) = Ok pl' /\
    plasma_ok true ny nx pl' n' o' phi' (a + INR k * dt) /\ agree ny nx phi' (invlap ny nx dx o') /\
    ns_get pl' "dE" = Ok (scal e') /\ ns_get pl' "dU" = Ok (scal u') /\
    energy ny nx dx (n', o') - e' = energy ny nx dx (n, o) - e + dt ^ 2 * along (euler F dt) (fun y => energy ny nx dx (F y)) k (n, o) /\
    enstrophy ny nx (n', o') - u' = enstrophy ny nx (n, o) - u + dt ^ 2 * along (euler F dt) (fun y => enstrophy ny nx (F y)) k (n, o) /\
    energy ny nx dx (n, o) - e <= energy ny nx dx (n', o') - e' /\
    enstrophy ny nx (n, o) - u <= enstrophy ny nx (n', o') - u'.
Proof. intros Hy Hx Hd Hb. exact (euler_ideal b p ny nx dx Hy Hx Hd Hb pl n o phi a e u dt k). Qed.

(** Ideal system, rk4 steps: fourth order. *)
Theorem C114_rk4_ideal b p ny nx dx n o T :
  (0 < ny)%nat -> (0 < nx)%nat -> dx <> 0 -> backend_ok ny nx b ->
  pnu p = 0 -> pkap p = 1 -> pzon p = false -> 0 <= T ->
  exists C h0, 0 <= C /\ 0 < h0 /\ forall pl phi a e u dt k,
    plasma_ok true ny nx pl n o phi a -> agree ny nx phi (invlap ny nx dx o) ->
    ns_get pl "dE" = Ok (scal e) -> ns_get pl "dU" = Ok (scal u) -> 0 < dt <= h0 -> INR k * dt <= T ->
    exists pl' n' o' phi' e' u', snd (steps (fun pl => rk4_step (hw_of b p dx true) pl dt dx) k pl) = Ok pl' /\
      plasma_ok true ny nx pl' n' o' phi' (a + INR k * dt) /\ agree ny nx phi' (invlap ny nx dx o') /\
      ns_get pl' "dE" = Ok (scal e') /\ ns_get pl' "dU" = Ok (scal u') /\
      Rabs ((e' - e) - (energy ny nx dx (n', o') - energy ny nx dx (n, o))) <= C * dt ^ 4 /\
      Rabs ((u' - u) - (enstrophy ny nx (n', o') - enstrophy ny nx (n, o))) <= C * dt ^ 4.
Proof. intros Hy Hx Hd Hb. exact (rk4_ideal b p ny nx dx Hy Hx Hd Hb n o T). Qed.

(** All parameters, rk4 steps: fourth-order quadrature of the reported rates. *)
Theorem C114_rk4_quadrature b p ny nx dx Y E U T :
  (0 < ny)%nat -> (0 < nx)%nat -> dx <> 0 -> backend_ok ny nx b ->
  0 <= T -> hw_solution p ny nx dx Y T ->
  (forall t, 0 <= t <= T -> derivable_pt_lim E t (reported_dE p ny nx dx (Y t))) ->
  (forall t, 0 <= t <= T -> derivable_pt_lim U t (reported_dU p ny nx dx (Y t))) ->
  exists C h0, 0 <= C /\ 0 < h0 /\ forall pl phi a e u dt k,
    plasma_ok true ny nx pl (fst (Y 0)) (snd (Y 0)) phi a -> agree ny nx phi (invlap ny nx dx (snd (Y 0))) ->
    ns_get pl "dE" = Ok (scal e) -> ns_get pl "dU" = Ok (scal u) -> 0 < dt <= h0 -> INR k * dt <= T ->
    exists pl' e' u', snd (steps (fun pl => rk4_step (hw_of b p dx true) pl dt dx) k pl) = Ok pl' /\
      ns_get pl' "dE" = Ok (scal e') /\ ns_get pl' "dU" = Ok (scal u') /\
      Rabs ((e' - e) - (E (INR k * dt) - E 0)) <= C * dt ^ 4 /\
      Rabs ((u' - u) - (U (INR k * dt) - U 0)) <= C * dt ^ 4.
Proof. intros Hy Hx Hd Hb. exact (rk4_quadrature b p ny nx dx Hy Hx Hd Hb Y E U T). Qed.

(** The enstrophy above is the code's own; its energy is not: get_energy takes
    central differences, the carried number follows the Fourier energy. *)
Theorem C114_enstrophy_of_code ny nx n o d :
  get_enstrophy (Ok (grid ny nx n)) (Ok (grid ny nx o)) d = Ok (scal (enstrophy ny nx (n, o))).
Proof. exact (get_enstrophy_grid ny nx n o d). Qed.
Theorem C114_energy_of_code_refuted :
  ~ (forall p n o phi, pnu p = 0 -> pkap p = 1 -> pzon p = false -> agree 1 2 phi (invlap 1 2 1 o) ->
     exists C h0, 0 < h0 /\ forall e u dt E, 0 < dt <= h0 -> get_energy (Ok (grid 1 2 n)) (Ok (grid 1 2 phi)) 1 = Ok (scal E) ->
     exists pl' n' phi' e' E', snd (euler_step (hw_of np_backend p 1 true) (pl2 1 2 n o phi 0 e u) dt 1) = Ok pl' /\
       ns_get pl' "density" = Ok (grid 1 2 n') /\ ns_get pl' "phi" = Ok (grid 1 2 phi') /\ ns_get pl' "dE" = Ok (scal e') /\
       get_energy (Ok (grid 1 2 n')) (Ok (grid 1 2 phi')) 1 = Ok (scal E') /\
       Rabs ((e' - e) - (E' - E)) <= C * dt ^ 2).
Proof. exact code_energy_refuted. Qed.

(** Without TEST_CONSERVATION a plasma that carries either number cannot be stepped. *)
Theorem C114_needs_test b p ny nx dx pl n o phi a dt :
  (0 < ny)%nat -> (0 < nx)%nat -> dx <> 0 -> backend_ok ny nx b ->
  plasma_ok true ny nx pl n o phi a -> (In "dE"%string (ns_keys pl) \/ In "dU"%string (ns_keys pl)) ->
  snd (euler_step (hw_of b p dx false) pl dt dx) = Exn KeyError /\
  snd (rk4_step (hw_of b p dx false) pl dt dx) = Exn KeyError.
Proof. intros Hy Hx Hd Hb. exact (off_raises b p ny nx dx Hy Hx Hd Hb pl n o phi a dt). Qed.

Example C114_plasma : plasma_ok true 1 2 (pl2 1 2 zig zig phiw 0 (1 / 2) 0) zig zig phiw 0 /\
  agree 1 2 phiw (invlap 1 2 1 zig) /\
  ns_get (pl2 1 2 zig zig phiw 0 (1 / 2) 0) "dE" = Ok (scal (1 / 2)) /\ ns_get (pl2 1 2 zig zig phiw 0 (1 / 2) 0) "dU" = Ok (scal 0).
Proof. split; [apply pl2_ok|]. split; [exact phiw_ok|]. split; reflexivity. Qed.
Example C114_step : exists pl' n' phi' e',
  snd (euler_step (hw_of np_backend (pW 1 0 1 1 false) 1 true) (pl2 1 2 zig zig phiw 0 (1 / 2) 0) 1 1) = Ok pl' /\
  ns_get pl' "density" = Ok (grid 1 2 n') /\ ns_get pl' "phi" = Ok (grid 1 2 phi') /\ ns_get pl' "dE" = Ok (scal e') /\
  e' = 1 / 2 - 1 * (1 + / PI ^ 2) ^ 2 /\
  get_energy (Ok (grid 1 2 zig)) (Ok (grid 1 2 phiw)) 1 = Ok (scal (1 / 2)) /\
  get_energy (Ok (grid 1 2 n')) (Ok (grid 1 2 phi')) 1 = Ok (scal (1 / 2 - 1 * (1 + / PI ^ 2) + 1 ^ 2 * (1 + / PI ^ 2) ^ 2 / 2)).
Proof. exact (code_energy_step 1 (1 / 2) 0). Qed.

Print Assumptions C114_rk4_carried.
Print Assumptions C114_euler_carried.
Print Assumptions C114_euler_ideal.
Print Assumptions C114_rk4_ideal.
Print Assumptions C114_rk4_quadrature.
Print Assumptions C114_enstrophy_of_code.
Print Assumptions C114_energy_of_code_refuted.
Print Assumptions C114_needs_test.
