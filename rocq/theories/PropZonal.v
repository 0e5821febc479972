(** Properties C132 and C133: states that vary along x only, and the transport
    of averages over y. *)
From Coq Require Import List Arith ZArith Lia Bool Reals Lra Psatz String.
From Verif Require Import Num NdArray NdFacts Spec SumFacts ModelHW ModelBackend SpecHW SpecPlasma HWFacts HWProps BalanceWit SpecWave SpecZonal ZonalFacts ZonalFlux.
Import ListNotations.
Local Open Scope R_scope.

(** C132: a state that is the same in every row stays so; the background
    gradient and the bracket have no influence on it ... *)
Theorem C132_stays_zonal ny nx dx : (0 < ny)%nat -> (0 < nx)%nat -> dx <> 0 -> forall b dx0 test, backend_ok ny nx b ->
  forall step p q pl n o phi a dt m, step = rk4_step \/ step = euler_step ->
  plasma_ok test ny nx pl n o phi a -> agree ny nx phi (invlap ny nx dx o) -> xonly ny nx n -> xonly ny nx o ->
  pN q = pN p -> pc1 q = pc1 p -> pnu q = pnu p -> pzon q = pzon p ->
  exists pl' pl'' n' o' phi', xonly ny nx n' /\ xonly ny nx o' /\ xonly ny nx phi' /\
    snd (steps (fun pl => step (hw_of b p dx0 test) pl dt dx) m pl) = Ok pl' /\ plasma_ok test ny nx pl' n' o' phi' (a + INR m * dt) /\
    snd (steps (fun pl => step (hw_of b q dx0 test) pl dt dx) m pl) = Ok pl'' /\ plasma_ok test ny nx pl'' n' o' phi' (a + INR m * dt).
Proof. exact (c132_same ny nx dx). Qed.
Print Assumptions C132_stays_zonal.
(** ... with zonal=True and no viscosity it is at rest ... *)
Theorem C132_zonal_mode_rests ny nx dx : (0 < ny)%nat -> (0 < nx)%nat -> dx <> 0 -> forall b dx0 test, backend_ok ny nx b ->
  forall step p pl n o phi a dt m, step = rk4_step \/ step = euler_step ->
  plasma_ok test ny nx pl n o phi a -> agree ny nx phi (invlap ny nx dx o) -> xonly ny nx n -> xonly ny nx o -> pzon p = true -> pnu p = 0 ->
  exists pl', snd (steps (fun pl => step (hw_of b p dx0 test) pl dt dx) m pl) = Ok pl' /\ plasma_ok test ny nx pl' n o phi (a + INR m * dt).
Proof. exact (c132_rest ny nx dx). Qed.
Print Assumptions C132_zonal_mode_rests.
(** ... with viscosity only the hyper-diffusion acts, so that the fields do not
    grow below its limit on the step size ... *)
Theorem C132_zonal_mode_diffuses ny nx dx : (0 < ny)%nat -> (0 < nx)%nat -> dx <> 0 -> forall b dx0 test, backend_ok ny nx b ->
  forall step p pl n o phi a dt m, step = rk4_step \/ step = euler_step ->
  plasma_ok test ny nx pl n o phi a -> agree ny nx phi (invlap ny nx dx o) -> xonly ny nx n -> xonly ny nx o -> pzon p = true ->
  exists pl' pl'' n' o' phi',
    snd (steps (fun pl => step (hw_of b p dx0 test) pl dt dx) m pl) = Ok pl' /\ plasma_ok test ny nx pl' n' o' phi' (a + INR m * dt) /\
    snd (steps (fun pl => step (hw_of b (pure_diffusion (pN p) (pnu p) true) dx0 test) pl dt dx) m pl) = Ok pl'' /\
    plasma_ok test ny nx pl'' n' o' phi' (a + INR m * dt).
Proof. exact (c132_mode ny nx dx). Qed.
Print Assumptions C132_zonal_mode_diffuses.
Theorem C132_zonal_mode_decays ny nx dx : (0 < ny)%nat -> (0 < nx)%nat -> dx <> 0 -> forall b dx0 test, backend_ok ny nx b ->
  forall p pl n o phi a dt m,
  plasma_ok test ny nx pl n o phi a -> agree ny nx phi (invlap ny nx dx o) -> xonly ny nx n -> xonly ny nx o -> pzon p = true ->
  0 <= dt * pnu p -> dt * pnu p * (8 / dx ^ 2) ^ pN p <= 2.78 ->
  exists pl' n' o' phi', snd (steps (fun pl => rk4_step (hw_of b p dx0 test) pl dt dx) m pl) = Ok pl' /\
    plasma_ok test ny nx pl' n' o' phi' (a + INR m * dt) /\ inner ny nx n' n' <= inner ny nx n n /\ inner ny nx o' o' <= inner ny nx o o.
Proof. exact (c132_decay ny nx dx). Qed.
Print Assumptions C132_zonal_mode_decays.
(** ... and without viscosity the difference of density and vorticity stays
    where it is, in either mode. *)
Theorem C132_difference_rests ny nx dx : (0 < ny)%nat -> (0 < nx)%nat -> dx <> 0 -> forall b dx0 test, backend_ok ny nx b ->
  forall step p pl n o phi a dt m, step = rk4_step \/ step = euler_step ->
  plasma_ok test ny nx pl n o phi a -> agree ny nx phi (invlap ny nx dx o) -> xonly ny nx n -> xonly ny nx o -> pnu p = 0 ->
  exists pl' n' o' phi', snd (steps (fun pl => step (hw_of b p dx0 test) pl dt dx) m pl) = Ok pl' /\ plasma_ok test ny nx pl' n' o' phi' (a + INR m * dt) /\
    forall i j, (i < ny)%nat -> (j < nx)%nat -> n' i j - o' i j = n i j - o i j.
Proof. exact (c132_lock ny nx dx). Qed.
Print Assumptions C132_difference_rests.
(** three columns with different values in two rows *)
Example C132_example : let n := fun _ j : nat => INR j ^ 2 in let o := fun _ j : nat => INR j - 1 in
  plasma_ok true 2 3 (pl0 2 3 n o (invlap 2 3 1 o) 0) n o (invlap 2 3 1 o) 0 /\ xonly 2 3 n /\ xonly 2 3 o /\ n 0%nat 1%nat <> n 0%nat 2%nat /\
  backend_ok 2 3 np_backend /\ pzon (mkPar 3 1 0 1 1 true) = true /\ pnu (mkPar 3 1 0 1 1 true) = 0 /\
  0 <= 0.1 * pnu (mkPar 1 1 1 1 1 true) /\ 0.1 * pnu (mkPar 1 1 1 1 1 true) * (8 / 1 ^ 2) ^ pN (mkPar 1 1 1 1 1 true) <= 2.78.
Proof.
  cbv zeta. split; [apply pl0_ok|]. split; [now intros i j _ _|]. split; [now intros i j _ _|]. split; [cbn; lra|].
  split; [now left|]. cbn [pzon pnu pN]. repeat split; lra.
Qed.

(** C133: the average over y of the returned time derivative is the coupling
    of the averages (nothing with zonal=True), minus the divergence of the flux
    through the faces between columns, plus the hyper-diffusion of the average.
    The background gradient does not act on it. *)
Theorem C133_zonal_transport ny nx dx : (0 < ny)%nat -> (0 < nx)%nat -> dx <> 0 ->
  forall b p dx0 test, backend_ok ny nx b -> forall y n o phi dt, args_ok ny nx y n o ->
  exists lg d dn do_, gradient_2d (hw_of b p dx0 test) y (Some (grid ny nx phi)) dt dx = (lg, Ok d) /\
    ns_get d "density" = Ok (grid ny nx dn) /\ ns_get d "omega" = Ok (grid ny nx do_) /\
    forall i j, (i < ny)%nat -> (j < nx)%nat ->
      let cpl := if pzon p then 0 else pc1 p * (yavg ny phi j - yavg ny n j) in
      let div g := (xflux ny nx dx phi g j - xflux ny nx dx phi g (sh nx j (-1))) / dx in
      yavg ny dn j = cpl - ppb p * div n + hyper p ny nx dx (fun _ j => yavg ny n j) i j /\
      yavg ny do_ j = cpl - ppb p * div o + hyper p ny nx dx (fun _ j => yavg ny o j) i j.
Proof. exact (c133 ny nx dx). Qed.
Print Assumptions C133_zonal_transport.
(** one period in four rows, density in the first of three columns: flux
    -1/2 in that column and -1/4 through its two faces: density moves from the
    second column through the first into the third *)
Example C133_example :
  let phi : field := fun i _ => match i with 1%nat => 1 | 3%nat => -1 | _ => 0 end in
  let n : field := fun i j => if (j =? 0)%nat then match i with 0%nat => 1 | 2%nat => -1 | _ => 0 end else 0 in
  args_ok 4 3 (kw 4 3 n n) n n /\ colflux 4 1 phi n 0 = - / 2 /\ colflux 4 1 phi n 1 = 0 /\
  xflux 4 3 1 phi n 0 = - / 4 /\ xflux 4 3 1 phi n 2 = - / 4 /\ xflux 4 3 1 phi n 1 = 0.
Proof.
  cbv zeta. split; [apply kw_ok|]. unfold xflux, colflux, yavg, cdy.
  repeat split; cbn; change (Pos.to_nat 1) with 1%nat; change (Pos.to_nat 2) with 2%nat; change (Pos.to_nat 3) with 3%nat; cbn; field.
Qed.
