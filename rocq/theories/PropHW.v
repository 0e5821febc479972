(** Properties C05, C18-C28 and C57-C60: the simulation step, its invariants
    and symmetries, the reported balances, Namespace arithmetic, profiling. *)
From Coq Require Import List Arith ZArith Lia Bool Reals Lra String Permutation.
From Verif Require Import Num NdArray NdFacts ModelGradients Spec SpecFourier ModelProperties ModelHW ModelBackend
  SpecHW SpecPlasma HWFacts PoissonProps HWProps BalanceProps BalanceWit LogProps StepProps.
Import ListNotations.
Local Open Scope R_scope.

(** C05: the viscous term of the model never increases the squared norm. *)
Theorem C05_diffusion_dissipates b p dx0 test ny nx dx f :
  (0 < ny)%nat -> (0 < nx)%nat -> dx <> 0 -> backend_ok ny nx b -> 0 <= pnu p ->
  exists D, hw_diffuse (hw_of b p dx0 test) (Ok (grid ny nx f)) dx (hN (hw_of b p dx0 test))
              = (["diffuse"%string], Ok (grid ny nx D)) /\
    gsum ny nx (fun i j => f i j * (hnu (hw_of b p dx0 test) * D i j)) <= 0 /\
    ((1 <= pN p)%nat -> 0 < pnu p ->
       (gsum ny nx (fun i j => f i j * (hnu (hw_of b p dx0 test) * D i j)) = 0 <-> is_const ny nx f)).
Proof. intros Hy Hx Hd Hb. exact (c05 b p dx0 test ny nx dx Hy Hx Hd Hb f). Qed.
Example C05_nonvacuous : backend_ok 2 2 np_backend /\ 0 < pnu (pW 1 1 1 1 false) /\ ~ is_const 2 2 zig.
Proof.
  split; [now left|]. split; [cbn; lra|]. intros H.
  pose proof (H 0%nat 0%nat 0%nat 1%nat ltac:(lia) ltac:(lia) ltac:(lia) ltac:(lia)). cbn in *. lra.
Qed.

(** C18: the time derivative is the Hasegawa-Wakatani right-hand side,
    for every potential passed in, every branch, either backend. *)
Theorem C18_gradient_is_rhs b p dx0 test ny nx dx (y : ns R) n o phi dt :
  (0 < ny)%nat -> (0 < nx)%nat -> dx <> 0 -> backend_ok ny nx b -> args_ok ny nx y n o ->
  exists lg d, gradient_2d (hw_of b p dx0 test) y (Some (grid ny nx phi)) dt dx = (lg, Ok d) /\
    ns_get d "density" = Ok (grid ny nx (rhs_n p ny nx dx phi n)) /\
    ns_get d "omega" = Ok (grid ny nx (rhs_o p ny nx dx phi n o)) /\
    (forall a, ns_get y "age" = Ok (scal a) -> ns_get d "age" = Ok (scal (a + dt))).
Proof.
  intros Hy Hx Hd Hb Ha. destruct (c18 b p dx0 test ny nx dx Hy Hx Hd Hb y n o phi dt Ha) as (lg & d & E & En & Eo & Ea & _).
  exists lg, d. auto.
Qed.
Theorem C18_gradient_without_phi b p dx0 test ny nx dx (y : ns R) n o dt :
  (0 < ny)%nat -> (0 < nx)%nat -> dx <> 0 -> backend_ok ny nx b -> args_ok ny nx y n o ->
  exists lg, gradient_2d (hw_of b p dx0 test) y None dt dx =
    (("get_phi"%string :: lg), snd (gradient_2d (hw_of b p dx0 test) y (Some (grid ny nx (invlap ny nx dx o))) dt dx)) /\
    fst (gradient_2d (hw_of b p dx0 test) y (Some (grid ny nx (invlap ny nx dx o))) dt dx) = lg.
Proof. intros Hy Hx Hd Hb. exact (c18_no_phi b p dx0 test ny nx dx Hy Hx Hd Hb y n o dt). Qed.
Example C18_nonvacuous : args_ok 2 2 (kw 2 2 zig zig) zig zig /\ ns_get (kw 2 2 zig zig) "age" = Ok (scal 0).
Proof. split; [apply kw_ok|reflexivity]. Qed.

(** C19: k calls of rk4_step are k classical Runge-Kutta steps. *)
Theorem C19_rk4_steps b p dx0 test ny nx dx pl n o phi a dt k :
  (0 < ny)%nat -> (0 < nx)%nat -> dx <> 0 -> backend_ok ny nx b ->
  plasma_ok test ny nx pl n o phi a -> agree ny nx phi (invlap ny nx dx o) ->
  let y' := iter_step (rk4 (hw_rhs p ny nx dx) dt) k (n, o) in
  exists pl' phi', snd (steps (fun pl => rk4_step (hw_of b p dx0 test) pl dt dx) k pl) = Ok pl' /\
    plasma_ok test ny nx pl' (fst y') (snd y') phi' (a + INR k * dt) /\
    agree ny nx phi' (invlap ny nx dx (snd y')) /\
    Permutation (ns_keys pl') (ns_keys pl).
Proof. intros Hy Hx Hd Hb. exact (c19 b p dx0 test ny nx dx Hy Hx Hd Hb pl n o phi a dt k). Qed.
Theorem C19_euler_steps b p dx0 test ny nx dx pl n o phi a dt k :
  (0 < ny)%nat -> (0 < nx)%nat -> dx <> 0 -> backend_ok ny nx b ->
  plasma_ok test ny nx pl n o phi a -> agree ny nx phi (invlap ny nx dx o) ->
  let y' := iter_step (euler (hw_rhs p ny nx dx) dt) k (n, o) in
  exists pl' phi', snd (steps (fun pl => euler_step (hw_of b p dx0 test) pl dt dx) k pl) = Ok pl' /\
    plasma_ok test ny nx pl' (fst y') (snd y') phi' (a + INR k * dt) /\
    agree ny nx phi' (invlap ny nx dx (snd y')) /\
    Permutation (ns_keys pl') (ns_keys pl).
Proof. intros Hy Hx Hd Hb. exact (c19_euler b p dx0 test ny nx dx Hy Hx Hd Hb pl n o phi a dt k). Qed.
Example C19_nonvacuous :
  plasma_ok false 1 2 (pl0 1 2 zig zig phiw 0) zig zig phiw 0 /\ agree 1 2 phiw (invlap 1 2 1 zig) /\
  zig 0%nat 0%nat = 1 /\ phiw 0%nat 0%nat < 0.
Proof.
  split; [apply pl0_ok|]. split; [exact phiw_ok|]. split; [reflexivity|]. unfold phiw, zig.
  pose proof PI_RGT_0. assert (0 < / PI ^ 2) by (apply Rinv_0_lt_compat, pow_lt; assumption). lra.
Qed.

(** C20: order of accuracy.  The step is a polynomial in dt whose
    coefficients up to dt^4 are the Taylor coefficients of the solution. *)
Theorem C20_taylor_coefficients b p dx0 test ny nx dx pl n o phi a c :
  (0 < ny)%nat -> (0 < nx)%nat -> dx <> 0 -> backend_ok ny nx b ->
  plasma_ok test ny nx pl n o phi a -> agree ny nx phi (invlap ny nx dx o) ->
  hw_taylor p ny nx dx c (n, o) ->
  exists q : list state, (forall k, (k <= 4)%nat -> nth k q szero = c k) /\
    forall dt, exists pl' n' o' phi', snd (rk4_step (hw_of b p dx0 test) pl dt dx) = Ok pl' /\
      plasma_ok test ny nx pl' n' o' phi' (a + dt) /\
      (n', o') = ssum (List.length q) (fun k => sscale (dt ^ k) (nth k q szero)).
Proof. intros Hy Hx Hd Hb. exact (c20_taylor b p dx0 test ny nx dx Hy Hx Hd Hb pl n o phi a c). Qed.
Theorem C20_taylor_coefficients_exist p ny nx dx y : exists c, hw_taylor p ny nx dx c y.
Proof. eexists. exact (RkOrder.taylor_exists p ny nx dx y). Qed.
Theorem C20_linear_regime b p dx0 test ny nx dx pl n o phi a dt :
  (0 < ny)%nat -> (0 < nx)%nat -> dx <> 0 -> backend_ok ny nx b -> ppb p = 0 ->
  plasma_ok test ny nx pl n o phi a -> agree ny nx phi (invlap ny nx dx o) ->
  exists pl' n' o' phi', snd (rk4_step (hw_of b p dx0 test) pl dt dx) = Ok pl' /\
    plasma_ok test ny nx pl' n' o' phi' (a + dt) /\
    (n', o') = ssum 5 (fun k => sscale (dt ^ k / INR (fact k)) (Nat.iter k (hw_rhs p ny nx dx) (n, o))).
Proof. intros Hy Hx Hd Hb. exact (c20_linear b p dx0 test ny nx dx Hy Hx Hd Hb pl n o phi a dt). Qed.
(** against the exact solution Y: one step is off by O(dt^5) ... *)
Theorem C20_local_error b p dx0 test ny nx dx Y T pl phi a :
  (0 < ny)%nat -> (0 < nx)%nat -> dx <> 0 -> backend_ok ny nx b ->
  0 <= T -> hw_solution p ny nx dx Y T ->
  plasma_ok test ny nx pl (fst (Y 0)) (snd (Y 0)) phi a -> agree ny nx phi (invlap ny nx dx (snd (Y 0))) ->
  exists C, 0 <= C /\ forall dt, 0 <= dt <= T -> dt <= 1 ->
    exists pl' n' o' phi', snd (rk4_step (hw_of b p dx0 test) pl dt dx) = Ok pl' /\
      plasma_ok test ny nx pl' n' o' phi' (a + dt) /\ within ny nx (C * dt ^ 5) (n', o') (Y dt).
Proof. intros Hy Hx Hd Hb. exact (c20_local b p dx0 test ny nx dx Hy Hx Hd Hb Y T pl phi a). Qed.
(** ... and a whole run up to time T by O(dt^4) *)
Theorem C20_global_error b p dx0 test ny nx dx Y T pl phi a :
  (0 < ny)%nat -> (0 < nx)%nat -> dx <> 0 -> backend_ok ny nx b ->
  0 <= T -> hw_solution p ny nx dx Y T ->
  plasma_ok test ny nx pl (fst (Y 0)) (snd (Y 0)) phi a -> agree ny nx phi (invlap ny nx dx (snd (Y 0))) ->
  exists C h0, 0 <= C /\ 0 < h0 /\ forall dt k, 0 < dt <= h0 -> INR k * dt <= T ->
    exists pl' n' o' phi', snd (steps (fun pl => rk4_step (hw_of b p dx0 test) pl dt dx) k pl) = Ok pl' /\
      plasma_ok test ny nx pl' n' o' phi' (a + INR k * dt) /\ within ny nx (C * dt ^ 4) (n', o') (Y (INR k * dt)).
Proof. intros Hy Hx Hd Hb. exact (c20_global b p dx0 test ny nx dx Hy Hx Hd Hb Y T pl phi a). Qed.
Theorem C20_euler_global_error b p dx0 test ny nx dx Y T pl phi a :
  (0 < ny)%nat -> (0 < nx)%nat -> dx <> 0 -> backend_ok ny nx b ->
  0 <= T -> hw_solution p ny nx dx Y T ->
  plasma_ok test ny nx pl (fst (Y 0)) (snd (Y 0)) phi a -> agree ny nx phi (invlap ny nx dx (snd (Y 0))) ->
  exists C h0, 0 <= C /\ 0 < h0 /\ forall dt k, 0 < dt <= h0 -> INR k * dt <= T ->
    exists pl' n' o' phi', snd (steps (fun pl => euler_step (hw_of b p dx0 test) pl dt dx) k pl) = Ok pl' /\
      plasma_ok test ny nx pl' n' o' phi' (a + INR k * dt) /\ within ny nx (C * dt) (n', o') (Y (INR k * dt)).
Proof. intros Hy Hx Hd Hb. exact (c20_global_euler b p dx0 test ny nx dx Hy Hx Hd Hb Y T pl phi a). Qed.
Example C20_nonvacuous : hw_solution (pW 0 1 1 1 false) 2 2 1 decay 1 /\ fst (decay 0) 0%nat 0%nat = 1.
Proof. split; [apply decay_solution|]. cbn. unfold Spec.fscale. rewrite Rmult_0_r, exp_0. unfold zig. ring. Qed.

(** C21: mean density minus mean vorticity is conserved (any initial potential). *)
Theorem C21_mean_difference_conserved b p dx0 test ny nx dx step dt k pl n o phi a :
  (0 < ny)%nat -> (0 < nx)%nat -> dx <> 0 -> backend_ok ny nx b ->
  (1 <= pN p)%nat -> step = rk4_step \/ step = euler_step -> plasma_ok test ny nx pl n o phi a ->
  exists pl' n' o' phi', snd (steps (fun pl => step (hw_of b p dx0 test) pl dt dx) k pl) = Ok pl' /\
    plasma_ok test ny nx pl' n' o' phi' (a + INR k * dt) /\
    gmean ny nx n' - gmean ny nx o' = gmean ny nx n - gmean ny nx o.
Proof. intros Hy Hx Hd Hb. exact (c21 b p dx0 test ny nx dx Hy Hx Hd Hb step dt k pl n o phi a). Qed.

(** C22 *)
Theorem C22_zonal_transform ny nx : (0 < ny)%nat -> forall f, exists z,
  zonal_transform (Ok (grid ny nx f)) = Ok (grid ny nx z) /\
  (forall i j, (i < ny)%nat -> (j < nx)%nat -> z i j = f i j - rsum ny (fun k => f k j) / INR ny) /\
  (forall j, (j < nx)%nat -> rsum ny (fun i => z i j) = 0) /\
  zonal_transform (Ok (grid ny nx z)) = Ok (grid ny nx z).
Proof. exact (c22_zonal ny nx). Qed.
Theorem C22_zonal_linear ny nx f g u v c d : (0 < ny)%nat ->
  zonal_transform (Ok (grid ny nx f)) = Ok (grid ny nx u) ->
  zonal_transform (Ok (grid ny nx g)) = Ok (grid ny nx v) ->
  zonal_transform (Ok (grid ny nx (fun i j => c * f i j + d * g i j))) = Ok (grid ny nx (fun i j => c * u i j + d * v i j)).
Proof. exact (c22_linear ny nx f g u v c d). Qed.
Theorem C22_zonal_means_conserved b p dx0 test ny nx dx step dt k pl n o phi a :
  (0 < ny)%nat -> (0 < nx)%nat -> dx <> 0 -> backend_ok ny nx b ->
  (1 <= pN p)%nat -> pzon p = true -> step = rk4_step \/ step = euler_step -> plasma_ok test ny nx pl n o phi a ->
  exists pl' n' o' phi', snd (steps (fun pl => step (hw_of b p dx0 test) pl dt dx) k pl) = Ok pl' /\
    plasma_ok test ny nx pl' n' o' phi' (a + INR k * dt) /\
    gmean ny nx n' = gmean ny nx n /\ gmean ny nx o' = gmean ny nx o.
Proof. intros Hy Hx Hd Hb. exact (c22_run b p dx0 test ny nx dx Hy Hx Hd Hb step dt k pl n o phi a). Qed.
Example C22_nonvacuous : plasma_ok true 1 2 (pl0 1 2 zig zig phiw 0) zig zig phiw 0 /\ (1 <= pN (pW 1 1 1 1 true))%nat /\
  pzon (pW 1 1 1 1 true) = true.
Proof. split; [apply pl0_ok|]. split; [cbn; lia|reflexivity]. Qed.

(** C23: with nu = 0, kappa = 1 the reported dU is the exact rate of the enstrophy. *)
Theorem C23_enstrophy_balance b p ny nx dx y n o phi dt :
  (0 < ny)%nat -> (0 < nx)%nat -> dx <> 0 -> backend_ok ny nx b ->
  args_ok ny nx y n o -> agree ny nx phi (invlap ny nx dx o) -> pnu p = 0 -> pkap p = 1 ->
  exists lg d dn dd U dU, gradient_2d (hw_of b p dx true) y (Some (grid ny nx phi)) dt dx = (lg, Ok d) /\
    ns_get d "density" = Ok (grid ny nx dn) /\ ns_get d "omega" = Ok (grid ny nx dd) /\
    ns_get d "dU" = Ok (scal dU) /\
    get_enstrophy (Ok (grid ny nx n)) (Ok (grid ny nx o)) dx = Ok (scal U) /\
    forall e, get_enstrophy (Ok (grid ny nx (fun i j => n i j + e * dn i j))) (Ok (grid ny nx (fun i j => o i j + e * dd i j))) dx =
      Ok (scal (U + e * dU + e ^ 2 / 2 * gmean ny nx (fun i j => (dn i j - dd i j) ^ 2))).
Proof. intros Hy Hx Hd Hb. exact (c23 b p ny nx dx Hy Hx Hd Hb y n o phi dt). Qed.
Example C23_nonvacuous : args_ok 1 2 (kw 1 2 zig zig) zig zig /\ agree 1 2 phiw (invlap 1 2 1 zig) /\
  pnu (pW 1 0 1 1 false) = 0 /\ pkap (pW 1 0 1 1 false) = 1.
Proof. split; [apply kw_ok|]. split; [exact phiw_ok|]. split; reflexivity. Qed.

(** C24: the reported dE, ideal case and general discrepancy *)
Theorem C24_energy_balance_ideal b p ny nx dx y n o phi dt :
  (0 < ny)%nat -> (0 < nx)%nat -> dx <> 0 -> backend_ok ny nx b ->
  args_ok ny nx y n o -> agree ny nx phi (invlap ny nx dx o) -> pnu p = 0 -> pkap p = 1 -> pzon p = false ->
  exists lg d dn dd dE, gradient_2d (hw_of b p dx true) y (Some (grid ny nx phi)) dt dx = (lg, Ok d) /\
    ns_get d "density" = Ok (grid ny nx dn) /\ ns_get d "omega" = Ok (grid ny nx dd) /\
    ns_get d "dE" = Ok (scal dE) /\
    dE = gmean ny nx (fun i j => n i j * dn i j) - gmean ny nx (fun i j => phi i j * dd i j) /\
    (forall e, spec_energy ny nx dx (fun i j => n i j + e * dn i j) (fun i j => o i j + e * dd i j) =
      spec_energy ny nx dx n o + e * dE + e ^ 2 * spec_energy ny nx dx dn dd).
Proof. intros Hy Hx Hd Hb. exact (c24_ideal b p ny nx dx Hy Hx Hd Hb y n o phi dt). Qed.
Theorem C24_energy_discrepancy b p ny nx dx y n o phi dt :
  (0 < ny)%nat -> (0 < nx)%nat -> dx <> 0 -> backend_ok ny nx b ->
  args_ok ny nx y n o -> agree ny nx phi (invlap ny nx dx o) ->
  exists lg d dn dd dE, gradient_2d (hw_of b p dx true) y (Some (grid ny nx phi)) dt dx = (lg, Ok d) /\
    ns_get d "density" = Ok (grid ny nx dn) /\ ns_get d "omega" = Ok (grid ny nx dd) /\
    ns_get d "dE" = Ok (scal dE) /\
    (forall e, spec_energy ny nx dx (fun i j => n i j + e * dn i j) (fun i j => o i j + e * dd i j) =
      spec_energy ny nx dx n o
      + e * (gmean ny nx (fun i j => n i j * dn i j) - gmean ny nx (fun i j => phi i j * dd i j))
      + e ^ 2 * spec_energy ny nx dx dn dd) /\
    dE - (gmean ny nx (fun i j => n i j * dn i j) - gmean ny nx (fun i j => phi i j * dd i j)) =
      (pkap p - 1) * gmean ny nx (fun i j => n i j * cdy ny dx phi i j)
      - pc1 p * (gmean ny nx (fun i j => (n i j - phi i j) ^ 2)
                 + gmean ny nx (fun i j => (n i j - phi i j) * coupling p ny phi n i j))
      - 2 * gmean ny nx (fun i j => n i j * hyper p ny nx dx n i j)
      + gmean ny nx (fun i j => phi i j * (hyper p ny nx dx o i j + hyper p ny nx dx phi i j)).
Proof. intros Hy Hx Hd Hb. exact (c24_rate b p ny nx dx Hy Hx Hd Hb y n o phi dt). Qed.
Theorem C24_viscous_dE_refuted : exists p n o phi lg d dn dd dE,
  0 < pnu p /\ pkap p = 1 /\ pzon p = false /\
  args_ok 2 2 (kw 2 2 n o) n o /\ agree 2 2 phi (invlap 2 2 1 o) /\
  gradient_2d (hw_of np_backend p 1 true) (kw 2 2 n o) (Some (grid 2 2 phi)) 0 1 = (lg, Ok d) /\
  ns_get d "density" = Ok (grid 2 2 dn) /\ ns_get d "omega" = Ok (grid 2 2 dd) /\ ns_get d "dE" = Ok (scal dE) /\
  dE = 3 /\ gmean 2 2 (fun i j => n i j * dn i j) - gmean 2 2 (fun i j => phi i j * dd i j) = -5.
Proof. exact c24_witness. Qed.

(** C25: stepping commutes with periodic shifts. *)
Theorem C25_shift_equivariance b p dx0 test ny nx dx step dt k sy sx pl plT n o phi a aT :
  (0 < ny)%nat -> (0 < nx)%nat -> dx <> 0 -> backend_ok ny nx b -> step = rk4_step \/ step = euler_step ->
  let T := ftrans ny nx sy sx in
  plasma_ok test ny nx pl n o phi a -> plasma_ok test ny nx plT (T n) (T o) (T phi) aT ->
  exists pl' plT' n' o' phi',
    snd (steps (fun pl => step (hw_of b p dx0 test) pl dt dx) k pl) = Ok pl' /\
    snd (steps (fun pl => step (hw_of b p dx0 test) pl dt dx) k plT) = Ok plT' /\
    plasma_ok test ny nx pl' n' o' phi' (a + INR k * dt) /\
    plasma_ok test ny nx plT' (T n') (T o') (T phi') (aT + INR k * dt).
Proof. intros Hy Hx Hd Hb. exact (c25 b p dx0 test ny nx dx Hy Hx Hd Hb step dt k sy sx pl plT n o phi a aT). Qed.

(** C26: rest state; radial mirror with sign change. *)
Theorem C26_zero_state b p dx0 test ny nx dx step dt k pl a :
  (0 < ny)%nat -> (0 < nx)%nat -> dx <> 0 -> backend_ok ny nx b -> step = rk4_step \/ step = euler_step ->
  plasma_ok test ny nx pl (fun _ _ => 0) (fun _ _ => 0) (fun _ _ => 0) a ->
  exists pl', snd (steps (fun pl => step (hw_of b p dx0 test) pl dt dx) k pl) = Ok pl' /\
    plasma_ok test ny nx pl' (fun _ _ => 0) (fun _ _ => 0) (fun _ _ => 0) (a + INR k * dt).
Proof. intros Hy Hx Hd Hb. exact (c26_zero b p dx0 test ny nx dx Hy Hx Hd Hb step dt k pl a). Qed.
Theorem C26_mirror b p dx0 test ny nx dx step dt k pl plT n o phi a aT :
  (0 < ny)%nat -> (0 < nx)%nat -> dx <> 0 -> backend_ok ny nx b -> step = rk4_step \/ step = euler_step ->
  let T := fun f i j => - mirror nx f i j in
  plasma_ok test ny nx pl n o phi a -> plasma_ok test ny nx plT (T n) (T o) (T phi) aT ->
  exists pl' plT' n' o' phi',
    snd (steps (fun pl => step (hw_of b p dx0 test) pl dt dx) k pl) = Ok pl' /\
    snd (steps (fun pl => step (hw_of b p dx0 test) pl dt dx) k plT) = Ok plT' /\
    plasma_ok test ny nx pl' n' o' phi' (a + INR k * dt) /\
    plasma_ok test ny nx plT' (T n') (T o') (T phi') (aT + INR k * dt).
Proof. intros Hy Hx Hd Hb. exact (c26_mirror b p dx0 test ny nx dx Hy Hx Hd Hb step dt k pl plT n o phi a aT). Qed.
Example C25_C26_nonvacuous :
  (forall T : field -> field, plasma_ok false 2 3 (pl0 2 3 (T zig) (T zig) (T wcos) 0) (T zig) (T zig) (T wcos) 0) /\
  ftrans 2 3 0 1 zig 0%nat 0%nat <> zig 0%nat 0%nat /\ mirror 3 wsin 1%nat 1%nat = wsin 1%nat 2%nat.
Proof.
  split; [intros; apply pl0_ok|]. split; [|reflexivity].
  change (ftrans 2 3 0 1 zig 0%nat 0%nat) with (-1). change (zig 0%nat 0%nat) with 1. lra.
Qed.

(** C27: Namespace arithmetic, for every arithmetic [A]. *)
Theorem C27_add_keywise (A : Type) (Nm : Num A) (a b c : ns A) : ns_add a b = Ok c ->
  ns_keys c = ns_keys a /\
  forall k v w, ns_get a k = Ok v -> ns_get b k = Ok w -> wf v -> wf w -> shape w = shape v ->
  exists u, ns_get c k = Ok u /\ shape u = shape v /\
    forall idx, inb (shape v) idx -> get u idx = nadd (get w idx) (get v idx).
Proof. intros H. split; [exact (proj1 (ns_bin_ok nadd a b c H))|exact (ns_bin_cells nadd a b c H)]. Qed.
Theorem C27_add_key_error (A : Type) (Nm : Num A) (a b : ns A) : NoDup (ns_keys a) ->
  (forall k v w, ns_get a k = Ok v -> ns_get b k = Ok w -> exists u, bc2 nadd w v = Ok u) ->
  ((exists c, ns_add a b = Ok c) <-> (forall k, In k (ns_keys a) -> In k (ns_keys b))) /\
  (ns_add a b = Exn KeyError <-> exists k, In k (ns_keys a) /\ ~ In k (ns_keys b)).
Proof. exact (ns_bin_key nadd a b). Qed.
Theorem C27_scale_keywise (A : Type) (Nm : Num A) (a : ns A) (x : A) :
  NoDup (ns_keys a) -> (forall k v, ns_get a k = Ok v -> wf v) ->
  exists c, ns_scale a x = Ok c /\ ns_keys c = ns_keys a /\
    forall k v, ns_get a k = Ok v -> exists u, ns_get c k = Ok u /\ shape u = shape v /\
      forall idx, inb (shape v) idx -> get u idx = nmul x (get v idx).
Proof. exact (ns_scale_cells a x). Qed.
(** a - b computes b - a, and a - number computes number - a *)
Theorem C27_sub_is_reversed (A : Type) (Nm : Num A) (a b c : ns A) : ns_sub a b = Ok c ->
  ns_keys c = ns_keys a /\
  forall k v w, ns_get a k = Ok v -> ns_get b k = Ok w -> wf v -> wf w -> shape w = shape v ->
  exists u, ns_get c k = Ok u /\ shape u = shape v /\
    forall idx, inb (shape v) idx -> get u idx = nsub (get w idx) (get v idx).
Proof. intros H. split; [exact (proj1 (ns_bin_ok nsub a b c H))|exact (ns_bin_cells nsub a b c H)]. Qed.
Theorem C27_sub_num_is_reversed (A : Type) (Nm : Num A) (a c : ns A) (x : A) : ns_sub_num a x = Ok c ->
  ns_keys c = ns_keys a /\
  forall k v, ns_get a k = Ok v -> wf v -> exists u, ns_get c k = Ok u /\ shape u = shape v /\
      forall idx, inb (shape v) idx -> get u idx = nsub x (get v idx).
Proof. exact (ns_sub_num_cells a c x). Qed.
Theorem C27_sub_refuted : exists a b c : ns R, ns_sub a b = Ok c /\
  ns_get a "x" = Ok (scal 1) /\ ns_get b "x" = Ok (scal 3) /\ ns_get c "x" = Ok (scal 2) /\ scal 2 <> scal (1 - 3).
Proof.
  exists [("x"%string, scal 1)], [("x"%string, scal 3)], [("x"%string, scal 2)].
  split; [|split; [reflexivity|split; [reflexivity|split; [reflexivity|]]]].
  - unfold ns_sub. cbn [ns_map ns_get String.eqb Ascii.eqb Bool.eqb bind].
    match goal with |- context [sub_ ?u ?v] => replace (sub_ u v) with (Ok (scal 2)); [reflexivity|] end.
    unfold sub_, lift2, scal. cbn. unfold build. cbn. do 3 f_equal. cbv. lra.
  - intros E. injection E. lra.
Qed.
Example C27_nonvacuous :
  ns_add [("n"%string, grid 1 2 zig); ("t"%string, scal 1)] [("t"%string, scal 2); ("n"%string, grid 1 2 zig)] =
  Ok [("n"%string, grid 1 2 (fun i j => zig i j + zig i j)); ("t"%string, scal (2 + 1))].
Proof.
  unfold ns_add. cbn [ns_map ns_get String.eqb Ascii.eqb Bool.eqb bind].
  replace (add_ (Ok (scal 2)) (Ok (scal 1))) with (Ok (scal (2 + 1))) by (symmetry; apply lift2_build).
  replace (add_ (Ok (grid 1 2 zig)) (Ok (grid 1 2 zig))) with (Ok (grid 1 2 (fun i j => zig i j + zig i j)))
    by (symmetry; apply lift2_build).
  reflexivity.
Qed.

(** C28: what k calls of rk4_step record in the profiler, for every
    arithmetic, every numerical scheme and every state. *)
Theorem C28_profile_counts (A : Type) (Nm : Num A) (h : hw A) pl dt dx k l pl' :
  steps (fun pl => rk4_step h pl dt dx) k pl = (l, Ok pl') ->
  (count_occ string_dec l "full_step" = k /\
  count_occ string_dec l "get_phi" = 4 * k /\
  count_occ string_dec l "gradient_2d" = 4 * k /\
  count_occ string_dec l "poisson_bracket" = (if truthy (hpb h) then 8 * k else 0) /\
  count_occ string_dec l "diffuse" = (if truthy (hnu h) then 8 * k else 0) + (if htest h then 4 * k else 0) /\
  (forall s, ~ In s ["full_step"; "get_phi"; "gradient_2d"; "poisson_bracket"; "diffuse"] -> count_occ string_dec l s = 0))%nat%string.
Proof. exact (c28 h pl dt dx k l pl'). Qed.
Example C28_nonvacuous : exists pl', snd (steps (fun pl => rk4_step (hw_of np_backend (pW 1 1 1 1 false) 1 true) pl 1 1) 3 (pl0 1 2 zig zig phiw 0)) = Ok pl'.
Proof.
  destruct (C19_rk4_steps np_backend (pW 1 1 1 1 false) 1 true 1 2 1 (pl0 1 2 zig zig phiw 0) zig zig phiw 0 1 3) as (pl' & _ & E & _);
    try lia; try lra; [now left|apply pl0_ok|exact phiw_ok|]. eauto.
Qed.

(** C57: the numpy and numba schemes give the same trajectory in exact arithmetic. *)
Theorem C57_backends_same_run b1 b2 p dx0 test ny nx dx step dt k pl n o phi a :
  (0 < ny)%nat -> (0 < nx)%nat -> dx <> 0 ->
  backend_ok ny nx b1 -> backend_ok ny nx b2 -> step = rk4_step \/ step = euler_step ->
  plasma_ok test ny nx pl n o phi a ->
  exists pl1 pl2,
    snd (steps (fun pl => step (hw_of b1 p dx0 test) pl dt dx) k pl) = Ok pl1 /\
    snd (steps (fun pl => step (hw_of b2 p dx0 test) pl dt dx) k pl) = Ok pl2 /\
    forall key, In key ["density"; "omega"; "phi"; "age"]%string -> ns_get pl1 key = ns_get pl2 key.
Proof. exact (c57 b1 b2 p dx0 test ny nx dx step dt k pl n o phi a). Qed.
Example C57_nonvacuous : backend_ok 1 2 np_backend /\ backend_ok 1 2 nb_backend.
Proof. split; [now left|right]. split; [reflexivity|]. cbn. lia. Qed.

(** C58: with viscosity dU is not the enstrophy rate. *)
Theorem C58_viscous_dU_refuted : exists p n o phi lg d dn dd dU,
  0 < pnu p /\ pkap p = 1 /\
  args_ok 1 2 (kw 1 2 n o) n o /\ agree 1 2 phi (invlap 1 2 1 o) /\
  gradient_2d (hw_of np_backend p 1 true) (kw 1 2 n o) (Some (grid 1 2 phi)) 0 1 = (lg, Ok d) /\
  ns_get d "density" = Ok (grid 1 2 dn) /\ ns_get d "omega" = Ok (grid 1 2 dd) /\ ns_get d "dU" = Ok (scal dU) /\
  0 < dU /\ gmean 1 2 (fun i j => (n i j - o i j) * (dn i j - dd i j)) = -4.
Proof. exact c58_witness. Qed.

(** C59: with zonal coupling dE is not the energy rate. *)
Theorem C59_zonal_dE_refuted : exists p n o phi lg d dn dd dE,
  pnu p = 0 /\ pkap p = 1 /\ pzon p = true /\
  args_ok 2 2 (kw 2 2 n o) n o /\ agree 2 2 phi (invlap 2 2 1 o) /\
  gradient_2d (hw_of np_backend p 1 true) (kw 2 2 n o) (Some (grid 2 2 phi)) 0 1 = (lg, Ok d) /\
  ns_get d "density" = Ok (grid 2 2 dn) /\ ns_get d "omega" = Ok (grid 2 2 dd) /\ ns_get d "dE" = Ok (scal dE) /\
  dE = -1 /\ gmean 2 2 (fun i j => n i j * dn i j) - gmean 2 2 (fun i j => phi i j * dd i j) = 0.
Proof. exact c59_witness. Qed.

(** C60: the reported rates ignore kappa. *)
Theorem C60_rates_ignore_kappa_refuted : exists p n o phi lg d dn dd dE dU,
  pnu p = 0 /\ pkap p = 0 /\ pzon p = false /\
  args_ok 4 1 (kw 4 1 n o) n o /\ agree 4 1 phi (invlap 4 1 1 o) /\
  gradient_2d (hw_of np_backend p 1 true) (kw 4 1 n o) (Some (grid 4 1 phi)) 0 1 = (lg, Ok d) /\
  ns_get d "density" = Ok (grid 4 1 dn) /\ ns_get d "omega" = Ok (grid 4 1 dd) /\
  ns_get d "dE" = Ok (scal dE) /\ ns_get d "dU" = Ok (scal dU) /\
  dE = 1 / 2 /\ dU = 1 / 2 /\ agree 4 1 dn (fun _ _ => 0) /\ agree 4 1 dd (fun _ _ => 0).
Proof. exact c60_witness. Qed.

Print Assumptions C05_diffusion_dissipates.
Print Assumptions C18_gradient_is_rhs.
Print Assumptions C19_rk4_steps.
Print Assumptions C20_taylor_coefficients.
Print Assumptions C20_global_error.
Print Assumptions C21_mean_difference_conserved.
Print Assumptions C22_zonal_means_conserved.
Print Assumptions C23_enstrophy_balance.
Print Assumptions C24_energy_balance_ideal.
Print Assumptions C24_viscous_dE_refuted.
Print Assumptions C25_shift_equivariance.
Print Assumptions C26_mirror.
Print Assumptions C27_add_key_error.
Print Assumptions C28_profile_counts.
Print Assumptions C57_backends_same_run.
Print Assumptions C58_viscous_dU_refuted.
Print Assumptions C59_zonal_dE_refuted.
Print Assumptions C60_rates_ignore_kappa_refuted.
