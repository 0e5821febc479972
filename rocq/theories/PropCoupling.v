(** Property C131: the limit the coupling puts on the time step. *)
From Coq Require Import List Arith ZArith Lia Bool Reals Lra Psatz String.
From Verif Require Import Num NdArray NdFacts Spec Cplx SpecFourier ModelHW ModelBackend SpecHW SpecPlasma HWFacts HWProps BalanceWit SpecWave
  SpecCoupling CouplingFacts.
Import ListNotations.
Local Open Scope R_scope.

(** C131: where the background gradient does not drive (kappa = 0, or waves
    constant along y), every step multiplies the difference between potential
    and density of a wave by one factor, and the difference between density and
    vorticity by the factor of the hyper-diffusion alone ... *)
Theorem C131_rk4 ny nx dx k l : (0 < ny)%nat -> (0 < nx)%nat -> dx <> 0 ->
  forall b p dx0 test, backend_ok ny nx b -> pkap p * gsym ny dx k = 0 -> forall zn zo pl a dt m, fits ny nx k l ->
  let n := pwave ny nx k l zn in let o := pwave ny nx k l zo in let f := pwave ny nx k l (Cscal (- / ksq ny nx dx k l) zo) in
  plasma_ok test ny nx pl n o f a ->
  exists pl' n' o' f', snd (steps (fun pl => rk4_step (hw_of b p dx0 test) pl dt dx) m pl) = Ok pl' /\
    plasma_ok test ny nx pl' n' o' f' (a + INR m * dt) /\
    forall i j, f' i j - n' i j = growth4R (- (dt * coupling_rate p ny nx dx k l)) ^ m * (f i j - n i j) /\
      n' i j - o' i j = growth4R (- (dt * damp p ny nx dx k l)) ^ m * (n i j - o i j).
Proof. exact (c131_rk4 ny nx dx k l). Qed.
Print Assumptions C131_rk4.
Theorem C131_euler ny nx dx k l : (0 < ny)%nat -> (0 < nx)%nat -> dx <> 0 ->
  forall b p dx0 test, backend_ok ny nx b -> pkap p * gsym ny dx k = 0 -> forall zn zo pl a dt m, fits ny nx k l ->
  let n := pwave ny nx k l zn in let o := pwave ny nx k l zo in let f := pwave ny nx k l (Cscal (- / ksq ny nx dx k l) zo) in
  plasma_ok test ny nx pl n o f a ->
  exists pl' n' o' f', snd (steps (fun pl => euler_step (hw_of b p dx0 test) pl dt dx) m pl) = Ok pl' /\
    plasma_ok test ny nx pl' n' o' f' (a + INR m * dt) /\
    forall i j, f' i j - n' i j = (1 - dt * coupling_rate p ny nx dx k l) ^ m * (f i j - n i j) /\
      n' i j - o' i j = (1 - dt * damp p ny nx dx k l) ^ m * (n i j - o i j).
Proof. exact (c131_euler ny nx dx k l). Qed.
Print Assumptions C131_euler.
(** ... so the difference stays bounded up to step size times rate 2.78 and
    grows without bound from 2.79 on ... *)
Theorem C131_rk4_stable ny nx dx k l : (0 < ny)%nat -> (0 < nx)%nat -> dx <> 0 ->
  forall b p dx0 test, backend_ok ny nx b -> pkap p * gsym ny dx k = 0 -> forall zn zo pl a dt m, fits ny nx k l ->
  let n := pwave ny nx k l zn in let o := pwave ny nx k l zo in let f := pwave ny nx k l (Cscal (- / ksq ny nx dx k l) zo) in
  plasma_ok test ny nx pl n o f a ->
  0 <= dt * coupling_rate p ny nx dx k l <= 2.78 ->
  exists pl' n' o' f', snd (steps (fun pl => rk4_step (hw_of b p dx0 test) pl dt dx) m pl) = Ok pl' /\
    plasma_ok test ny nx pl' n' o' f' (a + INR m * dt) /\
    forall i j, Rabs (f' i j - n' i j) <= Rabs (f i j - n i j).
Proof. exact (c131_stable ny nx dx k l). Qed.
Print Assumptions C131_rk4_stable.
Theorem C131_rk4_unstable ny nx dx k l : (0 < ny)%nat -> (0 < nx)%nat -> dx <> 0 ->
  forall b p dx0 test, backend_ok ny nx b -> pkap p * gsym ny dx k = 0 -> forall zn zo pl a dt m, fits ny nx k l ->
  let n := pwave ny nx k l zn in let o := pwave ny nx k l zo in let f := pwave ny nx k l (Cscal (- / ksq ny nx dx k l) zo) in
  plasma_ok test ny nx pl n o f a ->
  2.79 <= dt * coupling_rate p ny nx dx k l ->
  exists pl' n' o' f', snd (steps (fun pl => rk4_step (hw_of b p dx0 test) pl dt dx) m pl) = Ok pl' /\
    plasma_ok test ny nx pl' n' o' f' (a + INR m * dt) /\
    forall i j, 1.007 ^ m * Rabs (f i j - n i j) <= Rabs (f' i j - n' i j).
Proof. exact (c131_unstable ny nx dx k l). Qed.
Print Assumptions C131_rk4_unstable.
(** ... the largest waves of the box are the fastest, whatever the resolution:
    the limit depends on c1 and the size of the box only ... *)
Theorem C131_largest_scale n dx p k l : (0 < n)%nat -> dx <> 0 -> 0 <= pc1 p -> fits n n k l ->
  let k0 := 2 * PI / (INR n * dx) in
  c1_of p k * (1 + / ksq n n dx k l) <= pc1 p * (1 + / k0 ^ 2) /\
  ((k ^ 2 + l ^ 2)%Z = 1%Z -> pzon p = false -> c1_of p k * (1 + / ksq n n dx k l) = pc1 p * (1 + / k0 ^ 2)).
Proof. exact (c131_scale n dx p k l). Qed.
Print Assumptions C131_largest_scale.
(** ... every row of the README's table of step sizes keeps all waves below the
    limit ... *)
Theorem C131_readme_table c dt : In (c, dt) readme_rows -> forall k l, fits 512 512 k l ->
  0 <= dt * coupling_rate (readme_par c) 512 512 readme_dx k l <= 2.78.
Proof. exact (c131_table c dt). Qed.
Print Assumptions C131_readme_table.
(** ... and for c1 = 2.5, 3, 4 and 5 the next larger step size of the table
    makes the largest zonal wave grow in every step, with the background
    gradient and the bracket switched on. *)
Theorem C131_readme_next_diverges c dt : In (c, dt) readme_next -> forall b dx0 test, backend_ok 512 512 b -> forall zn zo pl a m,
  let W := pwave 512 512 0 1 in
  let n := W zn in let o := W zo in let f := W (Cscal (- / 0.0225) zo) in
  plasma_ok test 512 512 pl n o f a ->
  exists pl' n' o' f', snd (steps (fun pl => rk4_step (hw_of b (readme_par c) dx0 test) pl dt readme_dx) m pl) = Ok pl' /\
    plasma_ok test 512 512 pl' n' o' f' (a + INR m * dt) /\
    forall i j, 1.007 ^ m * Rabs (f i j - n i j) <= Rabs (f' i j - n' i j).
Proof.
  intros I b dx0 test Hb zn zo pl a m. cbv zeta. intros P.
  replace (/ 0.0225) with (/ ksq 512 512 readme_dx 0 1) in * by (rewrite readme_ksq; f_equal; cbn; lra).
  apply (c131_unstable 512 512 readme_dx 0 1); [lia|lia|exact readme_dx0|exact Hb| |unfold fits; lia|exact P|now apply c131_next].
  rewrite gsym_0. ring.
Qed.
Print Assumptions C131_readme_next_diverges.

(** 4 x 4 cells in a box of size 2 pi, c1 = 1, no background gradient: rate 2 *)
Example C131_example : let p := mkPar 0 1 0 1 0 false in let dx := 2 * PI / 4 in
  fits 4 4 1 0 /\ backend_ok 4 4 np_backend /\ dx <> 0 /\ pkap p * gsym 4 dx 1 = 0 /\ coupling_rate p 4 4 dx 1 0 = 2 /\ growth4R (- (1 * 2)) = / 3 /\
  growth4R (- (2 * 2)) = 5 /\
  (let W := pwave 4 4 1 0 in let f := Cscal (- / ksq 4 4 dx 1 0) C0 in
   plasma_ok true 4 4 (pl0 4 4 (W C1) (W C0) (W f) 0) (W C1) (W C0) (W f) 0 /\ W f 0%nat 0%nat - W C1 0%nat 0%nat = - 1).
Proof.
  cbv zeta. pose proof PI_RGT_0. assert (I4 : INR 4 = 4) by (cbn; ring).
  split; [unfold fits; lia|]. split; [now left|]. split; [apply Rgt_not_eq; lra|]. split; [cbn [pkap]; ring|].
  split; [unfold coupling_rate, damp, ksq, c1_of; cbn [pzon pc1 pnu pN andb]; rewrite I4; cbn [pow]; field; lra|].
  split; [unfold growth4R; field|]. split; [unfold growth4R; field|]. split; [apply pl0_ok|].
  unfold pwave, phase. cbn [INR C0 C1 Cscal Cplx.re Cplx.im]. rewrite !Rmult_0_r, Rplus_0_r, cos_0, sin_0. ring.
Qed.
(** c1 = 3: the README's step 0.02 is a row, 0.025 is beyond the limit *)
Example C131_table_example : In (3, 0.02) readme_rows /\ In (3, 0.025) readme_next /\ fits 512 512 0 1.
Proof. cbn [In readme_rows readme_next]. split; [tauto|]. split; [tauto|]. unfold fits. lia. Qed.
