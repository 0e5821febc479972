(** Properties of the diagnostics (C29 - C34, C61).  [stack rest ny nx F] is an
    array whose last two axes are the frame (ny rows of nx points) and whose
    leading axes (time, ...) are [rest]; every statement is for all of them. *)
From Coq Require Import List Arith ZArith Lia Bool Reals Lra.
From Verif Require Import Num NdArray NdFacts ModelGradients Spec GradFacts SumFacts LapFacts GradProps
  Cplx DftFacts SpecFourier ModelPoisson PoissonFacts ModelProperties ModelHW SpecHW HWFacts
  ModelSpectral SpecDiag DiagFacts DiagProps.
Import ListNotations.
Local Open Scope R_scope.

(** C29 *)
Theorem C29_gamma_c rest ny nx (n p : frames) c1 dx : (0 < ny)%nat -> (0 < nx)%nat -> 0 <= c1 ->
  exists g, get_gamma_c (Ok (stack rest ny nx n)) (Ok (stack rest ny nx p)) c1 dx = Ok (build rest g) /\
    forall r, inb rest r -> 0 <= g r /\
      (0 < c1 -> (g r = 0 <-> forall i j, (i < ny)%nat -> (j < nx)%nat -> n r i j = p r i j)).
Proof. exact (c29_gamma_c rest ny nx n p c1 dx). Qed.
Theorem C29_energy rest ny nx (n p : frames) dx : (0 < ny)%nat -> (0 < nx)%nat -> dx <> 0 ->
  exists g, get_energy (Ok (stack rest ny nx n)) (Ok (stack rest ny nx p)) dx = Ok (build rest g) /\
    forall r, inb rest r -> 0 <= g r /\
      (g r = 0 <-> forall i j, (i < ny)%nat -> (j < nx)%nat ->
         n r i j = 0 /\ p r (sh ny i 1) j = p r (sh ny i (-1)) j /\ p r i (sh nx j 1) = p r i (sh nx j (-1))).
Proof. exact (c29_energy rest ny nx n p dx). Qed.
Theorem C29_enstrophy rest ny nx (n o : frames) dx : (0 < ny)%nat -> (0 < nx)%nat ->
  exists g, get_enstrophy (Ok (stack rest ny nx n)) (Ok (stack rest ny nx o)) dx = Ok (build rest g) /\
    forall r, inb rest r -> 0 <= g r /\
      (g r = 0 <-> forall i j, (i < ny)%nat -> (j < nx)%nat -> n r i j = o r i j).
Proof. exact (c29_enstrophy rest ny nx n o dx). Qed.
(** The values themselves, as means over the frame: no factor is lost. *)
Theorem C29_values rest ny nx (n p o : frames) c1 dx : (0 < ny)%nat -> (0 < nx)%nat ->
  get_gamma_c (Ok (stack rest ny nx n)) (Ok (stack rest ny nx p)) c1 dx =
    Ok (build rest (fun r => c1 * gmean ny nx (fun i j => (n r i j - p r i j) ^ 2))) /\
  get_enstrophy (Ok (stack rest ny nx n)) (Ok (stack rest ny nx o)) dx =
    Ok (build rest (fun r => gmean ny nx (fun i j => (n r i j - o r i j) ^ 2) / 2)) /\
  get_energy (Ok (stack rest ny nx n)) (Ok (stack rest ny nx p)) dx =
    Ok (build rest (fun r => gmean ny nx (fun i j => n r i j ^ 2 +
      (((p r i (sh nx j 1) - p r i (sh nx j (-1))) / (2 * dx)) ^ 2 + ((p r (sh ny i 1) j - p r (sh ny i (-1)) j) / (2 * dx)) ^ 2)) / 2)) /\
  get_gamma_n (Ok (stack rest ny nx n)) (Ok (stack rest ny nx p)) dx None =
    Ok (build rest (fun r => - gmean ny nx (fun i j => n r i j * ((p r (sh ny i 1) j - p r (sh ny i (-1)) j) / (2 * dx))))).
Proof. exact (c29_values rest ny nx n p o c1 dx). Qed.
(** frames on which the two are positive: a single density bump *)
Example C29_example : exists g, get_energy (Ok (stack [2%nat] 2 3 (fun r i j => if (nth 0 r 0 + i + j =? 1)%nat then 1 else 0)))
   (Ok (stack [2%nat] 2 3 (fun _ _ _ => 0))) 1 = Ok (build [2%nat] g) /\ 0 < g [1%nat].
Proof.
  destruct (C29_energy [2%nat] 2 3 (fun r i j => if (nth 0 r 0 + i + j =? 1)%nat then 1 else 0) (fun _ _ _ => 0) 1 ltac:(lia) ltac:(lia) ltac:(lra))
    as (g & E & H).
  exists g. split; [exact E|]. destruct (H [1%nat]) as [H1 H2]; [repeat constructor|].
  destruct H1 as [H1|H1]; [exact H1|]. exfalso. symmetry in H1. apply H2 with (i := 0%nat) (j := 0%nat) in H1; [|lia|lia].
  cbn in H1. lra.
Qed.

(** C30 *)
Theorem C30_gamma_n_constants rest ny nx dx (n p : frames) (a b : list nat -> R) : (0 < ny)%nat -> (0 < nx)%nat ->
  get_gamma_n (Ok (stack rest ny nx (fun r i j => n r i j + a r))) (Ok (stack rest ny nx (fun r i j => p r i j + b r))) dx None =
  get_gamma_n (Ok (stack rest ny nx n)) (Ok (stack rest ny nx p)) dx None.
Proof. intros Hy Hx. exact (c30_shift rest ny nx dx Hy Hx n p a b). Qed.
Theorem C30_gamma_n_antisymmetric rest ny nx dx (n p : frames) : (0 < ny)%nat -> (0 < nx)%nat ->
  get_gamma_n (Ok (stack rest ny nx n)) (Ok (stack rest ny nx p)) dx None =
  neg_ (get_gamma_n (Ok (stack rest ny nx p)) (Ok (stack rest ny nx n)) dx None).
Proof. intros Hy Hx. exact (c30_antisym rest ny nx dx Hy Hx n p). Qed.
Theorem C30_gamma_n_self rest ny nx dx (n : frames) : (0 < ny)%nat -> (0 < nx)%nat ->
  get_gamma_n (Ok (stack rest ny nx n)) (Ok (stack rest ny nx n)) dx None = Ok (build rest (fun _ => 0)).
Proof. intros Hy Hx. exact (c30_self rest ny nx dx Hy Hx n). Qed.
Theorem C30_gamma_n_bilinear rest ny nx dx (n n' p p' : frames) a b : (0 < ny)%nat -> (0 < nx)%nat ->
  get_gamma_n (Ok (stack rest ny nx (fun r i j => a * n r i j + b * n' r i j))) (Ok (stack rest ny nx p)) dx None =
    add_ (mul_ (sc a) (get_gamma_n (Ok (stack rest ny nx n)) (Ok (stack rest ny nx p)) dx None))
         (mul_ (sc b) (get_gamma_n (Ok (stack rest ny nx n')) (Ok (stack rest ny nx p)) dx None)) /\
  get_gamma_n (Ok (stack rest ny nx n)) (Ok (stack rest ny nx (fun r i j => a * p r i j + b * p' r i j))) dx None =
    add_ (mul_ (sc a) (get_gamma_n (Ok (stack rest ny nx n)) (Ok (stack rest ny nx p)) dx None))
         (mul_ (sc b) (get_gamma_n (Ok (stack rest ny nx n)) (Ok (stack rest ny nx p')) dx None)).
Proof. intros Hy Hx. exact (c30_bilinear rest ny nx dx Hy Hx n n' p p' a b). Qed.
Theorem C30_gamma_c_common_field rest ny nx dx (n p h : frames) c1 :
  get_gamma_c (Ok (stack rest ny nx (fun r i j => n r i j + h r i j))) (Ok (stack rest ny nx (fun r i j => p r i j + h r i j))) c1 dx =
  get_gamma_c (Ok (stack rest ny nx n)) (Ok (stack rest ny nx p)) c1 dx.
Proof. exact (c30_gamma_c rest ny nx dx n p h c1). Qed.
(** a flux that is not zero: 4 rows, density 1 in row 0, potential 1 in row 1 *)
Example C30_example :
  get_gamma_n (Ok (grid 4 1 (fun i _ => if (i =? 0)%nat then 1 else 0))) (Ok (grid 4 1 (fun i _ => if (i =? 1)%nat then 1 else 0))) 1 None
  = Ok (scal (- (1 / 8))).
Proof.
  unfold grid. rewrite (gamma_n_stack [] 4 1) by lia. unfold scal. f_equal. apply build_ext. intros r _.
  unfold gmean, gsum. cbn [rsum]. rewrite !cdy_R. unfold sh, pidx. cbn. change (Pos.to_nat 1) with 1%nat. change (Pos.to_nat 2) with 2%nat. change (Pos.to_nat 3) with 3%nat. cbn. field.
Qed.

(** C31 *)
Theorem C31_parseval rest ny nx (n : frames) : (0 < ny)%nat -> (0 < nx)%nat ->
  get_energy_N_spectrally (Ok (stack rest ny nx n)) = Ok (build rest (fun r => gmean ny nx (fun i j => n r i j ^ 2) / 2)).
Proof. intros Hy Hx. exact (energy_N_stack rest ny nx Hy Hx n). Qed.

(** C32 *)
Theorem C32_even_square rest m (n p : frames) dx : (0 < m)%nat ->
  get_gamma_n_spectrally (Ok (stack rest (2 * m) (2 * m) n)) (Ok (stack rest (2 * m) (2 * m) p)) dx =
  Ok (build rest (fun r => - gmean (2 * m) (2 * m) (fun i j => n r i j * specdy (2 * m) (2 * m) dx (p r) i j))).
Proof. exact (c32_even rest m n p dx). Qed.
Theorem C32_odd_refuted m dx : (1 <= m)%nat -> dx <> 0 -> exists n p : nat -> nat -> R,
  get_gamma_n_spectrally (Ok (grid (2 * m + 1) (2 * m + 1) n)) (Ok (grid (2 * m + 1) (2 * m + 1) p)) dx = Ok (scal 0) /\
  - gmean (2 * m + 1) (2 * m + 1) (fun i j => n i j * specdy (2 * m + 1) (2 * m + 1) dx p i j) <> 0.
Proof. intros Hm Hd. exists (sinw (2 * m + 1) m), (cosw (2 * m + 1) m). exact (c32_odd m Hm dx Hd). Qed.
Theorem C32_nonsquare_raises rest ny nx (n p : frames) dx : (2 <= ny)%nat -> (2 <= nx)%nat -> ny <> nx ->
  get_gamma_n_ky (Ok (stack rest ny nx n)) (Ok (stack rest ny nx p)) dx = Exn ValueError /\
  get_gamma_n_spectrally (Ok (stack rest ny nx n)) (Ok (stack rest ny nx p)) dx = Exn ValueError /\
  get_energy_V_ky (Ok (stack rest ny nx p)) dx = Exn ValueError.
Proof. exact (c32_nonsquare rest ny nx n p dx). Qed.

(** C33 *)
Theorem C33_ordered rest n (d p : frames) dx : (0 < n)%nat -> dx <> 0 ->
  exists e eN eV,
    get_energy (Ok (stack rest n n d)) (Ok (stack rest n n p)) dx = Ok (build rest e) /\
    get_energy_N_spectrally (Ok (stack rest n n d)) = Ok (build rest eN) /\
    get_energy_V_spectrally (Ok (stack rest n n p)) dx = Ok (build rest eV) /\
    forall r, inb rest r -> e r <= eN r + eV r.
Proof. exact (c33 rest n d p dx). Qed.
Theorem C33_spectral_kinetic_energy rest n (p : frames) dx : (0 < n)%nat -> dx <> 0 ->
  get_energy_V_spectrally (Ok (stack rest n n p)) dx =
  Ok (build rest (fun r => - gmean n n (fun i j => p r i j * re (speclap n n dx (p r) i j)) / 2)).
Proof. exact (c33_value rest n p dx). Qed.

(** C34 *)
Theorem C34_enstrophies_agree rest ny nx (n p : frames) dx : (0 < ny)%nat -> (0 < nx)%nat ->
  get_enstrophy_phi (Ok (stack rest ny nx n)) (Ok (stack rest ny nx p)) dx =
  get_enstrophy (Ok (stack rest ny nx n)) (np_periodic_laplace (Ok (stack rest ny nx p)) dx) dx.
Proof. exact (c34 rest ny nx n p dx). Qed.

(** C61: phase shift spectrum *)
Theorem C61_value_frame ny nx (n p : nat -> nat -> R) : (0 < ny)%nat -> (0 < nx)%nat ->
  get_delta_ky (Ok (grid ny nx n)) (Ok (grid ny nx p)) =
  Ok (build [Nat.min (nx / 2) ny] (fun ix => rsum nx (fun l =>
      Carg (Cmul (Cconj (dft2 ny nx (fun i j => RtoC (n i j)) (Z.of_nat (nth 0 ix 0%nat)) (Z.of_nat l)))
                 (dft2 ny nx (fun i j => RtoC (p i j)) (Z.of_nat (nth 0 ix 0%nat)) (Z.of_nat l)))) / INR nx)).
Proof. intros Hy Hx. exact (delta_stack [] ny nx Hy Hx (fun _ => n) (fun _ => p)). Qed.
Theorem C61_value_series nt ny nx (n p : frames) : (0 < ny)%nat -> (0 < nx)%nat ->
  get_delta_ky (Ok (stack [nt] ny nx n)) (Ok (stack [nt] ny nx p)) =
  Ok (build [(ny / 2)%nat; nt] (fun ix => rsum nx (fun l =>
      Carg (Cmul (Cconj (dft2 ny nx (fun i j => RtoC (n (tl ix) i j)) (Z.of_nat (nth 0 ix 0%nat)) (Z.of_nat l)))
                 (dft2 ny nx (fun i j => RtoC (p (tl ix) i j)) (Z.of_nat (nth 0 ix 0%nat)) (Z.of_nat l)))) / INR nx)).
Proof.
  intros Hy Hx. rewrite (delta_stack [nt] ny nx Hy Hx n p). unfold delta_rows. cbn [length nth].
  replace (Nat.min (ny / 2) ny) with (ny / 2)%nat; [reflexivity|]. symmetry. apply Nat.min_l. apply Nat.div_le_upper_bound; lia.
Qed.
Theorem C61_in_phase nt ny nx (n : frames) (c : list nat -> R) : (0 < ny)%nat -> (0 < nx)%nat ->
  (forall r, inb [nt] r -> 0 < c r) ->
  get_delta_ky (Ok (stack [nt] ny nx n)) (Ok (stack [nt] ny nx (fun r i j => c r * n r i j))) = Ok (build [(ny / 2)%nat; nt] (fun _ => 0)).
Proof.
  intros Hy Hx Hc. pose proof (delta_self [nt] ny nx Hy Hx n c Hc) as E. unfold delta_rows in E. cbn [length nth] in E.
  replace (Nat.min (ny / 2) ny) with (ny / 2)%nat in E; [exact E|]. symmetry. apply Nat.min_l. apply Nat.div_le_upper_bound; lia.
Qed.
Theorem C61_shift nt ny nx (n : frames) (s m : Z) k t : (0 < ny)%nat -> (0 < nx)%nat -> (t < nt)%nat -> (k < ny / 2)%nat ->
  - PI < 2 * PI * IZR (Z.of_nat k * s) / INR ny - 2 * PI * IZR m <= PI ->
  (forall l, (l < nx)%nat -> dft2 ny nx (fun i j => RtoC (n [t] i j)) (Z.of_nat k) (Z.of_nat l) <> C0) ->
  exists a, get_delta_ky (Ok (stack [nt] ny nx n)) (Ok (stack [nt] ny nx (fun r i j => n r (sh ny i s) j))) = Ok a /\
    get a [k; t] = 2 * PI * IZR (Z.of_nat k * s) / INR ny - 2 * PI * IZR m.
Proof.
  intros Hy Hx Ht Hk Hb Hn. apply (delta_shift [nt] ny nx Hy Hx n s m k [t]); auto.
  - repeat constructor. exact Ht.
  - unfold delta_rows. cbn [length nth]. assert (ny / 2 <= ny)%nat by (apply Nat.div_le_upper_bound; lia). lia.
Qed.
Theorem C61_bounded rest ny nx (n p : frames) : (0 < ny)%nat -> (0 < nx)%nat -> exists s g,
  get_delta_ky (Ok (stack rest ny nx n)) (Ok (stack rest ny nx p)) = Ok (build s g) /\ forall ix, - PI <= g ix <= PI.
Proof. intros Hy Hx. exists (delta_rows rest ny nx :: rest). exact (delta_bound rest ny nx Hy Hx n p). Qed.
(** On a single frame the number of rows follows nx, not ny: with nx = 2 and
    ny = 6 one wavenumber is returned instead of three. *)
Theorem C61_single_frame_rows_refuted : exists a,
  get_delta_ky (Ok (grid 6 2 (fun _ _ => 1))) (Ok (grid 6 2 (fun _ _ => 1))) = Ok a /\ shape a = [1%nat] /\ shape a <> [(6 / 2)%nat].
Proof.
  eexists. split; [apply C61_value_frame; lia|]. split; [reflexivity|]. cbn. discriminate.
Qed.
(** the hypotheses of C61_shift are met by a single point (a delta peak has no vanishing mode) *)
Example C61_shift_nonvacuous : forall l, (l < 2)%nat ->
  dft2 4 2 (fun i j => RtoC (if (i =? 0)%nat && (j =? 0)%nat then 1 else 0)) (Z.of_nat 1) (Z.of_nat l) <> C0.
Proof. exact peak_modes. Qed.

Print Assumptions C29_energy.
Print Assumptions C30_gamma_n_antisymmetric.
Print Assumptions C31_parseval.
Print Assumptions C32_even_square.
Print Assumptions C32_odd_refuted.
Print Assumptions C33_ordered.
Print Assumptions C34_enstrophies_agree.
Print Assumptions C61_shift.
