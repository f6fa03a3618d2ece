(** Property C84: power spectra of mocks, on average over seeds. Vocabulary in Ens_Spec.v and Mock_Spec.v. *)
Require Import Reals Lra Lia ZArith List Permutation.
From Verif Require Import Base Vec3 Isometry_Model Rsd_Model Rsd_Spec Rsd_Proof Density_Proof Mock_Model Mock_Spec Mesh_Model Fourier_Proof Mock_Thm Mock_Thm2 Interlace_Thm Mesh_Thm Ens_Spec Ens_Proof.
Import ListNotations.
Open Scope R_scope.

(** C84. Modes are uncorrelated, and the variance of each one is the power asked for divided by the volume of the box, whichever line of
    sight the power depends on, with phases inverted or not. *)
Theorem C84_modes : forall {S} (E : (S -> R) -> R) freq box n power los (noise : S -> idx -> cplx) inverted dk, expectation E -> white E n noise ->
  (forall s, set_complex_delta_field freq box n power los (noise s) inverted = Ok (dk s)) ->
  forall k k', within n k -> within n k' ->
    E (fun s => re (cross (dk s k) (dk s k'))) = (if idx_dec k k' then asked power los (wave freq box n k) / volume box else 0) /\
    E (fun s => im (cross (dk s k) (dk s k'))) = 0.
Proof.
  intros S E freq box n power los noise inverted dk EX W H k k' K K'. pose proof (modes E freq box n power los noise inverted dk EX W H k k' K K') as Q. apply CE_parts in Q. destruct Q as [Q1 Q2]. unfold same in Q1.
  rewrite Q1, Q2. destruct (idx_dec k k'); split; ring.
Qed.
Print Assumptions C84_modes.
Lemma real_field : forall neg box center n dk bias b d, bias_is bias b -> set_real_delta_field neg box center n dk bias false = Ok d -> forall x, d x = b * c2r n dk x.
Proof. intros neg box center n dk bias b d [ [-> ->] | ->] H x; cbn in H; apply ok_inj in H; subst d; ring. Qed.
(** The field has no mean at any point. *)
Theorem C84_mean : forall {S} (E : (S -> R) -> R) freq neg box center n power los (noise : S -> idx -> cplx) inverted dk bias b d, expectation E -> white E n noise -> bias_is bias b ->
  (forall s, set_complex_delta_field freq box n power los (noise s) inverted = Ok (dk s)) -> (forall s, set_real_delta_field neg box center n (dk s) bias false = Ok (d s)) ->
  forall x, within n x -> E (fun s => d s x) = 0.
Proof.
  intros S E freq neg box center n power los noise inverted dk bias b d EX W B H H' x X.
  rewrite (E_ext E EX _ (fun s => b * c2r n (dk s) x)) by (intros s; apply (real_field _ _ _ _ _ _ _ _ B (H' s))). rewrite (E_scale E EX).
  unfold c2r. rewrite (E_sum E EX (fun k s => re (cmul (dk s k) (expi (phase n k x))))). rewrite (Rsum_map_ext _ (fun _ => 0 * 0)); [rewrite Rsum_scale; ring|].
  intros k K. apply cells_In in K. transitivity (re (CE E (fun s => cmul (expi (phase n k x)) (dk s k)))).
  - cbn [CE re]. apply (E_ext E EX). intros s. cbn. ring.
  - rewrite CE_mul, (modes_mean E freq box n power los noise inverted dk EX W H k K) by auto. cbn. ring.
Qed.
Print Assumptions C84_mean.

Section Real.
Context {S : Type} (E : (S -> R) -> R) (freq : nat -> nat -> BinNums.Z) (neg : nat -> nat -> bool) (box center : vec) (n : idx) (power : R -> option R -> R) (los0 : option vec) (noise : S -> idx -> cplx) (inverted : bool) (dk : S -> idx -> cplx).
Hypothesis EX : expectation E. Hypothesis W : white E n noise. Hypothesis EV : even_power freq box n power los0. Hypothesis NE : nonempty n.
Hypothesis H : forall s, set_complex_delta_field freq box n power los0 (noise s) inverted = Ok (dk s).
Lemma dk_hermitian : forall s, hermitian n (dk s).
Proof. intros s. apply (even_hermitian freq box n power los0 (noise s) inverted (dk s) EV); auto. apply W. Qed.
(** Modes multiplied by a real number that is the same for opposite modes. *)
Lemma r2c_weighted : forall (t : idx -> R) s k, within n k ->
  r2c n (c2r n (fun k => cscale (t k) (dk s k))) k = cscale ((t k + t (opposite n k)) / 2) (dk s k).
Proof.
  intros t s k K. rewrite r2c_c2r_any by auto. unfold symmetrised. rewrite (dk_hermitian s k K). apply cplx_eq; cbn; field.
Qed.
Lemma weighted_modes : forall (t : idx -> R) k k', within n k -> within n k' ->
  CE E (fun s => cross (r2c n (c2r n (fun k => cscale (t k) (dk s k))) k) (r2c n (c2r n (fun k => cscale (t k) (dk s k))) k')) =
  creal (same k k' * (((t k + t (opposite n k)) / 2) ^ 2 * asked power los0 (wave freq box n k) / volume box)).
Proof.
  intros t k k' K K'. rewrite (CE_ext E EX _ (fun s => cmul (creal ((t k + t (opposite n k)) / 2 * ((t k' + t (opposite n k')) / 2))) (cross (dk s k) (dk s k')))).
  2:{ intros s. rewrite !r2c_weighted by auto. apply cplx_eq; cbn; ring. }
  rewrite CE_mul, (modes E freq box n power los0 noise inverted dk EX W H k k' K K'), creal_mul by auto. f_equal.
  unfold same. destruct (idx_dec k k') as [->|]; [|ring]. unfold Rdiv. ring.
Qed.
End Real.
(** Modes of the density contrast of the mock: uncorrelated, of variance b^2 P / V. *)
Theorem C84_power : forall {S} (E : (S -> R) -> R) freq neg box center n power los0 (noise : S -> idx -> cplx) inverted dk bias b d, expectation E -> white E n noise -> bias_is bias b ->
  even_power freq box n power los0 -> nonempty n ->
  (forall s, set_complex_delta_field freq box n power los0 (noise s) inverted = Ok (dk s)) -> (forall s, set_real_delta_field neg box center n (dk s) bias false = Ok (d s)) ->
  forall k k', within n k -> within n k' ->
    E (fun s => re (cross (r2c n (d s) k) (r2c n (d s) k'))) = (if idx_dec k k' then b ^ 2 * asked power los0 (wave freq box n k) / volume box else 0) /\
    E (fun s => im (cross (r2c n (d s) k) (r2c n (d s) k'))) = 0.
Proof.
  intros S E freq neg box center n power los0 noise inverted dk bias b d EX W B EV NE H H' k k' K K'.
  pose proof (weighted_modes E freq box n power los0 noise inverted dk EX W EV NE H (fun _ => b) k k' K K') as Q.
  rewrite (CE_ext E EX _ (fun s => cross (r2c n (d s) k) (r2c n (d s) k'))) in Q.
  2:{ intros s. assert (R : forall k, r2c n (d s) k = r2c n (c2r n (fun k => cscale b (dk s k))) k).
      { intros j. apply r2c_ext. intros x _. rewrite (real_field _ _ _ _ _ _ _ _ B (H' s)), (c2r_scale n (fun _ => b)), Rsum_scale. auto. }
      rewrite !R. auto. }
  apply CE_parts in Q. destruct Q as [Q1 Q2]. unfold same in Q1. rewrite Q1, Q2. destruct (idx_dec k k'); split; try ring. unfold Rdiv. replace ((b + b) * / 2) with b by field. ring.
Qed.
Print Assumptions C84_power.

(** The phase of a mode between two cells is the product of its wave vector and of their separation. *)
Lemma separation : forall freq box center n k x y, proper_freq freq -> solid box -> within n k -> within n x -> within n y ->
  expi (phase n k x - phase n k y) = expi (vdot (wave freq box n k) (vsub (node box center n x) (node box center n y))).
Proof.
  intros freq box center n k x y F (B1 & B2 & B3) (K1 & K2 & K3) X Y. destruct (F _ _ K1) as [ [p P] _]. destruct (F _ _ K2) as [ [q Q] _]. destruct (F _ _ K3) as [ [r R0] _].
  rewrite <- (expi_period (phase n k x - phase n k y) (p * (Z.of_nat (ix x) - Z.of_nat (ix y)) + q * (Z.of_nat (iy x) - Z.of_nat (iy y)) + r * (Z.of_nat (iz x) - Z.of_nat (iz y)))). f_equal.
  unfold phase, wave, vdot, vsub, node. cbn [vx vy vz]. rewrite P, Q, R0. rewrite !plus_IZR, !mult_IZR, !minus_IZR, <- !INR_IZR_INZ.
  assert (INR (ix n) <> 0) by (apply not_0_INR; lia). assert (INR (iy n) <> 0) by (apply not_0_INR; lia). assert (INR (iz n) <> 0) by (apply not_0_INR; lia). field. repeat split; auto; lra.
Qed.
(** Two-point function: it only depends on the separation, and is the Fourier transform of the power spectrum. *)
Theorem C84_correlation : forall {S} (E : (S -> R) -> R) freq neg box center n power los0 (noise : S -> idx -> cplx) inverted dk bias b d, expectation E -> white E n noise -> bias_is bias b ->
  proper_freq freq -> even_power freq box n power los0 -> solid box ->
  (forall s, set_complex_delta_field freq box n power los0 (noise s) inverted = Ok (dk s)) -> (forall s, set_real_delta_field neg box center n (dk s) bias false = Ok (d s)) ->
  forall x y, within n x -> within n y ->
    E (fun s => d s x * d s y) = Rsum (map (fun k => b ^ 2 * asked power los0 (wave freq box n k) / volume box * cos (vdot (wave freq box n k) (vsub (node box center n x) (node box center n y)))) (cells n)).
Proof.
  intros S E freq neg box center n power los0 noise inverted dk bias b d EX W B PF EV SB H H' x y X Y.
  assert (HM : forall s, hermitian n (dk s)) by (intros s; apply (even_hermitian freq box n power los0 (noise s) inverted (dk s) EV); auto; apply W).
  assert (Q : CE E (fun s => cmul (creal (c2r n (dk s) x)) (creal (c2r n (dk s) y))) =
    csum (map (fun k => cmul (creal (asked power los0 (wave freq box n k) / volume box)) (expi (phase n k x - phase n k y))) (cells n))).
  { rewrite (CE_ext E EX _ (fun s => csum (map (fun k => csum (map (fun k' => cmul (cmul (expi (phase n k x)) (expi (- phase n k' y))) (cross (dk s k) (dk s k'))) (cells n))) (cells n)))).
    2:{ intros s. rewrite (creal_c2r n (dk s) x (HM s)).
        replace (creal (c2r n (dk s) y)) with (conj (creal (c2r n (dk s) y))) by (apply cplx_eq; cbn; ring). rewrite (creal_c2r n (dk s) y (HM s)).
        rewrite <- csum_mul_r. apply csum_ext. intros k _. rewrite conj_csum. rewrite <- csum_mul. apply csum_ext. intros k' _. rewrite cross_conj, conj_mul, expi_conj. ring. }
    rewrite (CE_sum E EX). apply csum_ext. intros k K. rewrite (CE_sum E EX).
    rewrite (csum_single _ (cells n) k (cells_nodup n) K).
    - apply cells_In in K. rewrite CE_mul, (modes E freq box n power los0 noise inverted dk EX W H k k K K) by auto. rewrite same_refl, Rmult_1_l. unfold Rminus. rewrite expi_add. ring.
    - intros k' K' D. apply cells_In in K, K'. rewrite CE_mul, (modes E freq box n power los0 noise inverted dk EX W H k k' K K') by auto. rewrite same_diff by auto. apply cplx_eq; cbn; ring. }
  apply (f_equal re) in Q. cbn [CE re] in Q. rewrite (E_ext E EX _ (fun s => b ^ 2 * re (cmul (creal (c2r n (dk s) x)) (creal (c2r n (dk s) y))))).
  2:{ intros s. rewrite !(real_field _ _ _ _ _ _ _ _ B (H' s)). cbn. ring. }
  rewrite (E_scale E EX), Q, csum_re, <- Rsum_scale. apply Rsum_map_ext. intros k K. apply cells_In in K. rewrite (separation freq box center n k x y PF SB K X Y). cbn. unfold Rdiv. ring.
Qed.
Print Assumptions C84_correlation.
(** Redshift space distortions along a fixed direction: the enhancement of a mode is the mean of those for its wave vector and for that of
    the opposite mode of the mesh. *)
Theorem C84_all_modes : forall {S} (E : (S -> R) -> R) freq neg box center n power los0 (noise : S -> idx -> cplx) inverted dk bias b d f los u out, expectation E -> white E n noise -> bias_is bias b ->
  proper_freq freq -> even_power freq box n power los0 -> solid box -> los_means los u ->
  (forall s, set_complex_delta_field freq box n power los0 (noise s) inverted = Ok (dk s)) -> (forall s, set_real_delta_field neg box center n (dk s) bias false = Ok (d s)) ->
  (forall s, eulerian_set_rsd freq neg box center n (dk s) (d s) (FNum f) (Some los) = Ok (out s)) ->
  forall k k', within n k -> within n k' ->
    E (fun s => re (cross (r2c n (out s) k) (r2c n (out s) k'))) = (if idx_dec k k' then (b + f * (mu2 (wave freq box n k) u + mu2 (wave freq box n (opposite n k)) u) / 2) ^ 2 * asked power los0 (wave freq box n k) / volume box else 0) /\
    E (fun s => im (cross (r2c n (out s) k) (r2c n (out s) k'))) = 0.
Proof.
  intros S E freq neg box center n power los0 noise inverted dk bias b d f los u out EX W B PF EV SB L H H' H2 k k' K K'. pose proof (within_nonempty n k K) as NE.
  set (t := fun k => b + f * mu2 (wave freq box n k) u).
  pose proof (weighted_modes E freq box n power los0 noise inverted dk EX W EV NE H t k k' K K') as Q.
  rewrite (CE_ext E EX _ (fun s => cross (r2c n (out s) k) (r2c n (out s) k'))) in Q.
  2:{ intros s. destruct (C40_fixed freq neg box center n (dk s) (d s) (FNum f) los u SB L) as (o & O1 & O2). rewrite (H2 s) in O1. apply ok_inj in O1. subst o.
      assert (R : forall j, r2c n (out s) j = r2c n (c2r n (fun k => cscale (t k) (dk s k))) j).
      { intros j. apply r2c_ext. intros x X. rewrite (O2 x X). cbn [growth]. rewrite (real_field _ _ _ _ _ _ _ _ B (H' s)), c2r_scale. unfold weighted, c2r, t. rewrite <- !Rsum_scale, <- Rsum_add.
        apply Rsum_map_ext. intros i _. ring. }
      rewrite !R. auto. }
  apply CE_parts in Q. destruct Q as [Q1 Q2]. unfold same in Q1. rewrite Q1, Q2. split; [|auto]. destruct (idx_dec k k'); [|ring].
  replace ((t k + t (opposite n k)) / 2) with (b + f * (mu2 (wave freq box n k) u + mu2 (wave freq box n (opposite n k)) u) / 2) by (unfold t; field). ring.
Qed.
Print Assumptions C84_all_modes.
(** Redshift space distortions along a fixed direction: away from the faces of the cube of modes, the variance is that of
    Kaiser's formula. *)
Theorem C84_kaiser : forall {S} (E : (S -> R) -> R) freq neg box center n power los0 (noise : S -> idx -> cplx) inverted dk bias b d f los u out, expectation E -> white E n noise -> bias_is bias b ->
  proper_freq freq -> even_power freq box n power los0 -> solid box -> los_means los u ->
  (forall s, set_complex_delta_field freq box n power los0 (noise s) inverted = Ok (dk s)) -> (forall s, set_real_delta_field neg box center n (dk s) bias false = Ok (d s)) ->
  (forall s, eulerian_set_rsd freq neg box center n (dk s) (d s) (FNum f) (Some los) = Ok (out s)) ->
  forall k k', within n k -> within n k' -> resolved_mode freq n k ->
    E (fun s => re (cross (r2c n (out s) k) (r2c n (out s) k'))) = (if idx_dec k k' then (b + f * mu2 (wave freq box n k) u) ^ 2 * asked power los0 (wave freq box n k) / volume box else 0) /\
    E (fun s => im (cross (r2c n (out s) k) (r2c n (out s) k'))) = 0.
Proof.
  intros S E freq neg box center n power los0 noise inverted dk bias b d f los u out EX W B PF EV SB L H H' H2 k k' K K' RM.
  destruct (C84_all_modes E freq neg box center n power los0 noise inverted dk bias b d f los u out EX W B PF EV SB L H H' H2 k k' K K') as [Q1 Q2]. rewrite Q1, Q2. split; auto. destruct (idx_dec k k'); auto. f_equal. f_equal. f_equal.
  rewrite (wave_opposite freq box n k PF K RM). replace (mu2 (vscale (-1) (wave freq box n k)) u) with (mu2 (wave freq box n k) u); [field|]. unfold mu2, vdot, vscale. cbn [vx vy vz]. f_equal; [ring|f_equal; ring].
Qed.
Print Assumptions C84_kaiser.

Lemma CE_real : forall {S} (E : (S -> R) -> R), expectation E -> forall (c : cplx) (f : S -> R), CE E (fun s => cmul (creal (f s)) c) = cmul (creal (E f)) c.
Proof.
  intros S E EX c f. apply cplx_eq; cbn [CE cmul creal re im].
  - transitivity (E (fun s => re c * f s)); [apply (E_ext E EX); intros; ring|]. rewrite (E_scale E EX). ring.
  - transitivity (E (fun s => im c * f s)); [apply (E_ext E EX); intros; ring|]. rewrite (E_scale E EX). ring.
Qed.
(** A sum of uncorrelated numbers, of mean zero and variance one, with complex factors. *)
Lemma noise_power_v : forall {S} (E : (S -> R) -> R) n (noise : S -> idx -> R) (v : idx -> R) (c : idx -> cplx) (a : cplx), expectation E ->
  (forall x, within n x -> E (fun s => noise s x) = 0) -> (forall x y, within n x -> within n y -> E (fun s => noise s x * noise s y) = same x y * v x) ->
  E (fun s => modulus2 (cadd a (csum (map (fun x => cmul (creal (noise s x)) (c x)) (cells n))))) = modulus2 a + Rsum (map (fun x => v x * modulus2 (c x)) (cells n)).
Proof.
  intros S E n noise v c a EX W1 W2. set (B := fun s => csum (map (fun x => cmul (creal (noise s x)) (c x)) (cells n))).
  assert (M : CE E B = C0).
  { unfold B. rewrite (CE_sum E EX (fun x s => cmul (creal (noise s x)) (c x))). apply csum_zero. intros x X. apply cells_In in X. rewrite (CE_real E EX), (W1 x X). apply cplx_eq; cbn; ring. }
  assert (V : CE E (fun s => cross (B s) (B s)) = csum (map (fun x => cmul (creal (v x)) (cross (c x) (c x))) (cells n))).
  { rewrite (CE_ext E EX _ (fun s => csum (map (fun x => csum (map (fun y => cmul (creal (noise s x * noise s y)) (cross (c x) (c y))) (cells n))) (cells n)))).
    2:{ intros s. rewrite cross_conj. unfold B. rewrite <- csum_mul_r. apply csum_ext. intros x _. rewrite conj_csum, <- csum_mul. apply csum_ext. intros y _. apply cplx_eq; cbn; ring. }
    rewrite (CE_sum E EX). apply csum_ext. intros x X. rewrite (CE_sum E EX). rewrite (csum_single _ (cells n) x (cells_nodup n) X).
    - apply cells_In in X. rewrite (CE_real E EX), (W2 x x X X), same_refl. apply cplx_eq; cbn; ring.
    - intros y Y D. apply cells_In in X, Y. rewrite (CE_real E EX), (W2 x y X Y), same_diff by auto. apply cplx_eq; cbn; ring. }
  assert (M1 : E (fun s => re (B s)) = 0) by exact (f_equal re M). assert (M2 : E (fun s => im (B s)) = 0) by exact (f_equal im M). assert (V1 := f_equal re V). cbn [CE re] in V1.
  transitivity (E (fun s => modulus2 a * 1 + (2 * re a * re (B s) + (2 * im a * im (B s) + re (cross (B s) (B s)))))).
  - apply (E_ext E EX). intros s. fold (B s). unfold modulus2. cbn. ring.
  - rewrite !(E_add E EX), !(E_scale E EX), (E_const E EX), M1, M2. rewrite V1, csum_re. rewrite (Rsum_map_ext _ (fun x => v x * modulus2 (c x))); [ring|]. intros x _. rewrite modulus2_cross. cbn. ring.
Qed.
Lemma noise_power : forall {S} (E : (S -> R) -> R) n (noise : S -> idx -> R) (c : idx -> cplx) (a : cplx), expectation E -> white_cells E n noise ->
  E (fun s => modulus2 (cadd a (csum (map (fun x => cmul (creal (noise s x)) (c x)) (cells n))))) = modulus2 a + Rsum (map (fun x => modulus2 (c x)) (cells n)).
Proof.
  intros S E n noise c a EX (W1 & W2). rewrite (noise_power_v E n noise (fun _ => 1) c a EX W1).
  - f_equal. apply Rsum_map_ext. intros. ring.
  - intros x y X Y. rewrite (W2 x y X Y). ring.
Qed.
(** Adding white noise to the field adds to the power of every mode the inverse of the density, averaged over the box. *)
Theorem C84_shot : forall {S} (E : (S -> R) -> R) m (noise : S -> idx -> R) d b out, expectation E -> white_cells E (m_n m) noise -> solid (m_box m) ->
  m_delta_r m = Some d -> m_nbar m = Some b -> (forall s, white_noise m (noise s) = Ok (out s)) ->
  forall k, within (m_n m) k -> E (fun s => modulus2 (r2c (m_n m) (out s) k)) = modulus2 (r2c (m_n m) d k) + mean_inverse (m_n m) b / volume (m_box m).
Proof.
  intros S E m noise d b out EX W (B1 & B2 & B3) MD MB H k K. pose proof (within_nonempty _ _ K) as NE. pose proof (size_pos _ NE) as SP. destruct NE as (N1 & N2 & N3).
  set (n := m_n m) in *. set (box := m_box m) in *. unfold white_noise in H. rewrite MD, MB in H. cbn [attribute bind] in H. fold n box in H. cbv zeta in H.
  set (dv := vx (cell_size box n) * vy (cell_size box n) * vz (cell_size box n)) in *.
  assert (DV : dv = volume box / size n). { unfold dv, volume, size, cell_size. cbn [vx vy vz]. field. repeat split; apply not_0_INR; lia. }
  assert (VP : 0 < volume box) by (unfold volume; repeat apply Rmult_lt_0_compat; auto).
  assert (DP : 0 < dv) by (rewrite DV; apply Rdiv_lt_0_compat; auto).
  assert (T : forall x, times b (fun _ => dv) x = value b x * dv) by (intros x; destruct b; auto).
  assert (P : forall x, within n x -> 0 < value b x).
  { intros x X. destruct (Rlt_dec 0 (value b x)) as [L|L]; auto. exfalso.
    assert (N : forall s : S, False). { intros s. pose proof (tabulate_inv _ _ _ _ (H s) x X) as Q. cbv beta in Q. rewrite T in Q. destruct (Rlt_dec 0 (value b x * dv)) as [Z|Z]; [|discriminate]. apply L. nra. }
    pose proof (E_ext E EX (fun _ => 1) (fun _ => 0) (fun s => False_ind _ (N s))) as Q. rewrite !(E_const E EX) in Q. lra. }
  assert (O : forall s x, within n x -> out s x = d x + noise s x / sqrt (value b x * dv)).
  { intros s x X. pose proof (tabulate_inv _ _ _ _ (H s) x X) as Q. cbv beta in Q. rewrite T in Q. destruct (Rlt_dec 0 (value b x * dv)); [|discriminate]. symmetry. apply ok_inj in Q. auto. }
  pose proof (noise_power E n noise (fun x => cscale (/ size n / sqrt (value b x * dv)) (expi (- phase n k x))) (r2c n d k) EX W) as Q.
  rewrite (E_ext E EX _ (fun s => modulus2 (r2c n (out s) k))) in Q.
  2:{ intros s. f_equal. rewrite (r2c_ext n (out s) (fun x => d x + noise s x / sqrt (value b x * dv)) k (fun x X => O s x X)). rewrite r2c_add. f_equal. rewrite (r2c_csum n (fun x => noise s x / sqrt (value b x * dv))), <- csum_mul. apply csum_ext. intros x _. apply cplx_eq; cbn; unfold Rdiv; ring. }
  rewrite Q. f_equal. unfold mean_inverse. unfold Rdiv. rewrite Rmult_assoc, Rmult_comm, <- Rsum_scale. apply Rsum_map_ext. intros x X. apply cells_In in X. specialize (P x X).
  unfold modulus2. cbn [cscale expi re im]. assert (SQ := sin2_cos2 (- phase n k x)). unfold Rsqr in SQ. set (r := value b x * dv) in *. assert (RP : 0 < r) by (unfold r; nra).
  assert (SR : sqrt r <> 0) by (intro Z; apply sqrt_eq_0 in Z; lra). assert (S2 : sqrt r * sqrt r = r) by (apply sqrt_def; lra).
  transitivity (/ size n * / size n * / (sqrt r * sqrt r) * (sin (- phase n k x) * sin (- phase n k x) + cos (- phase n k x) * cos (- phase n k x))); [field; lra|].
  rewrite SQ, S2. unfold r. rewrite DV. field. repeat split; lra.
Qed.
Print Assumptions C84_shot.
(** A biased field with white noise for a constant density, on average over both seeds: power b^2 P + 1 / nbar. *)
Theorem C84_total : forall {S T} (E : (S -> R) -> R) (E' : (T -> R) -> R) freq neg box center n power los0 (noise : S -> idx -> cplx) inverted dk bias b d (noise' : T -> idx -> R) m nbar out,
  expectation E -> expectation E' -> white E n noise -> white_cells E' n noise' -> bias_is bias b -> even_power freq box n power los0 -> solid box ->
  (forall s, set_complex_delta_field freq box n power los0 (noise s) inverted = Ok (dk s)) -> (forall s, set_real_delta_field neg box center n (dk s) bias false = Ok (d s)) ->
  (forall s, m_box (m s) = box /\ m_n (m s) = n /\ m_delta_r (m s) = Some (d s) /\ m_nbar (m s) = Some (Number nbar)) ->
  (forall s t, white_noise (m s) (noise' t) = Ok (out s t)) ->
  forall k, within n k -> E (fun s => E' (fun t => modulus2 (r2c n (out s t) k))) = (b ^ 2 * asked power los0 (wave freq box n k) + / nbar) / volume box.
Proof.
  intros S T E E' freq neg box center n power los0 noise inverted dk bias b d noise' m nbar out EX EX' W W' B EV SB H H' M O k K. pose proof (within_nonempty _ _ K) as NE.
  transitivity (E (fun s => re (cross (r2c n (d s) k) (r2c n (d s) k)) + / nbar / volume box * 1)).
  - apply (E_ext E EX). intros s. destruct (M s) as (M1 & M2 & M3 & M4).
    pose proof (C84_shot E' (m s) noise' (d s) (Number nbar) (out s) EX') as Q. rewrite M1, M2 in Q. rewrite (Q W' SB M3 M4 (O s) k K). rewrite modulus2_cross. f_equal. rewrite Rmult_1_r. f_equal.
    unfold mean_inverse. cbn [value]. rewrite (Rsum_map_ext _ (fun _ => / nbar * 1)) by (intros; ring). rewrite Rsum_scale.
    replace (Rsum (map (fun _ => 1) (cells n))) with (size n).
    + pose proof (size_pos _ NE). unfold Rdiv. rewrite Rmult_assoc, Rinv_r; lra.
    + pose proof (csum_const C1 (cells n)) as Z. apply (f_equal re) in Z. rewrite csum_re in Z. cbn in Z. rewrite Z, cells_length. ring.
  - rewrite (E_add E EX), (E_scale E EX), (E_const E EX). destruct (C84_power E freq neg box center n power los0 noise inverted dk bias b d EX W B EV NE H H' k k K K) as [Q _]. rewrite Q.
    destruct (idx_dec k k); [|congruence]. unfold Rdiv. ring.
Qed.
Print Assumptions C84_total.

(** The hypothesis on opposite modes above is met by every power spectrum without line of sight, and, when the number of cells along each
    axis is odd, by every power spectrum that is an even function of the cosine of the angle with the line of sight. *)
Theorem C84_even : forall freq box n power los, proper_freq freq ->
  los = None \/ (Nat.odd (ix n) = true /\ Nat.odd (iy n) = true /\ Nat.odd (iz n) = true /\ forall k mu, power k (Some (- mu)) = power k (Some mu)) -> even_power freq box n power los.
Proof.
  intros freq box n power los PF [-> | (O1 & O2 & O3 & EV)]; [apply even_isotropic; auto|]. intros k K.
  assert (RM : resolved_mode freq n k).
  { apply Nat.odd_spec in O1, O2, O3. destruct O1 as [p1 O1], O2 as [p2 O2], O3 as [p3 O3], K as (K1 & K2 & K3). pose proof (proj2 (PF _ _ K1)). pose proof (proj2 (PF _ _ K2)). pose proof (proj2 (PF _ _ K3)). repeat split; lia. }
  rewrite (wave_opposite freq box n k PF K RM). set (w := wave freq box n k). unfold asked.
  assert (D : vdot (vscale (-1) w) (vscale (-1) w) = vdot w w) by (unfold vdot, vscale; cbn; ring). rewrite D. destruct (Req_EM_T _ 0); auto. destruct los as [l|]; auto.
  replace (vdot (vscale (-1) w) l / sqrt (vdot w w)) with (- (vdot w l / sqrt (vdot w w))); [apply EV|]. replace (vdot (vscale (-1) w) l) with (- vdot w l) by (unfold vdot, vscale; cbn; ring). unfold Rdiv. ring.
Qed.
Print Assumptions C84_even.

(** ** Laws of noise with these properties exist on every mesh *)
(** Plane waves centered on a random cell, with a random sign. *)
Definition shaken (n : idx) (f : idx * bool -> R) : R := / size n * Rsum (map (fun y => (f (y, true) + f (y, false)) / 2) (cells n)).
Lemma shaken_expectation : forall n, nonempty n -> expectation (shaken n).
Proof.
  intros n N. pose proof (size_pos n N) as SP. repeat split; unfold shaken.
  - rewrite (Rsum_map_ext _ (fun _ => (1 + 1) / 2 * 1)) by (intros; ring). rewrite Rsum_scale. pose proof (csum_const C1 (cells n)) as Z. apply (f_equal re) in Z. rewrite csum_re in Z. cbn in Z. rewrite Z, cells_length. field. lra.
  - intros f g. rewrite <- Rmult_plus_distr_l, <- Rsum_add. f_equal. apply Rsum_map_ext. intros. field.
  - intros a f. rewrite (Rmult_comm a), Rmult_assoc. f_equal. rewrite Rmult_comm, <- Rsum_scale. apply Rsum_map_ext. intros. field.
  - intros f g H. f_equal. apply Rsum_map_ext. intros. rewrite !H. auto.
Qed.
Definition sign (s : bool) : R := if s then 1 else -1.
Definition bell (n : idx) (s : idx * bool) (k : idx) : cplx := cscale (sign (snd s)) (expi (- phase n k (fst s))).
Lemma bell_white : forall n, nonempty n -> white (shaken n) n (bell n).
Proof.
  intros n N. pose proof (size_pos n N) as SP. repeat split.
  - intros s k K. unfold bell. rewrite expi_conj, phase_opp, !expi_conj by auto. apply cplx_eq; cbn; ring.
  - unfold shaken, bell. cbn. rewrite (Rsum_map_ext _ (fun _ => 0 * 0)) by (intros; field). rewrite Rsum_scale. ring.
  - unfold shaken, bell. cbn. rewrite (Rsum_map_ext _ (fun _ => 0 * 0)) by (intros; field). rewrite Rsum_scale. ring.
  - pose proof (orthogonal n C1 k' k N H0 H) as Q. apply (f_equal re) in Q. cbn [cmul creal re] in Q. rewrite csum_re in Q.
    unfold shaken, bell. transitivity (re (if gate (as_freq k') n k then C1 else C0)).
    + rewrite <- Q. cbn [im creal]. rewrite Rmult_0_l, Rminus_0_r. f_equal. apply Rsum_map_ext. intros y _. cbn. rewrite !cos_neg, !sin_neg. field.
    + unfold same. pose proof (gate_index n k' k H0 H) as G. destruct (idx_dec k k') as [->|D]; [rewrite (proj2 G eq_refl); auto|]. destruct (gate _ _ _); [exfalso; apply D; symmetry; apply G; auto|auto].
  - pose proof (orthogonal n C1 k' k N H0 H) as Q. apply (f_equal im) in Q. cbn [cmul creal im re] in Q. rewrite csum_im in Q.
    unfold shaken, bell. transitivity (im (if gate (as_freq k') n k then C1 else C0)).
    + rewrite <- Q. cbn [im creal]. rewrite Rmult_0_l, Rplus_0_r. f_equal. apply Rsum_map_ext. intros y _. cbn. rewrite !cos_neg, !sin_neg. field.
    + destruct (gate _ _ _); auto.
Qed.
(** A random cell, with a random sign. *)
Definition spike (n : idx) (s : idx * bool) (x : idx) : R := sign (snd s) * (sqrt (size n) * same (fst s) x).
Lemma spike_white : forall n, nonempty n -> white_cells (shaken n) n (spike n).
Proof.
  intros n N. pose proof (size_pos n N) as SP. split.
  - intros x X. unfold shaken, spike. cbn [fst snd sign]. rewrite (Rsum_map_ext _ (fun _ => 0 * 0)) by (intros; field). rewrite Rsum_scale. ring.
  - intros x y X Y. unfold shaken, spike. cbn [fst snd sign]. rewrite (Rsum_map_ext _ (fun j => (sqrt (size n) * sqrt (size n)) * re (creal (same j x * same j y)))) by (intros; cbn [creal re]; field).
    rewrite Rsum_scale, sqrt_def by lra. rewrite <- csum_re. rewrite (csum_single _ (cells n) x (cells_nodup n) (proj2 (cells_In n x) X)).
    + cbn [creal re]. rewrite same_refl. field. lra.
    + intros z _ D. rewrite (same_diff z x D). apply cplx_eq; cbn; ring.
Qed.
Lemma complex_ok : forall freq box n power los noise inverted, solid box -> (forall k mu, 0 <= power k mu) ->
  exists dk, set_complex_delta_field freq box n power los noise inverted = Ok dk.
Proof.
  intros freq box n power los noise inverted (B1 & B2 & B3) P. assert (VP : 0 < vx box * vy box * vz box) by (repeat apply Rmult_lt_0_compat; auto). unfold set_complex_delta_field, Cutsky_Model.fdiv.
  destruct (Req_EM_T _ 0); [lra|]. cbn [bind]. cbv zeta.
  destruct (tabulate_ok n (fun k => if Rlt_dec (mode_power power los (wave freq box n k) * (1 / (vx box * vy box * vz box))) 0 then Err ZeroDivision else Ok (cscale (sqrt (mode_power power los (wave freq box n k) * (1 / (vx box * vy box * vz box)))) (if inverted then cscale (-1) (noise k) else noise k))) (Cx 0 0)
    (fun k => cscale (sqrt (mode_power power los (wave freq box n k) * (1 / (vx box * vy box * vz box)))) (if inverted then cscale (-1) (noise k) else noise k))) as (h & H & _); [|eauto].
  intros k _. destruct (Rlt_dec _ 0) as [L|L]; auto. exfalso. assert (0 <= mode_power power los (wave freq box n k)) by (unfold mode_power; destruct (Req_EM_T _ 0); [lra|destruct los; apply P]).
  assert (0 < 1 / (vx box * vy box * vz box)) by (apply Rdiv_lt_0_compat; lra). nra.
Qed.
Definition kept {A} (d : A) (r : result A) : A := match r with Ok a => a | Err _ => d end.
(** A mesh of 27 cells, bias 2 and growth rate 1: the variance of a mode along the line of sight is 9 times its power. *)
Example C84_case : let n := I 3 3 3 in let box := V 1 1 1 in let power k (mu : option R) := 1 / (1 + k ^ 2) in
  exists (E : (idx * bool -> R) -> R) noise dk d out, expectation E /\ white E n noise /\
  (forall s, set_complex_delta_field signed box n power None (noise s) false = Ok (dk s)) /\ (forall s, set_real_delta_field (fun _ _ => false) box vzero n (dk s) (Some (BNum 2)) false = Ok (d s)) /\
  (forall s, eulerian_set_rsd signed (fun _ _ => false) box vzero n (dk s) (d s) (FNum 1) (Some (AxIdx 0)) = Ok (out s)) /\
  E (fun s => modulus2 (r2c n (out s) (I 1 0 0))) = 9 * (1 / (1 + (2 * PI) ^ 2)).
Proof.
  intros n box power. assert (N : nonempty n) by (repeat split; cbn; lia). assert (SB : solid box) by (repeat split; cbn; lra).
  pose (dk := fun s => kept (fun _ => Cx 0 0) (set_complex_delta_field signed box n power None (bell n s) false)).
  pose (d := fun s => kept (fun _ => 0) (set_real_delta_field (fun _ _ => false) box vzero n (dk s) (Some (BNum 2)) false)).
  pose (out := fun s => kept (fun _ => 0) (eulerian_set_rsd signed (fun _ _ => false) box vzero n (dk s) (d s) (FNum 1) (Some (AxIdx 0)))).
  assert (H1 : forall s, set_complex_delta_field signed box n power None (bell n s) false = Ok (dk s)).
  { intros s. destruct (complex_ok signed box n power None (bell n s) false SB) as [x Q]; [|unfold dk; rewrite Q; auto]. intros k mu. unfold power. apply Rlt_le, Rdiv_lt_0_compat; [lra|]. pose proof (pow2_ge_0 k). lra. }
  assert (H2 : forall s, set_real_delta_field (fun _ _ => false) box vzero n (dk s) (Some (BNum 2)) false = Ok (d s)) by (intros s; auto).
  assert (H3 : forall s, eulerian_set_rsd signed (fun _ _ => false) box vzero n (dk s) (d s) (FNum 1) (Some (AxIdx 0)) = Ok (out s)).
  { intros s. destruct (C40_fixed signed (fun _ _ => false) box vzero n (dk s) (d s) (FNum 1) (AxIdx 0) (V 1 0 0) SB lm_0) as [o [Q _] ]. unfold out. rewrite Q. auto. }
  exists (shaken n), (bell n), dk, d, out. split; [apply shaken_expectation; auto|]. split; [apply bell_white; auto|]. split; [auto|]. split; [auto|]. split; [auto|].
  destruct (C84_kaiser (shaken n) signed (fun _ _ => false) box vzero n power None (bell n) false dk (Some (BNum 2)) 2 d 1 (AxIdx 0) (V 1 0 0) out (shaken_expectation n N) (bell_white n N) (or_intror eq_refl)
    signed_proper (even_isotropic signed box n power signed_proper) SB lm_0 H1 H2 H3 (I 1 0 0) (I 1 0 0)) as [Q _].
  - repeat split; cbn; lia.
  - repeat split; cbn; lia.
  - repeat split; cbn; lia.
  - rewrite (E_ext (shaken n) (shaken_expectation n N) _ (fun s => re (cross (r2c n (out s) (I 1 0 0)) (r2c n (out s) (I 1 0 0))))) by (intros; apply modulus2_cross). rewrite Q. clear.
    destruct (idx_dec (I 1 0 0) (I 1 0 0)); [|congruence].
    assert (WV : wave signed box n (I 1 0 0) = V (2 * PI) 0 0) by (unfold wave, signed, n, box; cbn; f_equal; field). rewrite WV. pose proof PI_RGT_0.
    unfold asked, mu2, vdot, volume, box. cbn [vx vy vz]. replace (2 * PI * (2 * PI) + 0 * 0 + 0 * 0) with ((2 * PI) * (2 * PI)) by ring. destruct (Req_EM_T _ 0); [nra|]. rewrite sqrt_square by lra. unfold power. field. split; [|nra]. nra.
Qed.
(** With noise for a density of 4 objects per unit volume. *)
Example C84_noise_case : let n := I 3 3 3 in let m := Mock (V 1 1 1) n vzero None (fun _ => Cx 0 0) (Some (fun _ => 0)) (Some (Number 4)) None None None None in
  exists out, (forall s, white_noise m (spike n s) = Ok (out s)) /\ shaken n (fun s => modulus2 (r2c n (out s) (I 1 2 0))) = 1 / 4.
Proof.
  intros n m. assert (N : nonempty n) by (repeat split; cbn; lia). assert (SB : solid (m_box m)) by (repeat split; cbn; lra).
  pose (out := fun s => kept (fun _ => 0) (white_noise m (spike n s))). assert (O : forall s, white_noise m (spike n s) = Ok (out s)).
  { intros s. unfold out, white_noise. cbn [m m_delta_r m_nbar attribute bind m_box m_n]. cbv zeta. unfold tabulate. replace (forallb _ _) with true; auto. symmetry. apply forallb_forall. intros x _. cbn [times].
    destruct (Rlt_dec 0 _) as [|L]; auto. exfalso. apply L. unfold cell_size, n. cbn. lra. }
  exists out. split; auto. pose proof (C84_shot (shaken n) m (spike n) (fun _ => 0) (Number 4) out (shaken_expectation n N) (spike_white n N) SB eq_refl eq_refl O (I 1 2 0)) as Q. change (m_n m) with n in Q. change (m_box m) with (V 1 1 1) in Q. rewrite Q by (repeat split; cbn; lia).
  unfold mean_inverse. cbn [value]. rewrite (Rsum_map_ext _ (fun _ => / 4 * 1)) by (intros; ring). rewrite Rsum_scale. pose proof (csum_const C1 (cells n)) as Z. apply (f_equal re) in Z. rewrite csum_re in Z. cbn -[cells] in Z.
  rewrite Z, cells_length. replace (modulus2 (r2c n (fun _ => 0) (I 1 2 0))) with 0.
  - unfold size, volume, n. cbn [vx vy vz ix iy iz]. simpl INR. field.
  - unfold modulus2, r2c. cbn [re im]. rewrite (Rsum_map_ext (fun x => 0 * cos (phase n (I 1 2 0) x)) (fun _ => 0 * 0)), (Rsum_map_ext (fun x => 0 * - sin (phase n (I 1 2 0) x)) (fun _ => 0 * 0)) by (intros; ring). rewrite Rsum_scale. ring.
Qed.
