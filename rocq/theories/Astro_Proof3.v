(** Lemmas for C101: computed sky coordinates against the exact ones, positions back. *)
Require Import Reals Lra Lia ZArith Bool.
From Verif Require Import Base Vec3 Isometry_Proof Sky_Model Sky_Spec Sky_Proof Round_Model Drift_Spec Drift_Proof Astro_Model Astro_Spec Astro_Proof Astro_Proof2.
Open Scope R_scope.

Lemma full_conversion : forall degree, full_turn degree * conversion degree = 2 * PI.
Proof. intros degree. change (full_turn degree) with (turn degree). apply turn_conversion. Qed.
Lemma units_conversion : forall degree e, in_units degree e = e / conversion degree.
Proof. intros degree e. unfold in_units. rewrite <- (full_conversion degree). pose proof (conversion_pos degree). pose proof (full_conversion degree). pose proof PI_RGT_0. field. split; [lra|]. intros Z. rewrite Z, Rmult_0_l in H0. lra. Qed.
Lemma below_units : forall degree a e, Rabs (a * conversion degree) <= e -> Rabs a <= in_units degree e.
Proof.
  intros degree a e H. rewrite units_conversion. pose proof (conversion_pos degree) as C. rewrite Rabs_mult, (Rabs_right (conversion degree)) in H by lra.
  apply Rmult_le_reg_r with (conversion degree); [exact C|]. unfold Rdiv. rewrite Rmult_assoc, Rinv_l, Rmult_1_r by lra. exact H.
Qed.
Lemma arctan2_range : forall y x, Rabs (arctan2 y x) <= PI.
Proof.
  intros y x. pose proof PI_RGT_0 as P. unfold arctan2. pose proof (atan_bound (y / x)) as B. destruct (Rlt_dec 0 x); [apply Rabs_le; lra|]. destruct (Rlt_dec x 0) as [L|L].
  - destruct (Rlt_dec y 0) as [M|M].
    + assert (0 < y / x) by (unfold Rdiv; pose proof (Rinv_lt_0_compat x L); nra). assert (atan 0 < atan (y / x)) by (apply atan_increasing; auto). rewrite atan_0 in *. apply Rabs_le; lra.
    + assert (y / x <= 0) by (unfold Rdiv; pose proof (Rinv_lt_0_compat x L); nra). assert (atan (y / x) <= 0). { destruct (Req_dec (y / x) 0) as [->|N]; [rewrite atan_0; lra|]. assert (y / x < 0) by lra. pose proof (atan_increasing _ _ H0). rewrite atan_0 in *. lra. } apply Rabs_le; lra.
  - destruct (Rlt_dec 0 y); [apply Rabs_le; lra|]. destruct (Rlt_dec y 0); apply Rabs_le; lra.
Qed.
Lemma cos_dec : forall p, p <> vzero -> cos (asin (vz p / vnorm p)) = off_axis p / vnorm p.
Proof.
  intros p N. pose proof (vnorm_pos p N) as P. destruct (coord_le p) as (_ & _ & C). pose proof (abs_split _ _ C) as C'.
  rewrite cos_asin by (split; apply Rmult_le_reg_r with (vnorm p); try exact P; unfold Rdiv; rewrite Rmult_assoc, Rinv_l by lra; lra).
  assert (Q : vnorm p * vnorm p = vx p * vx p + vy p * vy p + vz p * vz p) by (unfold vnorm, vdot; apply sqrt_sqrt; nra).
  unfold off_axis. replace (1 - (vz p / vnorm p)²) with ((vx p * vx p + vy p * vy p) / (vnorm p * vnorm p)).
  2: { unfold Rsqr. replace (vx p * vx p + vy p * vy p) with (vnorm p * vnorm p - vz p * vz p) by lra. field. lra. }
  rewrite sqrt_div_alt by nra. rewrite sqrt_square by lra. reflexivity.
Qed.

Section Errors.
Variables (u d : R) (rnd : R -> R) (fcos fsin farcsin : R -> R) (farctan2 : R -> R -> R).
Hypothesis U : 0 <= u <= 1 / 1000.
Hypothesis Dd : 0 <= d <= 1 / 1000.
Hypothesis A : accurate u rnd.
Hypothesis Lb : library d fcos fsin farcsin farctan2.
Notation c2s := (fl_cartesian_to_sky rnd farcsin farctan2).
Notation s2c := (fl_sky_to_cartesian rnd fcos fsin).

Lemma ra_near : forall degree p D R T D0 R0 T0, c2s degree p = Ok (D, R, T) -> cartesian_to_sky degree p = Ok (D0, R0, T0) ->
  (exists k : Z, Rabs ((R - R0 - IZR k * full_turn degree) * conversion degree) <= 4 * d + 80 * u) /\ Rabs (R * conversion degree) <= 7.
Proof.
  intros degree p D R T D0 R0 T0 E E0. destruct (c2s_angles _ _ _ _ _ E0) as (_ & _ & Q & _). unfold fl_cartesian_to_sky in E. destruct (fl_sine rnd p) as [sn|]; [|discriminate]. destruct (Rle_dec _ _) as [le|]; [|discriminate]. injection E as _ <- _.
  destruct Lb as (_ & _ & _ & L). specialize (L (vy p) (vx p)). pose proof (arctan2_range (vy p) (vx p)) as B. set (a := arctan2 (vy p) (vx p)) in *. set (a' := farctan2 (vy p) (vx p)) in *. pose proof PI_below. pose proof PI_above3. pose proof (Rabs_pos a).
  assert (L' : Rabs (a' - a) <= 3.34 * d) by nra. apply abs_split in L'. apply abs_split in B.
  destruct (wrap_near u rnd U A a' ltac:(apply Rabs_le; lra)) as (k & W1 & W2). set (w := fl_wrap_angle rnd false a') in *.
  pose proof (over_conv u rnd U A degree w) as O. set (r := rnd (w / fl_conversion rnd degree)) in *. pose proof (conversion_pos degree) as C.
  assert (O' : Rabs (r * conversion degree - w) <= 34 * u).
  { apply (rel_mult _ _ _ (conversion degree)) in O. replace (conversion degree * (w / conversion degree)) with w in O by (field; lra). rewrite Rmult_comm. unfold rel in O. nra. }
  destruct (Rmod_congr a (2 * PI) ltac:(lra)) as (j & J). rewrite <- Q in J. apply abs_split in O'. apply abs_split in W1. apply abs_split in W2. split.
  - exists (k + j)%Z. rewrite plus_IZR. replace ((r - R0 - (IZR k + IZR j) * full_turn degree) * conversion degree) with (r * conversion degree - (R0 * conversion degree + IZR j * (full_turn degree * conversion degree)) - IZR k * (full_turn degree * conversion degree)) by ring.
    rewrite full_conversion, <- J. apply Rabs_le. lra.
  - apply Rabs_le. lra.
Qed.
Lemma dec_near : forall degree p D R T D0 R0 T0, p <> vzero -> c2s degree p = Ok (D, R, T) -> cartesian_to_sky degree p = Ok (D0, R0, T0) ->
  Rabs ((T - T0) * conversion degree) <= d + 12 * u + sqrt (48 * u) /\ (0 < off_axis p -> Rabs ((T - T0) * conversion degree) <= d + 12 * u + 24 * u * (vnorm p / off_axis p)) /\ Rabs (T * conversion degree) <= 7.
Proof.
  intros degree p D R T D0 R0 T0 N E E0. destruct (c2s_angles _ _ _ _ _ E0) as (_ & P & _ & Q). unfold fl_cartesian_to_sky in E.
  destruct (sine_near u rnd U A p N) as (s & Es & Ns). rewrite Es in E. destruct (Rle_dec (Rabs s) 1) as [S|]; [|discriminate]. injection E as _ _ <-. pose proof (abs_split _ _ S) as S'.
  destruct Lb as (_ & _ & L & _). specialize (L s S). pose proof PI_below. pose proof PI_above3. pose proof (asin_bound s) as B. apply abs_split in L. set (a := farcsin s) in *.
  pose proof (over_conv u rnd U A degree a) as O. set (r := rnd (a / fl_conversion rnd degree)) in *. pose proof (conversion_pos degree) as C.
  assert (O' : Rabs (r * conversion degree - a) <= 12 * u).
  { apply (rel_mult _ _ _ (conversion degree)) in O. replace (conversion degree * (a / conversion degree)) with a in O by (field; lra). rewrite Rmult_comm. unfold rel in O. assert (Rabs a <= 2) by (apply Rabs_le; lra). nra. }
  apply abs_split in O'. destruct (coord_le p) as (_ & _ & Cz). apply abs_split in Cz.
  assert (Z : -1 <= vz p / vnorm p <= 1) by (split; apply Rmult_le_reg_r with (vnorm p); try exact P; unfold Rdiv; rewrite Rmult_assoc, Rinv_l by lra; lra).
  destruct (asin_near s (vz p / vnorm p) (6 * u) S' Z Ns) as (A1 & A2). rewrite <- Q in A1, A2. replace (8 * (6 * u)) with (48 * u) in A1 by ring.
  assert (G : forall e, Rabs (asin s - T0 * conversion degree) <= e -> Rabs ((r - T0) * conversion degree) <= d + 12 * u + e) by (intros e He; apply abs_split in He; apply Rabs_le; lra).
  split; [apply G; exact A1|]. split.
  - intros Po. apply G. rewrite Q, (cos_dec p N), <- Q in A2. apply Rmult_le_reg_l with (off_axis p / vnorm p); [apply Rdiv_lt_0_compat; lra|].
    replace (off_axis p / vnorm p * (24 * u * (vnorm p / off_axis p))) with (4 * (6 * u)) by (field; lra). exact A2.
  - apply Rabs_le. lra.
Qed.

Lemma angle_near : forall degree a f g, Rabs (a * conversion degree) <= 7 -> accurate_fun d f g -> (forall x y, Rabs (g x - g y) <= Rabs (x - y)) -> Rabs (f (rnd (a * fl_conversion rnd degree)) - g (a * conversion degree)) <= d + 35 * u.
Proof.
  intros degree a f g B F G. pose proof (times_conv u rnd U A degree a) as T. unfold rel in T. set (b := rnd (a * fl_conversion rnd degree)) in *. specialize (F b). specialize (G b (a * conversion degree)).
  apply abs_split in F. assert (G' : Rabs (g b - g (a * conversion degree)) <= 35 * u) by nra. apply abs_split in G'. apply Rabs_le. lra.
Qed.
Lemma product_near : forall D a b a' b' e, 0 <= e <= 0.04 -> Rabs a <= 1 -> Rabs b <= 1 -> Rabs (a' - a) <= e -> Rabs (b' - b) <= e ->
  Rabs (rnd (D * rnd (a' * b')) - D * (a * b)) <= Rabs D * (2.1 * e + 3 * u).
Proof.
  intros D a b a' b' e E Ha Hb Ka Kb. assert (M : Rabs (a' * b' - a * b) <= 2.04 * e).
  { replace (a' * b' - a * b) with ((a' - a) * b + a * (b' - b) + (a' - a) * (b' - b)) by ring. eapply Rle_trans; [apply Rabs_triang|]. pose proof (Rabs_triang ((a' - a) * b) (a * (b' - b))).
    rewrite !Rabs_mult in *. pose proof (Rabs_pos a). pose proof (Rabs_pos b). pose proof (Rabs_pos (a' - a)). pose proof (Rabs_pos (b' - b)). nra. }
  assert (M0 : Rabs (a * b) <= 1) by (rewrite Rabs_mult; pose proof (Rabs_pos a); pose proof (Rabs_pos b); nra).
  pose proof (A (a' * b')) as A1. set (q' := a' * b') in *. set (q := a * b) in *. assert (S : Rabs q' <= 1.1) by (pose proof (Rabs_triang (q' - q) q) as T; replace (q' - q + q) with q' in T by ring; lra).
  assert (A1' : Rabs (rnd q' - q') <= 1.1 * u) by nra. set (r := rnd q') in *. assert (S' : Rabs (r - q) <= 2.04 * e + 1.1 * u) by (pose proof (Rabs_triang (r - q') (q' - q)) as T; replace (r - q' + (q' - q)) with (r - q) in T by ring; lra).
  assert (S2 : Rabs r <= 1.2) by (pose proof (Rabs_triang (r - q) q) as T; replace (r - q + q) with r in T by ring; lra).
  pose proof (A (D * r)) as A2. rewrite Rabs_mult in A2. pose proof (Rabs_pos D) as PD. pose proof (Rabs_triang (rnd (D * r) - D * r) (D * r - D * q)) as T. replace (rnd (D * r) - D * r + (D * r - D * q)) with (rnd (D * r) - D * q) in T by ring.
  rewrite <- Rmult_minus_distr_l, Rabs_mult in T. assert (u * (Rabs D * Rabs r) <= Rabs D * (1.2 * u)) by (replace (u * (Rabs D * Rabs r)) with (Rabs D * (u * Rabs r)) by ring; apply Rmult_le_compat_l; nra). assert (Rabs D * Rabs (r - q) <= Rabs D * (2.04 * e + 1.1 * u)) by (apply Rmult_le_compat_l; lra). assert (0 <= Rabs D * e) by nra. assert (0 <= Rabs D * u) by nra. nra.
Qed.
Lemma s2c_near : forall degree D R T, Rabs (R * conversion degree) <= 7 -> Rabs (T * conversion degree) <= 7 ->
  coords_within (Rabs D * (3 * d + 80 * u)) (s2c degree D R T) (sky_to_cartesian degree None (NFloat D) (NFloat R) (NFloat T)).
Proof.
  intros degree D R T HR HT. destruct Lb as (Lc & Ls & _ & _).
  pose proof (angle_near degree R fcos cos HR Lc cos_lipschitz) as Rc. pose proof (angle_near degree R fsin sin HR Ls sin_lipschitz) as Rs.
  pose proof (angle_near degree T fcos cos HT Lc cos_lipschitz) as Tc. pose proof (angle_near degree T fsin sin HT Ls sin_lipschitz) as Ts.
  assert (B : forall x, Rabs (cos x) <= 1 /\ Rabs (sin x) <= 1) by (intros x; pose proof (COS_bound x); pose proof (SIN_bound x); split; apply Rabs_le; lra).
  assert (E : 0 <= d + 35 * u <= 0.04) by lra. pose proof (Rabs_pos D) as PD.
  assert (W : Rabs D * (2.1 * (d + 35 * u) + 3 * u) <= Rabs D * (3 * d + 80 * u)) by (apply Rmult_le_compat_l; lra).
  unfold coords_within, fl_sky_to_cartesian, sky_to_cartesian, result_type3, store_as, vscale. cbn [num_dtype num_val vx vy vz].
  split; [|split].
  - eapply Rle_trans; [apply product_near with (e := d + 35 * u); auto; apply B|exact W].
  - eapply Rle_trans; [apply product_near with (e := d + 35 * u); auto; apply B|exact W].
  - set (f := fsin (rnd (T * fl_conversion rnd degree))) in *. set (g := sin (T * conversion degree)) in *. pose proof (A (D * f)) as A1. rewrite Rabs_mult in A1. assert (G1 : Rabs g <= 1) by apply B. pose proof (Rabs_triang (f - g) g) as T1. replace (f - g + g) with f in T1 by ring.
    pose proof (Rabs_triang (rnd (D * f) - D * f) (D * f - D * g)) as T2. replace (rnd (D * f) - D * f + (D * f - D * g)) with (rnd (D * f) - D * g) in T2 by ring. rewrite <- Rmult_minus_distr_l, Rabs_mult in T2.
    assert (u * (Rabs D * Rabs f) <= Rabs D * (1.1 * u)) by (replace (u * (Rabs D * Rabs f)) with (Rabs D * (u * Rabs f)) by ring; apply Rmult_le_compat_l; nra). assert (Rabs D * Rabs (f - g) <= Rabs D * (d + 35 * u)) by (apply Rmult_le_compat_l; lra). assert (0 <= Rabs D * u) by (apply Rmult_le_pos; lra). assert (0 <= Rabs D * d) by (apply Rmult_le_pos; lra). lra.
Qed.

(** Exact conversions: positions of nearby coordinates. *)
Lemma s2c_lipschitz : forall degree D R T D0 R0 T0 k eD eR eT, 0 <= D0 -> Rabs (D - D0) <= eD * D0 -> Rabs ((R - R0 - IZR k * full_turn degree) * conversion degree) <= eR -> Rabs ((T - T0) * conversion degree) <= eT ->
  coords_within ((eD + eR + eT) * D0) (sky_to_cartesian degree None (NFloat D) (NFloat R) (NFloat T)) (sky_to_cartesian degree None (NFloat D0) (NFloat R0) (NFloat T0)).
Proof.
  intros degree D R T D0 R0 T0 k eD eR eT P HD HR HT.
  assert (B : forall x, Rabs (cos x) <= 1 /\ Rabs (sin x) <= 1) by (intros x; pose proof (COS_bound x); pose proof (SIN_bound x); split; apply Rabs_le; lra).
  unfold coords_within, sky_to_cartesian, result_type3, store_as, vscale. cbn [num_dtype num_val vx vy vz].
  replace ((R - R0 - IZR k * full_turn degree) * conversion degree) with (R * conversion degree - (R0 * conversion degree + IZR k * (full_turn degree * conversion degree))) in HR by ring. rewrite full_conversion in HR.
  replace ((T - T0) * conversion degree) with (T * conversion degree - T0 * conversion degree) in HT by ring.
  set (t := T * conversion degree) in *. set (t0 := T0 * conversion degree) in *. set (r := R * conversion degree) in *. set (r0 := R0 * conversion degree) in *.
  assert (Pe : forall x (n : Z), cos (x + IZR n * (2 * PI)) = cos x /\ sin (x + IZR n * (2 * PI)) = sin x) by (intros x n; split; [apply cos_period_Z|apply sin_period_Z] ).
  assert (Cr : Rabs (cos r - cos r0) <= eR) by (rewrite <- (proj1 (Pe r0 k)); eapply Rle_trans; [apply cos_lipschitz|exact HR]).
  assert (Sr : Rabs (sin r - sin r0) <= eR) by (rewrite <- (proj2 (Pe r0 k)); eapply Rle_trans; [apply sin_lipschitz|exact HR]).
  assert (Ct : Rabs (cos t - cos t0) <= eT) by (eapply Rle_trans; [apply cos_lipschitz|exact HT]).
  assert (St : Rabs (sin t - sin t0) <= eT) by (eapply Rle_trans; [apply sin_lipschitz|exact HT]).
  assert (Two : forall a b a0 b0, Rabs a <= 1 -> Rabs b <= 1 -> Rabs a0 <= 1 -> Rabs b0 <= 1 -> Rabs (a - a0) <= eT -> Rabs (b - b0) <= eR -> Rabs (D * (a * b) - D0 * (a0 * b0)) <= (eD + eR + eT) * D0).
  { intros a b a0 b0 Ha Hb Ha0 Hb0 Ea Eb. replace (D * (a * b) - D0 * (a0 * b0)) with ((D - D0) * (a * b) + D0 * ((a - a0) * b) + D0 * (a0 * (b - b0))) by ring.
    eapply Rle_trans; [apply Rabs_triang|]. pose proof (Rabs_triang ((D - D0) * (a * b)) (D0 * ((a - a0) * b))). rewrite !Rabs_mult in *. rewrite (Rabs_right D0) in * by lra.
    pose proof (Rabs_pos a). pose proof (Rabs_pos b). pose proof (Rabs_pos a0). pose proof (Rabs_pos (D - D0)). pose proof (Rabs_pos (a - a0)). pose proof (Rabs_pos (b - b0)).
    assert (Rabs a * Rabs b <= 1) by nra. assert (Rabs (D - D0) * (Rabs a * Rabs b) <= eD * D0) by nra. assert (Rabs (a - a0) * Rabs b <= eT) by nra. assert (Rabs a0 * Rabs (b - b0) <= eR) by nra.
    assert (D0 * (Rabs (a - a0) * Rabs b) <= D0 * eT) by (apply Rmult_le_compat_l; lra). assert (D0 * (Rabs a0 * Rabs (b - b0)) <= D0 * eR) by (apply Rmult_le_compat_l; lra). lra. }
  assert (R0' : 0 <= eR) by (eapply Rle_trans; [apply Rabs_pos|exact HR]).
  split; [|split]; [apply Two; auto; apply B|apply Two; auto; apply B|].
  rewrite <- (Rmult_1_r (sin t)), <- (Rmult_1_r (sin t0)). assert (Rabs 1 <= 1) by (rewrite Rabs_R1; lra). apply Two; auto; try apply B. rewrite Rminus_eq_0, Rabs_R0. exact R0'.
Qed.
End Errors.
