(** Lemmas for C101: sky coordinates of positions near a position with given sky coordinates. *)
Require Import Reals Lra Lia ZArith Bool.
From Verif Require Import Base Vec3 Isometry_Proof Sky_Model Sky_Spec Sky_Proof Round_Model Drift_Spec Drift_Proof Astro_Model Astro_Spec Astro_Proof Astro_Proof2 Astro_Proof3.
Open Scope R_scope.

Lemma near_norm_le : forall e p q, 0 <= e -> coords_within e p q -> Rabs (vnorm p - vnorm q) <= 2 * e.
Proof.
  intros e p q E (X & Y & Z). assert (S : vnorm (vsub p q) <= 2 * e).
  { unfold vnorm, vdot, vsub. cbn [vx vy vz]. rewrite <- (sqrt_square (2 * e)) by lra. apply sqrt_le_1_alt. apply abs_split in X. apply abs_split in Y. apply abs_split in Z. nra. }
  pose proof (vnorm_near p q) as A. pose proof (vnorm_near q p) as B. rewrite (vnorm_sym q p) in B. apply Rabs_le. lra.
Qed.
Lemma s2c_norm : forall degree D R T, 0 <= D -> vnorm (sky_to_cartesian degree None (NFloat D) (NFloat R) (NFloat T)) = D.
Proof.
  intros degree D R T P. unfold sky_to_cartesian, result_type3, store_as, vscale, vnorm, vdot. cbn [num_dtype num_val vx vy vz]. set (t := T * _). set (r := R * _).
  match goal with |- sqrt ?x = _ => replace x with (D * D) end; [apply sqrt_square; exact P|]. pose proof (sin2_cos2 t) as A. pose proof (sin2_cos2 r) as B. unfold Rsqr in A, B.
  replace (D * D) with (D * D * (sin t * sin t + cos t * cos t * (sin r * sin r + cos r * cos r))); [ring|]. rewrite B, Rmult_1_r, A. ring.
Qed.
(** Declinations. *)
Lemma dec_moved : forall degree D R T e p, 0 < D -> 0 <= e <= 1 / 10 -> - (full_turn degree / 4) <= T <= full_turn degree / 4 ->
  coords_within (D * e) p (sky_to_cartesian degree None (NFloat D) (NFloat R) (NFloat T)) -> p <> vzero ->
  Rabs (asin (vz p / vnorm p) - T * conversion degree) <= sqrt (32 * e) /\ cos (T * conversion degree) * Rabs (asin (vz p / vnorm p) - T * conversion degree) <= 16 * e.
Proof.
  intros degree D R T e p P E HT C N. set (q := sky_to_cartesian _ _ _ _ _) in *. pose proof (vnorm_pos p N) as Pn. pose proof (conversion_pos degree) as Cv. pose proof (full_conversion degree) as Fc.
  assert (E0 : 0 <= D * e) by (apply Rmult_le_pos; lra). pose proof (near_norm_le (D * e) p q E0 C) as M. assert (Nq : vnorm q = D) by (apply s2c_norm; lra). rewrite Nq in M.
  assert (Zq : vz q = D * sin (T * conversion degree)) by reflexivity. destruct C as (_ & _ & Cz). rewrite Zq in Cz. set (t := T * conversion degree) in *.
  assert (Bt : - (PI / 2) <= t <= PI / 2) by (unfold t; split; nra). pose proof (SIN_bound t) as Sb. apply abs_split in M. apply abs_split in Cz.
  assert (Z : -1 <= vz p / vnorm p <= 1) by (destruct (coord_le p) as (_ & _ & K); apply abs_split in K; split; apply Rmult_le_reg_r with (vnorm p); try exact Pn; unfold Rdiv; rewrite Rmult_assoc, Rinv_l by lra; lra).
  assert (S : Rabs (vz p / vnorm p - sin t) <= 4 * e).
  { replace (vz p / vnorm p - sin t) with ((vz p - D * sin t + sin t * (D - vnorm p)) / vnorm p) by (field; lra). unfold Rdiv. rewrite Rabs_mult, (Rabs_right (/ vnorm p)) by (apply Rle_ge, Rlt_le, Rinv_0_lt_compat; lra).
    apply Rmult_le_reg_r with (vnorm p); [exact Pn|]. rewrite Rmult_assoc, Rinv_l, Rmult_1_r by lra.
    assert (K : Rabs (sin t * (D - vnorm p)) <= 2 * (D * e)). { rewrite Rabs_mult. assert (Rabs (sin t) <= 1) by (apply Rabs_le; lra). assert (Rabs (D - vnorm p) <= 2 * (D * e)) by (apply Rabs_le; lra). pose proof (Rabs_pos (sin t)). pose proof (Rabs_pos (D - vnorm p)). nra. }
    apply abs_split in K. assert (D * 0.8 <= vnorm p) by nra. assert (e * (D * 0.8) <= e * vnorm p) by (apply Rmult_le_compat_l; lra). apply Rabs_le. lra. }
  destruct (asin_near (vz p / vnorm p) (sin t) (4 * e) Z Sb S) as (A1 & A2). rewrite asin_sin in A1, A2 by lra. replace (8 * (4 * e)) with (32 * e) in A1 by ring. split; [exact A1|]. lra.
Qed.
(** Right ascensions. *)
Lemma small_angle : forall a e, 0 < cos a -> Rabs (sin a) <= e -> exists k : Z, Rabs (a - IZR k * (2 * PI)) <= 2 * e.
Proof.
  intros a e C S. pose proof PI_RGT_0 as P. destruct (Rmod_congr (a + PI) (2 * PI) ltac:(lra)) as (k & K). pose proof (Rmod_range (a + PI) (2 * PI) ltac:(lra)) as B. exists k.
  set (b := Rmod (a + PI) (2 * PI) - PI). assert (Ea : a = b + IZR k * (2 * PI)) by (unfold b; lra). assert (Bb : - PI <= b < PI) by (unfold b; lra).
  rewrite Ea in C, S. rewrite cos_period_Z in C. rewrite sin_period_Z in S. replace (a - IZR k * (2 * PI)) with b by lra. clear - C S Bb P.
  assert (Bc : - (PI / 2) < b < PI / 2).
  { split; apply Rnot_le_lt; intros H.
    - pose proof (cos_le_0 (- b) ltac:(lra) ltac:(lra)) as Q. rewrite cos_neg in Q. lra.
    - pose proof (cos_le_0 b ltac:(lra) ltac:(lra)). lra. }
  apply abs_split in S. destruct (Rle_lt_dec 0 b).
  - pose proof (sin_half b ltac:(lra)). rewrite Rabs_right by lra. lra.
  - pose proof (sin_half (- b) ltac:(lra)) as Q. rewrite sin_neg in Q. rewrite Rabs_left by lra. lra.
Qed.
Lemma ra_moved : forall degree D R T e p, 0 < D -> 0 <= e -> 4 * e <= cos (T * conversion degree) -> 0 < cos (T * conversion degree) ->
  coords_within (D * e) p (sky_to_cartesian degree None (NFloat D) (NFloat R) (NFloat T)) ->
  exists k : Z, Rabs (arctan2 (vy p) (vx p) - R * conversion degree - IZR k * (2 * PI)) <= 8 * e / cos (T * conversion degree).
Proof.
  intros degree D R T e p P E Ct C0 (X & Y & _). unfold sky_to_cartesian, result_type3, store_as, vscale in X, Y. cbn [num_dtype num_val vx vy vz] in X, Y.
  set (c := cos (T * conversion degree)) in *. set (r := R * conversion degree) in *. set (a := arctan2 (vy p) (vx p)). set (x := vx p) in *. set (y := vy p) in *.
  assert (E0 : 0 <= D * e) by (apply Rmult_le_pos; lra). pose proof (COS_bound r) as Bc. pose proof (SIN_bound r) as Bs. pose proof (sin2_cos2 r) as Sq. unfold Rsqr in Sq.
  assert (M : forall v w, Rabs v <= D * e -> -1 <= w <= 1 -> - (D * e) <= v * w <= D * e) by (intros v w V W; apply abs_split; rewrite Rabs_mult; pose proof (Rabs_pos v); assert (Rabs w <= 1) by (apply Rabs_le; lra); pose proof (Rabs_pos w); nra).
  assert (Across : y * cos r - x * sin r = (y - D * (c * sin r)) * cos r - (x - D * (c * cos r)) * sin r) by ring.
  assert (Along : x * cos r + y * sin r = (x - D * (c * cos r)) * cos r + (y - D * (c * sin r)) * sin r + D * c) by (replace (D * c) with (D * c * (sin r * sin r + cos r * cos r)) by (rewrite Sq; ring); ring).
  pose proof (M _ _ Y Bc) as M1. pose proof (M _ _ X Bs) as M2. pose proof (M _ _ X Bc) as M3. pose proof (M _ _ Y Bs) as M4.
  assert (H : D * (4 * e) <= D * c) by (apply Rmult_le_compat_l; lra). assert (Hc : 0 < D * c) by (apply Rmult_lt_0_compat; lra).
  assert (Al : D * c / 2 <= x * cos r + y * sin r) by lra.
  assert (Nz : x <> 0 \/ y <> 0). { destruct (Req_dec x 0) as [Zx|]; [|left; auto]. destruct (Req_dec y 0) as [Zy|]; [|right; auto]. rewrite Zx, Zy in Al. lra. }
  destruct (arctan2_spec y x Nz) as (Ax & Ay). fold a in Ax, Ay. set (rho := sqrt (x * x + y * y)) in *. assert (Rp : 0 < rho) by (apply sqrt_lt_R0; destruct Nz; nra).
  assert (Cd : rho * cos (a - r) = x * cos r + y * sin r) by (rewrite cos_minus; rewrite <- Ax, <- Ay; ring). assert (Sd : rho * sin (a - r) = y * cos r - x * sin r) by (rewrite sin_minus; rewrite <- Ax, <- Ay; ring).
  assert (Cp : 0 < cos (a - r)) by (apply Rmult_lt_reg_l with rho; [exact Rp|]; rewrite Cd; lra).
  assert (Rr : D * c / 2 <= rho) by (pose proof (COS_bound (a - r)); nra).
  assert (Sm : Rabs (sin (a - r)) <= 4 * e / c).
  { apply Rmult_le_reg_l with (D * c / 2); [lra|]. replace (D * c / 2 * (4 * e / c)) with (2 * (D * e)) by (field; lra). apply Rle_trans with (rho * Rabs (sin (a - r))); [apply Rmult_le_compat_r; [apply Rabs_pos|exact Rr]|].
    rewrite <- (Rabs_right rho) at 1 by lra. rewrite <- Rabs_mult, Sd, Across. apply Rabs_le. lra. }
  destruct (small_angle (a - r) _ Cp Sm) as (k & K). exists k. replace (8 * e / c) with (2 * (4 * e / c)) by (field; lra). exact K.
Qed.
