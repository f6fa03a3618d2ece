(** Lemmas about the sky-coordinate model. *)
Require Import Reals Lra Lia ZArith List Bool.
From Verif Require Import Base Vec3 Isometry_Model Isometry_Spec Isometry_Proof Sky_Model.
Import ListNotations.
Open Scope R_scope.

Lemma cos_period_Z : forall x k, cos (x + IZR k * (2 * PI)) = cos x.
Proof.
  intros x k. destruct k as [|p|p].
  - f_equal; ring.
  - replace (IZR (Z.pos p)) with (INR (Pos.to_nat p)) by (rewrite INR_IZR_INZ, positive_nat_Z; auto).
    replace (x + INR (Pos.to_nat p) * (2 * PI)) with (x + 2 * INR (Pos.to_nat p) * PI) by ring. apply cos_period.
  - rewrite <- (cos_period (x + IZR (Z.neg p) * (2 * PI)) (Pos.to_nat p)). f_equal.
    replace (INR (Pos.to_nat p)) with (IZR (Z.pos p)) by (rewrite INR_IZR_INZ, positive_nat_Z; auto).
    change (Z.neg p) with (- Z.pos p)%Z. rewrite opp_IZR. ring.
Qed.
Lemma sin_period_Z : forall x k, sin (x + IZR k * (2 * PI)) = sin x.
Proof.
  intros x k. rewrite <- !cos_shift. replace (PI / 2 - (x + IZR k * (2 * PI))) with (PI / 2 - x + IZR (- k) * (2 * PI)).
  apply cos_period_Z. rewrite opp_IZR; ring.
Qed.

Lemma two_pi_pos : 0 < 2 * PI. Proof. pose proof PI_RGT_0; lra. Qed.

Lemma cos_Rmod : forall x, cos (Rmod x (2 * PI)) = cos x.
Proof. intros x. destruct (Rmod_congr x (2 * PI) two_pi_pos) as [k E]. rewrite E at 2. rewrite cos_period_Z. auto. Qed.
Lemma sin_Rmod : forall x, sin (Rmod x (2 * PI)) = sin x.
Proof. intros x. destruct (Rmod_congr x (2 * PI) two_pi_pos) as [k E]. rewrite E at 2. rewrite sin_period_Z. auto. Qed.

Lemma sin_zero_small : forall x, - PI < x < PI -> sin x = 0 -> x = 0.
Proof.
  intros x H S. destruct (Rtotal_order x 0) as [L|[E|G]]; auto.
  - assert (0 < sin (- x)) by (apply sin_gt_0; lra). rewrite sin_neg in H0. lra.
  - assert (0 < sin x) by (apply sin_gt_0; lra). lra.
Qed.

Lemma angle_unique : forall u v, 0 <= u < 2 * PI -> 0 <= v < 2 * PI -> cos u = cos v -> sin u = sin v -> u = v.
Proof.
  intros u v Hu Hv C S.
  assert (E : cos (u - v) = 1).
  { rewrite cos_minus, C, S. pose proof (sin2_cos2 v). unfold Rsqr in *. lra. }
  assert (Z : sin ((u - v) / 2) = 0).
  { replace (u - v) with (2 * ((u - v) / 2)) in E by field. rewrite cos_2a_sin in E.
    assert (sin ((u - v) / 2) * sin ((u - v) / 2) = 0) by lra. nra. }
  apply sin_zero_small in Z; lra.
Qed.

(* ---------- arctan2 ---------- *)
Lemma sqrt_1t2 : forall x y, x <> 0 -> sqrt (1 + (y / x)²) = sqrt (x * x + y * y) / Rabs x.
Proof.
  intros x y H. replace (1 + (y / x)²) with ((x * x + y * y) / (x * x)) by (unfold Rsqr; field; auto).
  rewrite sqrt_div_alt by nra. f_equal. replace (x * x) with (Rsqr x) by reflexivity. apply sqrt_Rsqr_abs.
Qed.

Lemma arctan2_spec : forall y x, (x <> 0 \/ y <> 0) ->
  sqrt (x * x + y * y) * cos (arctan2 y x) = x /\ sqrt (x * x + y * y) * sin (arctan2 y x) = y.
Proof.
  intros y x H. assert (P : 0 < sqrt (x * x + y * y)) by (apply sqrt_lt_R0; nra).
  assert (K : x <> 0 -> cos (atan (y / x)) = Rabs x / sqrt (x * x + y * y) /\ sin (atan (y / x)) = (y / x) * (Rabs x / sqrt (x * x + y * y))).
  { intros N. rewrite cos_atan, sin_atan, sqrt_1t2 by auto. pose proof (Rabs_pos_lt x N). split; field; repeat split; lra. }
  unfold arctan2. destruct (Rlt_dec 0 x).
  - destruct K as [-> ->]; [lra|]. rewrite Rabs_right by lra. split; field; lra.
  - destruct (Rlt_dec x 0).
    + destruct K as [K1 K2]; [lra|]. rewrite Rabs_left in K1, K2 by lra.
      destruct (Rlt_dec y 0).
      * rewrite cos_minus, sin_minus, cos_PI, sin_PI, K1, K2. split; field; lra.
      * rewrite neg_cos, neg_sin, K1, K2. split; field; lra.
    + assert (x = 0) by lra. subst. assert (y <> 0) by (destruct H; auto; lra).
      replace (0 * 0 + y * y) with (Rsqr y) by (unfold Rsqr; ring). rewrite sqrt_Rsqr_abs.
      destruct (Rlt_dec 0 y).
      * rewrite cos_PI2, sin_PI2, Rabs_right by lra. split; ring.
      * destruct (Rlt_dec y 0); [|lra]. rewrite cos_neg, sin_neg, cos_PI2, sin_PI2, Rabs_left by lra. split; ring.
Qed.

Lemma conversion_pos : forall d, 0 < conversion d.
Proof. intros []; unfold conversion; pose proof PI_RGT_0; lra. Qed.

Lemma wrap_rad : forall a, wrap_angle false a = Rmod a (2 * PI).
Proof. intros. unfold wrap_angle, conversion. rewrite Rmult_1_r. field. Qed.

Definition turn (degree : bool) : R := if degree then 360 else 2 * PI.
Lemma turn_conversion : forall d, turn d * conversion d = 2 * PI.
Proof. intros []; unfold turn, conversion; field. Qed.

Lemma wrap_as_mod : forall d a, wrap_angle d a = Rmod a (turn d).
Proof.
  intros d a. unfold wrap_angle, Rmod. pose proof (conversion_pos d) as C. pose proof (turn_conversion d) as T.
  assert (0 < turn d) by (destruct d; unfold turn; pose proof PI_RGT_0; lra).
  rewrite <- T. replace (a * conversion d / (turn d * conversion d)) with (a / turn d) by (field; lra).
  field; lra.
Qed.

(** atan2(x) wrapped has the direction of (x, y). *)
Lemma c2s_angles : forall d p x y z, cartesian_to_sky d p = Ok (x, y, z) ->
  x = vnorm p /\ 0 < vnorm p /\
  y * conversion d = Rmod (arctan2 (vy p) (vx p)) (2 * PI) /\ z * conversion d = asin (vz p / vnorm p).
Proof.
  intros d p x y z H. unfold cartesian_to_sky in H. rewrite distance_vnorm in H.
  destruct (Req_EM_T (vnorm p) 0) as [|N]; [discriminate|]. injection H as <- <- <-.
  pose proof (conversion_pos d). pose proof (vnorm_nonneg p). rewrite wrap_rad.
  repeat split; [lra | field; lra | field; lra].
Qed.

Lemma vz_over_norm : forall p, p <> vzero -> -1 <= vz p / vnorm p <= 1.
Proof.
  intros p H. pose proof (vnorm_pos p H) as P. pose proof (vnorm_sqr p) as S.
  assert (Q : Rabs (vz p) <= vnorm p).
  { apply Rsqr_incr_0_var; [|lra]. rewrite <- Rsqr_abs. unfold Rsqr. rewrite S. destruct p; vunfold; nra. }
  apply Rabs_le_inv in Q.
  assert (E : vz p = (vz p / vnorm p) * vnorm p) by (field; lra).
  set (t := vz p / vnorm p) in *. split; nra.
Qed.

Lemma c2s_ok : forall d p, p <> vzero -> exists x y z, cartesian_to_sky d p = Ok (x, y, z).
Proof.
  intros d p H. unfold cartesian_to_sky. rewrite distance_vnorm. pose proof (vnorm_pos p H).
  destruct (Req_EM_T (vnorm p) 0); [lra|]. eauto.
Qed.

Lemma horizontal : forall p, p <> vzero ->
  vnorm p * sqrt (1 - (vz p / vnorm p)²) = sqrt (vx p * vx p + vy p * vy p).
Proof.
  intros p H. pose proof (vnorm_pos p H) as P. pose proof (vnorm_sqr p) as S.
  replace (1 - (vz p / vnorm p)²) with ((vx p * vx p + vy p * vy p) / (vnorm p * vnorm p)).
  - rewrite sqrt_div_alt by nra. rewrite sqrt_square by lra. field. lra.
  - apply Rmult_eq_reg_r with (vnorm p * vnorm p); [|nra]. unfold Rsqr. field_simplify; try lra.
    simpl. rewrite !Rmult_1_r, S. destruct p; vunfold; ring.
Qed.

Lemma sky_roundtrip1 : forall d p x y z, p <> vzero -> cartesian_to_sky d p = Ok (x, y, z) ->
  sky_to_cartesian d None (NFloat x) (NFloat y) (NFloat z) = p.
Proof.
  intros d p x y z H E. destruct (c2s_angles _ _ _ _ _ E) as (-> & P & Ha & Hz).
  unfold sky_to_cartesian; cbn [num_val result_type3 num_dtype store_as].
  rewrite Ha, Hz, cos_Rmod, sin_Rmod.
  pose proof (vz_over_norm p H) as B. rewrite cos_asin, sin_asin by lra.
  unfold vscale; cbn [vx vy vz]. rewrite <- !Rmult_assoc, !(horizontal p H).
  destruct (Req_dec (vx p * vx p + vy p * vy p) 0) as [Z|Z].
  - rewrite Z, sqrt_0. assert (vx p = 0 /\ vy p = 0) as [X0 Y0] by (split; nra). destruct p; cbn in *; subst.
    f_equal; try ring. field. lra.
  - destruct (arctan2_spec (vy p) (vx p)) as [C S].
    { destruct (Req_dec (vx p) 0); auto. right. intros Y0. apply Z. rewrite H0, Y0. ring. }
    rewrite C, S. destruct p; cbn in *. f_equal. field. lra.
Qed.

Lemma c2s_ranges : forall d p x y z, p <> vzero -> cartesian_to_sky d p = Ok (x, y, z) ->
  0 <= y < turn d /\ - (turn d / 4) <= z <= turn d / 4.
Proof.
  intros d p x y z H E. destruct (c2s_angles _ _ _ _ _ E) as (_ & P & Ha & Hz).
  pose proof (conversion_pos d) as C. pose proof (turn_conversion d) as T.
  pose proof (Rmod_range (arctan2 (vy p) (vx p)) (2 * PI) two_pi_pos) as M. rewrite <- Ha in M.
  pose proof (asin_bound (vz p / vnorm p)) as B. rewrite <- Hz in B. rewrite <- T in M.
  split; split.
  - apply Rmult_le_reg_r with (conversion d); lra.
  - apply Rmult_lt_reg_r with (conversion d); lra.
  - apply Rmult_le_reg_r with (conversion d); auto. lra.
  - apply Rmult_le_reg_r with (conversion d); auto. lra.
Qed.

Lemma sky_roundtrip2 : forall d x y z, 0 < x -> 0 <= y < turn d -> - (turn d / 4) < z < turn d / 4 ->
  cartesian_to_sky d (sky_to_cartesian d None (NFloat x) (NFloat y) (NFloat z)) = Ok (x, y, z).
Proof.
  intros d x y z Hx Hy Hz.
  pose proof (conversion_pos d) as C. pose proof (turn_conversion d) as T.
  set (p := sky_to_cartesian d None (NFloat x) (NFloat y) (NFloat z)).
  unfold sky_to_cartesian in p; cbn [num_val result_type3 num_dtype store_as] in p.
  set (a := y * conversion d) in *. set (b := z * conversion d) in *.
  assert (Ba : 0 <= a < 2 * PI) by (unfold a; rewrite <- T; split; nra).
  assert (Bb : - (PI / 2) < b < PI / 2) by (unfold b; replace (PI / 2) with (turn d / 4 * conversion d) by lra; split; nra).
  assert (Cb : 0 < cos b) by (apply cos_gt_0; lra).
  pose proof (sin2_cos2 a) as Sa. pose proof (sin2_cos2 b) as Sb. unfold Rsqr in Sa, Sb.
  assert (Q : vdot p p = x * x).
  { unfold p, vscale, vdot; cbn [vx vy vz]. 
    transitivity (x * x * (cos b * cos b * (sin a * sin a + cos a * cos a) + sin b * sin b)); [ring|].
    rewrite Sa. rewrite <- (Rmult_1_r (x * x)) at 2. f_equal. lra. }
  assert (N : vnorm p = x) by (unfold vnorm; rewrite Q; apply sqrt_square; lra).
  assert (PZ : p <> vzero) by (intros E; rewrite E in N; rewrite vnorm_vzero in N; lra).
  destruct (c2s_ok d p PZ) as (x' & y' & z' & E). rewrite E.
  destruct (c2s_angles _ _ _ _ _ E) as (-> & _ & Ha & Hb'). rewrite N in *.
  assert (Z' : z' = z).
  { assert (vz p / x = sin b) as W by (unfold p, vscale; cbn [vz]; field; lra). rewrite W, asin_sin in Hb' by lra.
    unfold b in Hb'. apply Rmult_eq_reg_r in Hb'; lra. }
  assert (Y' : y' = y).
  { assert (H2 : sqrt (vx p * vx p + vy p * vy p) = x * cos b).
    { replace (vx p * vx p + vy p * vy p) with (Rsqr (x * cos b)).
      - apply sqrt_Rsqr. nra.
      - unfold p, vscale, Rsqr; cbn [vx vy]. transitivity (x * x * (cos b * cos b) * (sin a * sin a + cos a * cos a)); [rewrite Sa; ring|ring]. }
    destruct (arctan2_spec (vy p) (vx p)) as [A1 A2].
    { destruct (Req_dec (vx p) 0) as [X0|]; auto. destruct (Req_dec (vy p) 0) as [Y0|]; auto. exfalso.
      rewrite X0, Y0 in H2. replace (0 * 0 + 0 * 0) with 0 in H2 by ring. rewrite sqrt_0 in H2. nra. }
    rewrite H2 in A1, A2.
    assert (y' * conversion d = a).
    { rewrite Ha. apply angle_unique; auto. apply Rmod_range, two_pi_pos.
      - rewrite cos_Rmod. unfold p, vscale in A1; cbn [vx vy] in A1. apply Rmult_eq_reg_l with (x * cos b); [|nra].
        unfold p, vscale; cbn [vx vy]. rewrite A1. ring.
      - rewrite sin_Rmod. unfold p, vscale in A2; cbn [vx vy] in A2. apply Rmult_eq_reg_l with (x * cos b); [|nra].
        unfold p, vscale; cbn [vx vy]. rewrite A2. ring. }
    unfold a in H. apply Rmult_eq_reg_r in H; lra. }
  rewrite Y', Z'. reflexivity.
Qed.

(* ---------- wrap ---------- *)
Lemma turn_pos : forall d, 0 < turn d.
Proof. intros []; unfold turn; pose proof PI_RGT_0; lra. Qed.

Lemma wrap_range : forall d a, 0 <= wrap_angle d a < turn d.
Proof. intros. rewrite wrap_as_mod. apply Rmod_range, turn_pos. Qed.
Lemma wrap_congr : forall d a, exists k : Z, wrap_angle d a = a + IZR k * turn d.
Proof.
  intros d a. rewrite wrap_as_mod. destruct (Rmod_congr a (turn d) (turn_pos d)) as [k E]. exists (- k)%Z. rewrite opp_IZR. lra.
Qed.
Lemma wrap_shift : forall d a k, wrap_angle d (a + IZR k * turn d) = wrap_angle d a.
Proof. intros. rewrite !wrap_as_mod. apply Rmod_shift, turn_pos. Qed.
Lemma wrap_id : forall d a, 0 <= a < turn d -> wrap_angle d a = a.
Proof. intros. rewrite wrap_as_mod. apply Rmod_id; auto. Qed.
Lemma wrap_idem : forall d a, wrap_angle d (wrap_angle d a) = wrap_angle d a.
Proof. intros. apply wrap_id, wrap_range. Qed.

(* ---------- integer inputs ---------- *)
Lemma Rtrunc_small : forall x, -1 < x < 1 -> Rtrunc x = 0%Z.
Proof.
  intros x H. unfold Rtrunc. destruct (Rlt_dec x 0).
  - unfold Rceil. replace (Rfloor (- x)) with 0%Z; auto. symmetry; apply Rfloor_unique. simpl; lra.
  - apply Rfloor_unique. simpl; lra.
Qed.

Lemma cos60_deg : cos (60 * (PI / 180)) = 1 / 2.
Proof. replace (60 * (PI / 180)) with (PI / 3) by field. apply cos_PI3. Qed.
Lemma sin60_deg : sin (60 * (PI / 180)) = sqrt 3 / 2.
Proof. replace (60 * (PI / 180)) with (PI / 3) by field. apply sin_PI3. Qed.

Lemma sky_int_zero : sky_to_cartesian true None (NInt 1000) (NInt 60) (NInt 0) = vzero.
Proof.
  unfold sky_to_cartesian; cbn [num_val result_type3 num_dtype store_as conversion].
  rewrite Rmult_0_l, cos_0, sin_0, cos60_deg, sin60_deg, !Rmult_1_l.
  assert (B : 0 <= sqrt 3 < 2).
  { split. apply sqrt_pos. apply Rsqr_incrst_0; try lra. unfold Rsqr; rewrite sqrt_sqrt; lra. apply sqrt_pos. }
  rewrite (Rtrunc_small (1 / 2)), (Rtrunc_small (sqrt 3 / 2)), (Rtrunc_small 0) by lra.
  unfold vscale, vzero; cbn. f_equal; ring.
Qed.

(* ---------- area ---------- *)
Lemma area_deriv : forall lo hi dlo h,
  derivable_pt_lim (fun x => radecbox_area (lo, hi) (dlo, x)) h ((hi - lo) * cos (h * (PI / 180))).
Proof.
  intros lo hi dlo h. unfold radecbox_area, rad2deg, deg2rad; cbn [fst snd].
  pose proof PI_RGT_0 as P.
  assert (D : derivable_pt_lim (fun x => sin (x * PI / 180)) h (cos (h * (PI / 180)) * (PI / 180))).
  { replace (cos (h * (PI / 180))) with (cos (h * PI / 180)) by (f_equal; field).
    apply (derivable_pt_lim_comp (fun x => x * PI / 180) sin h (PI / 180) (cos (h * PI / 180))).
    - replace (PI / 180) with (PI / 180 * 1) by ring.
      assert (E : forall x, (fun x => x * PI / 180) x = mult_real_fct (PI / 180) id x) by (intros; unfold mult_real_fct, id; field).
      intros eps He. destruct (derivable_pt_lim_scal id (PI / 180) h 1 (derivable_pt_lim_id h) eps He) as [del Hd].
      exists del. intros hh Hh Hb. specialize (Hd hh Hh Hb). rewrite <- !E in Hd. exact Hd.
    - apply derivable_pt_lim_sin. }
  intros eps He.
  destruct (derivable_pt_lim_scal _ (180 / PI * (hi - lo)) h _ D eps He) as [del Hd].
  exists del. intros hh Hh Hb. specialize (Hd hh Hh Hb).
  eapply Rle_lt_trans; [|exact Hd]. right. f_equal. unfold mult_real_fct. field. split; lra.
Qed.

Lemma area_nonneg : forall lo hi dlo dhi, lo <= hi -> -90 <= dlo -> dlo <= dhi -> dhi <= 90 ->
  0 <= radecbox_area (lo, hi) (dlo, dhi).
Proof.
  intros lo hi dlo dhi H1 H2 H3 H4. unfold radecbox_area, rad2deg, deg2rad; cbn [fst snd]. pose proof PI_RGT_0 as P.
  apply Rmult_le_pos; [|lra].
  assert (M : sin (dlo * PI / 180) <= sin (dhi * PI / 180)) by (apply sin_incr_1; nra).
  replace (sin (dhi * PI / 180) * 180 / PI - sin (dlo * PI / 180) * 180 / PI)
    with ((sin (dhi * PI / 180) - sin (dlo * PI / 180)) * (180 / PI)) by (field; lra).
  apply Rmult_le_pos; [lra|]. apply Rlt_le, Rdiv_lt_0_compat; lra.
Qed.

Lemma area_split_ra : forall lo mid hi dr, radecbox_area (lo, hi) dr = radecbox_area (lo, mid) dr + radecbox_area (mid, hi) dr.
Proof. intros. unfold radecbox_area; cbn. ring. Qed.
Lemma area_split_dec : forall r dlo mid dhi, radecbox_area r (dlo, dhi) = radecbox_area r (dlo, mid) + radecbox_area r (mid, dhi).
Proof. intros. unfold radecbox_area; cbn. ring. Qed.
Lemma area_full : radecbox_area (0, 360) (-90, 90) = 4 * PI * (180 / PI) ^ 2.
Proof.
  unfold radecbox_area, rad2deg, deg2rad; cbn [fst snd]. pose proof PI_RGT_0.
  replace (90 * PI / 180) with (PI / 2) by field. replace (-90 * PI / 180) with (- (PI / 2)) by field.
  rewrite sin_neg, sin_PI2. field. lra.
Qed.
Lemma area_crossing_negative : radecbox_area (300, 40) (-10, 10) < 0.
Proof.
  unfold radecbox_area, rad2deg, deg2rad; cbn [fst snd]. pose proof PI_RGT_0 as P.
  assert (M : sin (-10 * PI / 180) < sin (10 * PI / 180)) by (apply sin_increasing_1; nra).
  replace (sin (10 * PI / 180) * 180 / PI - sin (-10 * PI / 180) * 180 / PI)
    with ((sin (10 * PI / 180) - sin (-10 * PI / 180)) * (180 / PI)) by (field; lra).
  assert (0 < 180 / PI) by (apply Rdiv_lt_0_compat; lra).
  assert (0 < (sin (10 * PI / 180) - sin (-10 * PI / 180)) * (180 / PI)) by (apply Rmult_lt_0_compat; lra). nra.
Qed.

(* ---------- projection ---------- *)
Lemma vp1_ok : forall v d, d <> vzero -> vector_projection1 v d = Ok (vscale (vdot v d / vdot d d) d).
Proof.
  intros v d H. unfold vector_projection1. fold (distance d). rewrite distance_vnorm. pose proof (vnorm_pos d H) as P.
  pose proof (vnorm_sqr d) as S. destruct (Req_EM_T (vnorm d) 0); [lra|]. f_equal. rewrite <- S.
  unfold vscale, vdot. cbn [vx vy vz]. f_equal; field; lra.
Qed.

Lemma vp1_props : forall v d, d <> vzero -> exists p, vector_projection1 v d = Ok p /\
  (exists k, p = vscale k d) /\ vdot (vsub v p) d = 0 /\ vector_projection1 p d = Ok p.
Proof.
  intros v d H. rewrite vp1_ok by auto. eexists; split; [reflexivity|]. split; [eauto|].
  pose proof (vdot_self_pos d H) as P. split.
  - transitivity (vdot v d - vdot v d / vdot d d * vdot d d).
    + set (k := vdot v d / vdot d d). clearbody k. clear - v d k. revert v d k. vring.
    + field. lra.
  - rewrite vp1_ok by auto. do 2 f_equal. rewrite vdot_scale_l. field. lra.
Qed.

Lemma vp1_scale : forall v d k, d <> vzero -> k <> 0 -> vector_projection1 v (vscale k d) = vector_projection1 v d.
Proof.
  intros v d k H K. assert (N : vscale k d <> vzero).
  { intros E. apply H. assert (X : vscale (/ k) (vscale k d) = vzero) by (rewrite E; apply vscale_zero).
    rewrite vscale_scale, Rinv_l, vscale_1 in X; auto. }
  rewrite !vp1_ok by auto. f_equal. rewrite vdot_scale_l, !vdot_scale_r, vscale_scale. f_equal.
  pose proof (vdot_self_pos d H). field. split; lra.
Qed.

Lemma vp1_linear : forall u v d a b p q, vector_projection1 u d = Ok p -> vector_projection1 v d = Ok q ->
  vector_projection1 (vadd (vscale a u) (vscale b v)) d = Ok (vadd (vscale a p) (vscale b q)).
Proof.
  intros u v d a b p q Hp Hq. destruct (vec_dec d vzero) as [->|N].
  - unfold vector_projection1 in Hp. fold (distance vzero) in Hp. rewrite distance_vnorm, vnorm_vzero in Hp.
    destruct (Req_EM_T 0 0); [discriminate|congruence].
  - rewrite vp1_ok in * by auto. injection Hp as <-. injection Hq as <-. f_equal.
    pose proof (vdot_self_pos d N) as P. rewrite vdot_add_l, !vdot_scale_l.
    set (x := vdot u d). set (y := vdot v d). set (z := vdot d d) in *. clearbody x y z.
    unfold vscale, vadd; cbn [vx vy vz]. f_equal; field; lra.
Qed.

(** map2_result as a pointwise relation. *)
Lemma map2_result_spec : forall {A B C} (f : A -> B -> result C) la lb lc,
  map2_result f la lb = Ok lc -> length la = length lc /\ length lb = length lc /\
  forall i a b c, nth_error la i = Some a -> nth_error lb i = Some b -> nth_error lc i = Some c -> f a b = Ok c.
Proof.
  induction la; destruct lb; intros lc H; cbn in H; try discriminate.
  - injection H as <-. repeat split. intros [] ? ? ? E; discriminate.
  - destruct (f a b) eqn:E; [|discriminate]. cbn in H. destruct (map2_result f la lb) eqn:F; [|discriminate]. injection H as <-.
    destruct (IHla _ _ F) as (L1 & L2 & S). cbn. repeat split; try lia. intros [|i] a' b' c' Ha Hb Hc; cbn in *.
    + congruence.
    + eauto.
Qed.

Lemma map2_result_ok : forall {A B C} (f : A -> B -> result C) la lb, length la = length lb ->
  (forall a b, In a la -> In b lb -> exists c, f a b = Ok c) -> exists lc, map2_result f la lb = Ok lc.
Proof.
  induction la; destruct lb; intros L H; cbn in *; try discriminate; eauto.
  destruct (H a b) as [c ->]; auto. destruct (IHla lb) as [l ->]; auto. cbn; eauto.
Qed.

(* ---------- truncated Cauchy ---------- *)
Lemma atan_incr : forall x y, x < y -> atan x < atan y. Proof. exact atan_increasing. Qed.
Lemma ccdf_incr : forall x y, x < y -> cauchy_cdf x < cauchy_cdf y.
Proof.
  intros x y H. unfold cauchy_cdf. pose proof (atan_increasing x y H). pose proof PI_RGT_0.
  apply Rplus_lt_compat_l. apply Rmult_lt_compat_r; [apply Rinv_0_lt_compat; lra|lra].
Qed.
Lemma ccdf_bounds : forall x, 0 < cauchy_cdf x < 1.
Proof.
  intros x. unfold cauchy_cdf. pose proof (atan_bound x) as [A B]. pose proof PI_RGT_0 as P.
  assert (E : atan x = (atan x / PI) * PI) by (field; lra). set (t := atan x / PI) in *. rewrite E in A, B. split; nra.
Qed.
Lemma cppf_ccdf : forall x, cauchy_ppf (cauchy_cdf x) = x.
Proof.
  intros. unfold cauchy_ppf, cauchy_cdf. pose proof PI_RGT_0.
  replace (PI * (1 / 2 + atan x / PI) - PI / 2) with (atan x) by (field; lra). apply tan_atan.
Qed.
Lemma ccdf_cppf : forall q, 0 < q < 1 -> cauchy_cdf (cauchy_ppf q) = q.
Proof.
  intros q H. unfold cauchy_ppf, cauchy_cdf. pose proof PI_RGT_0. rewrite atan_tan by (split; nra). field. lra.
Qed.

Lemma std_lt : forall a b loc scale, 0 < scale -> a < b -> (a - loc) / scale < (b - loc) / scale.
Proof. intros. apply Rmult_lt_compat_r; [apply Rinv_0_lt_compat; lra|lra]. Qed.
Lemma std_le : forall a b loc scale, 0 < scale -> a <= b -> (a - loc) / scale <= (b - loc) / scale.
Proof. intros. apply Rmult_le_compat_r; [apply Rlt_le, Rinv_0_lt_compat; lra|lra]. Qed.
Lemma std_inv : forall x loc scale, 0 < scale -> (x - loc) / scale * scale + loc = x.
Proof. intros; field; lra. Qed.

Lemma tc_ok : forall a b loc scale, 0 < scale -> a < b -> tc_args_ok a b loc scale = true.
Proof. intros. unfold tc_args_ok. rewrite (proj2 (Rltb_true _ _)), (proj2 (Rltb_true _ _)); auto. apply std_lt; auto. Qed.

Lemma tc_cdf_value : forall a b loc scale x, 0 < scale -> a < b -> a <= x <= b ->
  trunccauchy_cdf a b loc scale x = Ok (tc_cdf ((x - loc) / scale) ((a - loc) / scale) ((b - loc) / scale)).
Proof.
  intros a b loc scale x Hs Hab Hx. unfold trunccauchy_cdf. rewrite tc_ok by auto. cbn [negb].
  pose proof (std_lt a b loc scale Hs Hab) as L. pose proof (ccdf_incr _ _ L) as C.
  destruct (Rle_dec ((x - loc) / scale) ((a - loc) / scale)) as [A|A].
  - pose proof (std_le a x loc scale Hs (proj1 Hx)). replace ((x - loc) / scale) with ((a - loc) / scale) by lra.
    unfold tc_cdf. f_equal. field. lra.
  - destruct (Rle_dec ((b - loc) / scale) ((x - loc) / scale)) as [B|B]; auto.
    pose proof (std_le x b loc scale Hs (proj2 Hx)). replace ((x - loc) / scale) with ((b - loc) / scale) by lra.
    unfold tc_cdf. f_equal. field. lra.
Qed.

Lemma tc_ppf_value : forall a b loc scale q, 0 < scale -> a < b -> 0 <= q <= 1 ->
  trunccauchy_ppf a b loc scale q = Ok (tc_ppf q ((a - loc) / scale) ((b - loc) / scale) * scale + loc).
Proof.
  intros a b loc scale q Hs Hab Hq. unfold trunccauchy_ppf. rewrite tc_ok by auto. cbn [negb].
  rewrite (proj2 (Rltb_false q 0)), (proj2 (Rltb_false 1 q)) by lra. cbn [orb].
  unfold tc_ppf. destruct (Reqb q 0) eqn:E0.
  - apply Reqb_true in E0. subst. rewrite Rmult_0_l, Rplus_0_l, cppf_ccdf. reflexivity.
  - destruct (Reqb q 1) eqn:E1; auto. apply Reqb_true in E1. subst.
    replace (1 * (cauchy_cdf ((b - loc) / scale) - cauchy_cdf ((a - loc) / scale)) + cauchy_cdf ((a - loc) / scale))
      with (cauchy_cdf ((b - loc) / scale)) by ring. rewrite cppf_ccdf. reflexivity.
Qed.

Lemma tc_mix_bounds : forall a b q, a < b -> 0 <= q <= 1 ->
  cauchy_cdf a <= q * (cauchy_cdf b - cauchy_cdf a) + cauchy_cdf a <= cauchy_cdf b.
Proof. intros a b q H Q. pose proof (ccdf_incr a b H). split; nra. Qed.

Lemma cppf_mono : forall p q, 0 < p -> p <= q -> q < 1 -> cauchy_ppf p <= cauchy_ppf q.
Proof.
  intros p q H1 H2 H3. destruct (Rle_lt_dec (cauchy_ppf p) (cauchy_ppf q)); auto. exfalso.
  apply ccdf_incr in r. rewrite !ccdf_cppf in r by lra. lra.
Qed.

Lemma tc_ppf_range : forall a b q, a < b -> 0 <= q <= 1 -> a <= tc_ppf q a b <= b.
Proof.
  intros a b q H Q. unfold tc_ppf. pose proof (tc_mix_bounds a b q H Q). pose proof (ccdf_bounds a). pose proof (ccdf_bounds b).
  split.
  - apply Rle_trans with (cauchy_ppf (cauchy_cdf a)); [rewrite cppf_ccdf; lra | apply cppf_mono; lra].
  - apply Rle_trans with (cauchy_ppf (cauchy_cdf b)); [apply cppf_mono; lra | rewrite cppf_ccdf; lra].
Qed.

Lemma tc_cdf_ppf : forall a b q, a < b -> 0 <= q <= 1 -> tc_cdf (tc_ppf q a b) a b = q.
Proof.
  intros a b q H Q. unfold tc_cdf, tc_ppf. pose proof (tc_mix_bounds a b q H Q). pose proof (ccdf_bounds a). pose proof (ccdf_bounds b).
  pose proof (ccdf_incr a b H). rewrite ccdf_cppf by lra. field. lra.
Qed.
Lemma tc_ppf_cdf : forall a b x, a < b -> tc_ppf (tc_cdf x a b) a b = x.
Proof.
  intros a b x H. unfold tc_cdf, tc_ppf. pose proof (ccdf_incr a b H).
  replace ((cauchy_cdf x - cauchy_cdf a) / (cauchy_cdf b - cauchy_cdf a) * (cauchy_cdf b - cauchy_cdf a) + cauchy_cdf a)
    with (cauchy_cdf x) by (field; lra). apply cppf_ccdf.
Qed.

Lemma trunccauchy_edges : forall a b loc scale, 0 < scale -> a < b ->
  trunccauchy_cdf a b loc scale a = Ok 0 /\ trunccauchy_cdf a b loc scale b = Ok 1.
Proof.
  intros a b loc scale Hs Hab. rewrite !tc_cdf_value by lra. unfold tc_cdf.
  pose proof (ccdf_incr _ _ (std_lt a b loc scale Hs Hab)). split; f_equal; field; lra.
Qed.

Lemma trunccauchy_incr : forall a b loc scale x y, 0 < scale -> a <= x -> x < y -> y <= b ->
  exists u v, trunccauchy_cdf a b loc scale x = Ok u /\ trunccauchy_cdf a b loc scale y = Ok v /\ u < v.
Proof.
  intros a b loc scale x y Hs Hx Hxy Hy. rewrite !tc_cdf_value by lra. do 2 eexists. do 2 (split; [reflexivity|]).
  unfold tc_cdf. pose proof (ccdf_incr _ _ (std_lt a b loc scale Hs ltac:(lra))). pose proof (ccdf_incr _ _ (std_lt x y loc scale Hs Hxy)).
  apply Rmult_lt_compat_r; [apply Rinv_0_lt_compat; lra|lra].
Qed.

Lemma trunccauchy_inverse1 : forall a b loc scale q, 0 < scale -> a < b -> 0 <= q <= 1 ->
  exists x, trunccauchy_ppf a b loc scale q = Ok x /\ a <= x <= b /\ trunccauchy_cdf a b loc scale x = Ok q.
Proof.
  intros a b loc scale q Hs Hab Hq. rewrite tc_ppf_value by auto. eexists; split; [reflexivity|].
  pose proof (std_lt a b loc scale Hs Hab) as L.
  pose proof (tc_ppf_range _ _ q L Hq) as R1. set (t := tc_ppf q ((a - loc) / scale) ((b - loc) / scale)) in *.
  assert (B : a <= t * scale + loc <= b).
  { rewrite <- (std_inv a loc scale Hs), <- (std_inv b loc scale Hs). split; nra. }
  split; auto. rewrite tc_cdf_value by auto. f_equal.
  replace ((t * scale + loc - loc) / scale) with t by (field; lra). apply tc_cdf_ppf; auto.
Qed.

Lemma trunccauchy_inverse2 : forall a b loc scale x, 0 < scale -> a < b -> a <= x <= b ->
  exists q, trunccauchy_cdf a b loc scale x = Ok q /\ 0 <= q <= 1 /\ trunccauchy_ppf a b loc scale q = Ok x.
Proof.
  intros a b loc scale x Hs Hab Hx. rewrite tc_cdf_value by auto. eexists; split; [reflexivity|].
  pose proof (std_lt a b loc scale Hs Hab) as L. pose proof (ccdf_incr _ _ L) as C.
  assert (B : 0 <= tc_cdf ((x - loc) / scale) ((a - loc) / scale) ((b - loc) / scale) <= 1).
  { unfold tc_cdf.
    assert (M1 : cauchy_cdf ((a - loc) / scale) <= cauchy_cdf ((x - loc) / scale)).
    { destruct (Req_dec a x); [subst; lra|]. left; apply ccdf_incr, std_lt; lra. }
    assert (M2 : cauchy_cdf ((x - loc) / scale) <= cauchy_cdf ((b - loc) / scale)).
    { destruct (Req_dec x b); [subst; lra|]. left; apply ccdf_incr, std_lt; lra. }
    split.
    - apply Rmult_le_pos; [lra|]. apply Rlt_le, Rinv_0_lt_compat; lra.
    - apply Rmult_le_reg_r with (cauchy_cdf ((b - loc) / scale) - cauchy_cdf ((a - loc) / scale)); [lra|].
      unfold Rdiv. rewrite Rmult_assoc, Rinv_l by lra. lra. }
  split; auto. rewrite tc_ppf_value by auto. f_equal. rewrite tc_ppf_cdf by auto. apply std_inv; auto.
Qed.

Lemma ccdf_deriv : forall x, derivable_pt_lim cauchy_cdf x (cauchy_pdf x).
Proof.
  intros x. pose proof PI_RGT_0 as P. pose proof (derivable_pt_lim_atan x) as D.
  intros eps He. destruct (derivable_pt_lim_scal atan (/ PI) x _ D eps He) as [del Hd]. exists del. intros h Hh Hb.
  specialize (Hd h Hh Hb). eapply Rle_lt_trans; [|exact Hd]. right. f_equal. unfold cauchy_cdf, cauchy_pdf, mult_real_fct, Rsqr.
  assert (0 < 1 + x ^ 2) by nra. field. repeat split; nra.
Qed.

Lemma trunccauchy_deriv : forall a b loc scale x, 0 < scale -> a < x -> x < b ->
  exists (F : R -> R) f, trunccauchy_pdf a b loc scale x = Ok f /\ 0 < f /\ derivable_pt_lim F x f /\
    forall y, a <= y <= b -> trunccauchy_cdf a b loc scale y = Ok (F y).
Proof.
  intros a b loc scale x Hs Ha Hb.
  set (a' := (a - loc) / scale). set (b' := (b - loc) / scale). set (x' := (x - loc) / scale).
  pose proof (std_lt a b loc scale Hs ltac:(lra)) as L. fold a' b' in L. pose proof (ccdf_incr _ _ L) as C.
  exists (fun y => tc_cdf ((y - loc) / scale) a' b'), (tc_pdf x' a' b' / scale). repeat split.
  - unfold trunccauchy_pdf. rewrite tc_ok by lra. cbn [negb]. fold a' b' x'.
    pose proof (std_lt a x loc scale Hs Ha). pose proof (std_lt x b loc scale Hs Hb). fold a' b' x' in H, H0.
    rewrite (proj2 (Rltb_false x' a')), (proj2 (Rltb_false b' x')) by lra. reflexivity.
  - apply Rdiv_lt_0_compat; auto. unfold tc_pdf, cauchy_pdf. pose proof PI_RGT_0. apply Rdiv_lt_0_compat; [|lra].
    apply Rdiv_lt_0_compat; [lra|]. apply Rmult_lt_0_compat; nra.
  - assert (D : derivable_pt_lim (fun y => cauchy_cdf ((y - loc) / scale)) x (cauchy_pdf x' * / scale)).
    { apply (derivable_pt_lim_comp (fun y => (y - loc) / scale) cauchy_cdf x (/ scale) (cauchy_pdf x')).
      - intros eps He. exists (mkposreal 1 Rlt_0_1). intros h Hh _.
        replace (((x + h - loc) / scale - (x - loc) / scale) / h - / scale) with 0 by (field; lra). rewrite Rabs_R0; auto.
      - apply ccdf_deriv. }
    intros eps He. destruct (derivable_pt_lim_scal _ (/ (cauchy_cdf b' - cauchy_cdf a')) x _ D eps He) as [del Hd].
    exists del. intros h Hh Hb'. specialize (Hd h Hh Hb'). eapply Rle_lt_trans; [|exact Hd]. right. f_equal.
    unfold tc_cdf, tc_pdf, mult_real_fct. field. repeat split; lra.
  - intros y Hy. apply tc_cdf_value; lra.
Qed.
