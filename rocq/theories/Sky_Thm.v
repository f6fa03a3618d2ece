(** Theorems C07-C11: sky coordinates, angles, areas, projections, truncated Cauchy law. *)
Require Import Reals Lra Lia ZArith List Bool.
From Verif Require Import Base Vec3 Isometry_Model Isometry_Spec Isometry_Proof Sky_Model Sky_Spec Sky_Proof.
Import ListNotations.
Open Scope R_scope.

(** C07. Every non-zero position has a distance, an RA in [0, turn) and a Dec in [-quarter, quarter], and they give it back. *)
Lemma c07a : forall degree p, p <> vzero ->
  exists d ra dec, cartesian_to_sky degree p = Ok (d, ra, dec) /\
    d = dist3 p vzero /\ 0 <= ra < full_turn degree /\ - (full_turn degree / 4) <= dec <= full_turn degree / 4 /\
    sky_to_cartesian degree None (NFloat d) (NFloat ra) (NFloat dec) = p.
Proof.
  intros deg p H. destruct (c2s_ok deg p H) as (d & ra & dec & E). exists d, ra, dec. split; auto.
  destruct (c2s_ranges _ _ _ _ _ H E). destruct (c2s_angles _ _ _ _ _ E) as [-> _].
  split. rewrite dist3_vnorm, vsub_0_r; auto. change (full_turn deg) with (turn deg).
  split; auto. split; auto. apply sky_roundtrip1; auto.
Qed.
Theorem C07_cartesian_sky_cartesian : forall degree p, p <> vzero ->
  exists d ra dec, cartesian_to_sky degree p = Ok (d, ra, dec) /\
    d = dist3 p vzero /\ 0 <= ra < full_turn degree /\ - (full_turn degree / 4) <= dec <= full_turn degree / 4 /\
    sky_to_cartesian degree None (NFloat d) (NFloat ra) (NFloat dec) = p.
Proof. exact c07a. Qed.
Print Assumptions C07_cartesian_sky_cartesian.
Example C07_case : V 1 (-2) 3 <> vzero.
Proof. unfold vzero; intros E; injection E; intros; lra. Qed.

Theorem C07_sky_cartesian_sky : forall degree d ra dec,
  0 < d -> 0 <= ra < full_turn degree -> - (full_turn degree / 4) < dec < full_turn degree / 4 ->
  cartesian_to_sky degree (sky_to_cartesian degree None (NFloat d) (NFloat ra) (NFloat dec)) = Ok (d, ra, dec).
Proof. exact sky_roundtrip2. Qed.
Print Assumptions C07_sky_cartesian_sky.
Example C07_case2 : 0 < 1000 /\ 0 <= 300 < full_turn true /\ - (full_turn true / 4) < -10 < full_turn true / 4.
Proof. unfold full_turn; lra. Qed.

(** With integer arguments the coordinates are stored in an integer array: (1000, 60 deg, 0 deg) becomes the origin. *)
Lemma c07_int : exists d ra dec : Z, (0 < d)%Z /\ 0 <= IZR ra < 360 /\ -90 < IZR dec < 90 /\
  sky_to_cartesian true None (NInt d) (NInt ra) (NInt dec) = vzero.
Proof. exists 1000%Z, 60%Z, 0%Z. split; [lia|]. split; [lra|]. split; [lra|]. exact sky_int_zero. Qed.
Theorem C07_integer_arguments_refuted : exists d ra dec : Z, (0 < d)%Z /\ 0 <= IZR ra < 360 /\ -90 < IZR dec < 90 /\
  sky_to_cartesian true None (NInt d) (NInt ra) (NInt dec) = vzero.
Proof. exact c07_int. Qed.
Print Assumptions C07_integer_arguments_refuted.

(** C08. *)
Theorem C08_wrap_angle : forall degree a,
  0 <= wrap_angle degree a < full_turn degree /\ same_angle degree (wrap_angle degree a) a.
Proof. intros. exact (conj (wrap_range degree a) (wrap_congr degree a)). Qed.
Print Assumptions C08_wrap_angle.

(** Same result exactly for angles that differ by whole turns; wrapping twice is wrapping once. *)
Lemma wrap_iff : forall degree a b, same_angle degree a b <-> wrap_angle degree a = wrap_angle degree b.
Proof.
  intros deg a b. split.
  - intros [k ->]. apply wrap_shift.
  - intros E. destruct (wrap_congr deg a) as [k Ha]. destruct (wrap_congr deg b) as [l Hb]. exists (l - k)%Z.
    rewrite minus_IZR. change (full_turn deg) with (turn deg). rewrite Ha, Hb in E. lra.
Qed.
Theorem C08_wrap_decides_direction : forall degree a b, same_angle degree a b <-> wrap_angle degree a = wrap_angle degree b.
Proof. exact wrap_iff. Qed.
Print Assumptions C08_wrap_decides_direction.
Theorem C08_wrap_idempotent : forall degree a, wrap_angle degree (wrap_angle degree a) = wrap_angle degree a.
Proof. exact wrap_idem. Qed.
Print Assumptions C08_wrap_idempotent.

(** C09. The area has the area element cos(dec) d(ra) d(dec) (its derivative in the upper declination), vanishes on empty
    ranges, is additive, non-negative on ordered ranges, and gives 4 pi steradian for the sphere. *)
Theorem C09_area_element : forall lo hi dlo h,
  derivable_pt_lim (fun x => radecbox_area (lo, hi) (dlo, x)) h ((hi - lo) * cos (h * (PI / 180))) /\
  radecbox_area (lo, hi) (dlo, dlo) = 0.
Proof. intros. refine (conj (area_deriv lo hi dlo h) _). unfold radecbox_area; cbn. ring. Qed.
Print Assumptions C09_area_element.
Theorem C09_area_additive : forall lo m hi dlo n dhi,
  radecbox_area (lo, hi) (dlo, dhi) = radecbox_area (lo, m) (dlo, dhi) + radecbox_area (m, hi) (dlo, dhi) /\
  radecbox_area (lo, hi) (dlo, dhi) = radecbox_area (lo, hi) (dlo, n) + radecbox_area (lo, hi) (n, dhi).
Proof. intros. exact (conj (area_split_ra lo m hi (dlo, dhi)) (area_split_dec (lo, hi) dlo n dhi)). Qed.
Print Assumptions C09_area_additive.
Theorem C09_area_nonnegative_partial : forall lo hi dlo dhi, lo <= hi -> -90 <= dlo -> dlo <= dhi -> dhi <= 90 ->
  0 <= radecbox_area (lo, hi) (dlo, dhi).
Proof. exact area_nonneg. Qed.
Print Assumptions C09_area_nonnegative_partial.
Example C09_case : 10 <= 300 /\ -90 <= -20 /\ -20 <= 50 /\ 50 <= 90. Proof. lra. Qed.
Theorem C09_area_full_sky : radecbox_area (0, 360) (-90, 90) = 4 * PI * (180 / PI) ^ 2.
Proof. exact area_full. Qed.
Print Assumptions C09_area_full_sky.
(** A range that crosses RA = 360, accepted everywhere else in the package, gets a negative area. *)
Theorem C09_crossing_range_refuted : exists lo hi, 0 <= lo < 360 /\ 0 <= hi < 360 /\ radecbox_area (lo, hi) (-10, 10) < 0.
Proof. exists 300, 40. refine (conj _ (conj _ area_crossing_negative)); lra. Qed.
Print Assumptions C09_crossing_range_refuted.

(** C10. One direction for all vectors, or one direction per vector. *)
Lemma c10_rows : forall vs d, d <> vzero -> exists ps, vector_projection vs [d] = Ok ps /\ length ps = length vs /\
  forall i v p, nth_error vs i = Some v -> nth_error ps i = Some p -> is_projection v d p.
Proof.
  intros vs d H. unfold vector_projection.
  destruct (map2_result_ok vector_projection1 vs (repeat d (length vs))) as [ps E].
  - rewrite repeat_length; auto.
  - intros a b _ Hb. apply repeat_spec in Hb. subst. destruct (vp1_props a d H) as (p & E & _); eauto.
  - exists ps. destruct (map2_result_spec _ _ _ _ E) as (L1 & L2 & S). split; auto. split; auto.
    intros i v p Hv Hp. assert (D : nth_error (repeat d (length vs)) i = Some d).
    { apply nth_error_repeat. apply nth_error_Some. congruence. }
    specialize (S i v d p Hv D Hp). destruct (vp1_props v d H) as (p' & E' & (k & Hk) & O & _).
    replace p with p' by congruence. split; [exists k; rewrite Hk; reflexivity|].
    exact O.
Qed.
Theorem C10_projection_one_direction : forall vs d, d <> vzero ->
  exists ps, vector_projection vs [d] = Ok ps /\ length ps = length vs /\
    forall i v p, nth_error vs i = Some v -> nth_error ps i = Some p -> is_projection v d p.
Proof. exact c10_rows. Qed.
Print Assumptions C10_projection_one_direction.

Lemma c10_rows2 : forall vs ds, length vs = length ds -> (forall d, In d ds -> d <> vzero) ->
  exists ps, vector_projection vs ds = Ok ps /\ length ps = length vs /\
    forall i v d p, nth_error vs i = Some v -> nth_error ds i = Some d -> nth_error ps i = Some p -> is_projection v d p.
Proof.
  intros vs ds L H.
  assert (Q : vector_projection vs ds = map2_result vector_projection1 vs ds).
  { unfold vector_projection. destruct ds as [|d [|d' ds]]; destruct vs as [|v [|v' vs]]; cbn in L; try discriminate; reflexivity. }
  rewrite Q. destruct (map2_result_ok vector_projection1 vs ds L) as [ps E].
  - intros a b _ Hb. destruct (vp1_props a b (H b Hb)) as (p & E & _); eauto.
  - exists ps. destruct (map2_result_spec _ _ _ _ E) as (L1 & L2 & S). split; auto. split; auto.
    intros i v d p Hv Hd Hp. specialize (S i v d p Hv Hd Hp).
    destruct (vp1_props v d (H d (nth_error_In _ _ Hd))) as (p' & E' & (k & Hk) & O & _).
    replace p with p' by congruence. split; [exists k; rewrite Hk; reflexivity|]. exact O.
Qed.
Theorem C10_projection_own_directions : forall vs ds, length vs = length ds -> (forall d, In d ds -> d <> vzero) ->
  exists ps, vector_projection vs ds = Ok ps /\ length ps = length vs /\
    forall i v d p, nth_error vs i = Some v -> nth_error ds i = Some d -> nth_error ps i = Some p -> is_projection v d p.
Proof. exact c10_rows2. Qed.
Print Assumptions C10_projection_own_directions.
Example C10_case : length [V 1 2 3; V 0 0 0] = length [V 0 0 2; V 1 1 0] /\ (forall d, In d [V 0 0 2; V 1 1 0] -> d <> vzero).
Proof. split; auto. intros d [<-|[<-|[]]] E; unfold vzero in E; injection E; intros; lra. Qed.

(** The direction only matters up to a non-zero factor; projecting twice is projecting once; the projection is unique. *)
Theorem C10_projection_direction_only : forall v d k, d <> vzero -> k <> 0 ->
  vector_projection [v] [vscale k d] = vector_projection [v] [d].
Proof. intros v d k H K. unfold vector_projection; cbn. rewrite (vp1_scale v d k H K). exact eq_refl. Qed.
Print Assumptions C10_projection_direction_only.
Lemma c10_idem : forall v d ps, d <> vzero -> vector_projection [v] [d] = Ok ps -> vector_projection ps [d] = Ok ps.
Proof.
  intros v d ps H E. unfold vector_projection in E. cbn in E. destruct (vp1_props v d H) as (p & E' & _ & _ & I).
  rewrite E' in E. cbn in E. injection E as <-. unfold vector_projection; cbn. rewrite I. reflexivity.
Qed.
Theorem C10_projection_idempotent : forall v d ps, d <> vzero ->
  vector_projection [v] [d] = Ok ps -> vector_projection ps [d] = Ok ps.
Proof. exact c10_idem. Qed.
Print Assumptions C10_projection_idempotent.

(** C11. *)
Theorem C11_cdf_edges : forall a b loc scale, 0 < scale -> a < b ->
  trunccauchy_cdf a b loc scale a = Ok 0 /\ trunccauchy_cdf a b loc scale b = Ok 1.
Proof. exact trunccauchy_edges. Qed.
Print Assumptions C11_cdf_edges.
Theorem C11_cdf_increasing : forall a b loc scale x y, 0 < scale -> a <= x -> x < y -> y <= b ->
  exists u v, trunccauchy_cdf a b loc scale x = Ok u /\ trunccauchy_cdf a b loc scale y = Ok v /\ u < v.
Proof. exact trunccauchy_incr. Qed.
Print Assumptions C11_cdf_increasing.
Theorem C11_ppf_in_support_and_inverse : forall a b loc scale q, 0 < scale -> a < b -> 0 <= q <= 1 ->
  exists x, trunccauchy_ppf a b loc scale q = Ok x /\ a <= x <= b /\ trunccauchy_cdf a b loc scale x = Ok q.
Proof. exact trunccauchy_inverse1. Qed.
Print Assumptions C11_ppf_in_support_and_inverse.
Theorem C11_cdf_then_ppf : forall a b loc scale x, 0 < scale -> a < b -> a <= x <= b ->
  exists q, trunccauchy_cdf a b loc scale x = Ok q /\ 0 <= q <= 1 /\ trunccauchy_ppf a b loc scale q = Ok x.
Proof. exact trunccauchy_inverse2. Qed.
Print Assumptions C11_cdf_then_ppf.
(** The density is positive and is the derivative of the cdf. *)
Theorem C11_pdf_is_derivative : forall a b loc scale x, 0 < scale -> a < x -> x < b ->
  exists (F : R -> R) f, trunccauchy_pdf a b loc scale x = Ok f /\ 0 < f /\ derivable_pt_lim F x f /\
    forall y, a <= y <= b -> trunccauchy_cdf a b loc scale y = Ok (F y).
Proof. exact trunccauchy_deriv. Qed.
Print Assumptions C11_pdf_is_derivative.
Example C11_case : 0 < 0.8 /\ -0.6 < 0 /\ 0 < 1.1. Proof. lra. Qed.

(** C10, continued: the projection is linear in the projected vector. *)
Lemma c10_linear : forall u v d a b p q, vector_projection [u] [d] = Ok [p] -> vector_projection [v] [d] = Ok [q] ->
  vector_projection [vadd (vscale a u) (vscale b v)] [d] = Ok [vadd (vscale a p) (vscale b q)].
Proof.
  intros u v d a b p q. unfold vector_projection; cbn.
  destruct (vector_projection1 u d) eqn:E1; cbn; [|discriminate]. destruct (vector_projection1 v d) eqn:E2; cbn; [|discriminate].
  intros X Y. injection X as ->. injection Y as ->. rewrite (vp1_linear _ _ _ a b _ _ E1 E2). reflexivity.
Qed.
Theorem C10_projection_linear : forall u v d a b p q, vector_projection [u] [d] = Ok [p] -> vector_projection [v] [d] = Ok [q] ->
  vector_projection [vadd (vscale a u) (vscale b v)] [d] = Ok [vadd (vscale a p) (vscale b q)].
Proof. exact c10_linear. Qed.
Print Assumptions C10_projection_linear.
