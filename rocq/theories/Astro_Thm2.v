(** Property C101, continued: from the sky to positions and back. *)
Require Import Reals Lra Lia ZArith Bool.
From Verif Require Import Base Vec3 Isometry_Proof Sky_Model Sky_Spec Sky_Proof Round_Model Round_Spec Drift_Spec Drift_Proof Drift_Thm Astro_Model Astro_Spec Astro_Proof Astro_Proof2 Astro_Proof3 Astro_Proof4 Astro_Thm.
Open Scope R_scope.

Section Precise.
Variables (u d : R) (rnd : R -> R) (fcos fsin farcsin : R -> R) (farctan2 : R -> R -> R).
Hypothesis U : 0 <= u <= 1 / 1000.
Hypothesis Dd : 0 <= d <= 1 / 1000.
Hypothesis A : accurate u rnd.
Hypothesis Lb : library d fcos fsin farcsin farctan2.

(** The position computed for sky coordinates, converted back. Distances come back within a few roundings; declinations within the square root of a few roundings, or a few roundings over the cosine of the
    declination; right ascensions (up to whole turns) within a few roundings over the cosine of the declination, when this cosine is not of the size of the errors. *)
Theorem C101_sky_and_back_partial : forall degree dist ra dec dist' ra' dec', 0 < dist -> Rabs ra <= full_turn degree -> - (full_turn degree / 4) <= dec <= full_turn degree / 4 ->
  fl_cartesian_to_sky rnd farcsin farctan2 degree (fl_sky_to_cartesian rnd fcos fsin degree dist ra dec) = Ok (dist', ra', dec') ->
  let e := 3 * d + 80 * u in let c := cos (dec * conversion degree) in
  Rabs (dist' - dist) <= (6 * d + 170 * u) * dist /\
  Rabs (dec' - dec) <= in_units degree (d + 12 * u + sqrt (48 * u) + sqrt (32 * e)) /\
  (10 * e <= c -> 0 < c -> Rabs (dec' - dec) <= in_units degree ((50 * d + 1400 * u) / c) /\ same_within degree (in_units degree ((30 * d + 800 * u) / c)) ra' ra).
Proof.
  intros degree dist ra dec dist' ra' dec' P HR HT E e c. set (p := fl_sky_to_cartesian rnd fcos fsin degree dist ra dec) in *. pose proof (c2s_nonzero u rnd _ _ _ _ _ ltac:(lra) A E) as N.
  pose proof (conversion_pos degree) as Cv. pose proof (full_conversion degree) as Fc. pose proof PI_above3 as P3. pose proof PI_below as P4.
  assert (Ft : 0 < full_turn degree) by (apply Rmult_lt_reg_r with (conversion degree); lra).
  assert (C : coords_within (dist * e) p (sky_to_cartesian degree None (NFloat dist) (NFloat ra) (NFloat dec))).
  { rewrite <- (Rabs_right dist) at 1 by lra. apply (C101_positions u d rnd fcos fsin farcsin farctan2 U Dd A Lb); [exact HR|apply Rabs_le; lra]. }
  assert (E1 : 0 <= e <= 1 / 10) by (unfold e; lra). assert (E0 : 0 <= dist * e) by (apply Rmult_le_pos; lra).
  destruct (c2s_ok degree p N) as (d0 & r0 & t0 & Ex). destruct (c2s_angles _ _ _ _ _ Ex) as (Ed & Pn & Er & Et).
  destruct (ra_near u d rnd fcos fsin farcsin farctan2 U Dd A Lb degree p _ _ _ _ _ _ E Ex) as ((k & Kr) & _). destruct (dec_near u d rnd fcos fsin farcsin farctan2 U Dd A Lb degree p _ _ _ _ _ _ N E Ex) as (K1 & K2 & _).
  pose proof (near_norm_le _ _ _ E0 C) as Nn. rewrite s2c_norm in Nn by lra.
  destruct (dec_moved degree dist ra dec e p P E1 HT C N) as (M1 & M2). rewrite <- Et in M1, M2. fold c in M2.
  split; [|split].
  - assert (D : Rabs (dist' - vnorm p) <= 4 * u * vnorm p).
    { pose proof (dist_rel u rnd U A p) as D. unfold rel in D. rewrite (Rabs_right (vnorm p)) in D by lra. unfold fl_cartesian_to_sky in E. destruct (fl_sine rnd p); [|discriminate]. destruct (Rle_dec _ _); [|discriminate]. injection E as <- _ _. exact D. }
    apply abs_split in D. apply abs_split in Nn. assert (vnorm p <= 1.2 * dist) by nra. assert (u * vnorm p <= u * (1.2 * dist)) by (apply Rmult_le_compat_l; lra). assert (0 <= u * dist) by (apply Rmult_le_pos; lra). unfold e in *. apply Rabs_le. lra.
  - apply below_units. apply abs_split in K1. apply abs_split in M1. apply Rabs_le. lra.
  - intros Hc C0. set (i := / c). assert (Ci : c * i = 1) by (unfold i; field; lra). assert (I1 : 1 <= i).
    { unfold i. rewrite <- Rinv_1. apply Rinv_le_contravar; [exact C0|]. unfold c. apply COS_bound. }
    assert (Ui : u <= u * i) by (rewrite <- (Rmult_1_r u) at 1; apply Rmult_le_compat_l; lra). assert (Di : d <= d * i) by (rewrite <- (Rmult_1_r d) at 1; apply Rmult_le_compat_l; lra).
    split.
    + apply below_units. assert (O : 0 < off_axis p /\ vnorm p / off_axis p <= 2 * i).
      { destruct C as (X & Y & _). unfold sky_to_cartesian, result_type3, store_as, vscale in X, Y. cbn [num_dtype num_val vx vy vz] in X, Y. fold c in X, Y. set (r := ra * conversion degree) in *.
        assert (Al : dist * c * (4 / 5) <= off_axis p).
        { assert (M : forall v w, Rabs v <= dist * e -> -1 <= w <= 1 -> - (dist * e) <= v * w <= dist * e) by (intros v w V W; apply abs_split; rewrite Rabs_mult; pose proof (Rabs_pos v); assert (Rabs w <= 1) by (apply Rabs_le; lra); pose proof (Rabs_pos w); nra).
          pose proof (M _ _ X (COS_bound r)) as M3. pose proof (M _ _ Y (SIN_bound r)) as M4. pose proof (sin2_cos2 r) as Sq. unfold Rsqr in Sq.
          assert (Along : vx p * cos r + vy p * sin r = (vx p - dist * (c * cos r)) * cos r + (vy p - dist * (c * sin r)) * sin r + dist * c) by (replace (dist * c) with (dist * c * (sin r * sin r + cos r * cos r)) by (rewrite Sq; ring); ring).
          assert (H : dist * (10 * e) <= dist * c) by (apply Rmult_le_compat_l; lra). apply Rle_trans with (vx p * cos r + vy p * sin r); [lra|].
          assert (S0 : 0 <= vx p * cos r + vy p * sin r) by (assert (0 < dist * c) by (apply Rmult_lt_0_compat; lra); lra). unfold off_axis. rewrite <- (sqrt_square (vx p * cos r + vy p * sin r)) by exact S0. apply sqrt_le_1_alt.
          assert (I : (vx p * cos r + vy p * sin r) * (vx p * cos r + vy p * sin r) + (vx p * sin r - vy p * cos r) * (vx p * sin r - vy p * cos r) = (vx p * vx p + vy p * vy p) * (sin r * sin r + cos r * cos r)) by ring.
          rewrite Sq, Rmult_1_r in I. pose proof (Rle_0_sqr (vx p * sin r - vy p * cos r)) as Q0. unfold Rsqr in Q0. lra. }
        assert (Po : 0 < off_axis p) by (assert (0 < dist * c) by (apply Rmult_lt_0_compat; lra); lra). split; [exact Po|]. apply Rmult_le_reg_r with (off_axis p); [exact Po|]. unfold Rdiv. rewrite Rmult_assoc, Rinv_l, Rmult_1_r by lra.
        apply abs_split in Nn. assert (vnorm p <= 1.2 * dist) by nra. assert (2 * i * (dist * c * (4 / 5)) <= 2 * i * off_axis p) by (apply Rmult_le_compat_l; lra). assert (I2 : 2 * i * (dist * c * (4 / 5)) = 8 / 5 * dist * (c * i)) by field. rewrite Ci in I2. lra. }
      destruct O as (Po & Oi). specialize (K2 Po). assert (M3 : Rabs (t0 * conversion degree - dec * conversion degree) <= 16 * e * i).
      { apply Rmult_le_reg_l with c; [exact C0|]. replace (c * (16 * e * i)) with (16 * e * (c * i)) by ring. rewrite Ci. lra. }
      assert (24 * u * (vnorm p / off_axis p) <= 24 * u * (2 * i)) by (apply Rmult_le_compat_l; lra). apply abs_split in K2. apply abs_split in M3. unfold Rdiv. fold i. unfold e in *. apply Rabs_le. lra.
    + destruct (ra_moved degree dist ra dec e p P ltac:(lra) ltac:(fold c; lra) C0 C) as (j & J). fold c in J. unfold Rdiv in J. fold i in J.
      destruct (Rmod_congr (arctan2 (vy p) (vx p)) (2 * PI) ltac:(lra)) as (l & L). rewrite <- Er in L. exists (k - l + j)%Z. apply below_units. rewrite plus_IZR, minus_IZR.
      replace ((ra' - ra - (IZR k - IZR l + IZR j) * full_turn degree) * conversion degree) with ((ra' - r0 - IZR k * full_turn degree) * conversion degree + ((r0 * conversion degree + IZR l * (full_turn degree * conversion degree)) - ra * conversion degree - IZR j * (full_turn degree * conversion degree))) by ring.
      rewrite Fc, <- L. apply abs_split in Kr. apply abs_split in J. unfold Rdiv. fold i. unfold e in *. apply Rabs_le. lra.
Qed.
Print Assumptions C101_sky_and_back_partial.
End Precise.

(** For every rounding of relative accuracy u, positions that are not within a few roundings of the polar axis have sky coordinates. *)
Theorem C101_defined_away : forall u rnd farcsin farctan2 degree p, 0 <= u <= 1 / 1000 -> accurate u rnd -> p <> vzero -> Rabs (vz p) <= (1 - 6 * u) * vnorm p ->
  exists dist ra dec, fl_cartesian_to_sky rnd farcsin farctan2 degree p = Ok (dist, ra, dec).
Proof.
  intros u rnd farcsin farctan2 degree p U A N Z. destruct (sine_near u rnd U A p N) as (s & E & S). pose proof (vnorm_pos p N) as P. unfold fl_cartesian_to_sky. rewrite E.
  destruct (Rle_dec (Rabs s) 1) as [_|K]; [eauto|]. exfalso. apply K. pose proof (Rabs_triang (s - vz p / vnorm p) (vz p / vnorm p)) as T. replace (s - vz p / vnorm p + vz p / vnorm p) with s in T by ring.
  assert (Q : Rabs (vz p / vnorm p) <= 1 - 6 * u). { unfold Rdiv. rewrite Rabs_mult, (Rabs_right (/ vnorm p)) by (apply Rle_ge, Rlt_le, Rinv_0_lt_compat; exact P). apply Rmult_le_reg_r with (vnorm p); [exact P|]. rewrite Rmult_assoc, Rinv_l by lra. lra. }
  lra.
Qed.
Print Assumptions C101_defined_away.

(** Distance 1000, right ascension 40 and declination 30 degrees, in double precision without underflow: the hypotheses of the theorems hold. *)
Example C101_case2 : exists dist' ra' dec', accurate unit_roundoff double_free /\ library 0 cos sin asin arctan2 /\ 0 <= unit_roundoff <= 1 / 1000 /\
  fl_cartesian_to_sky double_free asin arctan2 true (fl_sky_to_cartesian double_free cos sin true 1000 40 30) = Ok (dist', ra', dec') /\ 10 * (3 * 0 + 80 * unit_roundoff) <= cos (30 * conversion true) /\ 0 < cos (30 * conversion true).
Proof.
  destruct C101_case as (_ & _ & _ & A & L & U & _). assert (U' : unit_roundoff <= / 1000000) by (unfold unit_roundoff; apply Rinv_le_contravar; cbn; lra).
  assert (T : 30 * conversion true = PI / 6) by (unfold conversion; field).
  destruct (C101_positions unit_roundoff 0 double_free cos sin asin arctan2 U ltac:(lra) A L true 1000 40 30) as (X & Y & Z); [cbn; rewrite Rabs_right; lra|cbn; rewrite Rabs_right; lra|].
  set (p := fl_sky_to_cartesian double_free cos sin true 1000 40 30) in *. rewrite (Rabs_right 1000) in X, Y, Z by lra. 
  assert (C : coords_within (1000 * (80 * unit_roundoff)) p (sky_to_cartesian true None (NFloat 1000) (NFloat 40) (NFloat 30))) by (replace (80 * unit_roundoff) with (3 * 0 + 80 * unit_roundoff) by ring; repeat split; assumption).
  pose proof (near_norm_le (1000 * (80 * unit_roundoff)) _ _ ltac:(lra) C) as N. rewrite s2c_norm in N by lra. apply abs_split in N. destruct C as (_ & _ & Cz).
  change (vz (sky_to_cartesian true None (NFloat 1000) (NFloat 40) (NFloat 30))) with (1000 * sin (30 * conversion true)) in Cz. rewrite T, sin_PI6 in Cz. apply abs_split in Cz.
  destruct (C101_defined_away unit_roundoff double_free asin arctan2 true p U A) as (a & b & c & E).
  - intros Q. rewrite Q, vnorm_vzero in N. lra.
  - assert (6 * unit_roundoff * vnorm p <= 6 * / 1000000 * 1100) by (apply Rmult_le_compat; try lra). apply Rabs_le. lra.
  - exists a, b, c. split; [exact A|]. split; [exact L|]. split; [exact U|]. split; [exact E|]. rewrite T, cos_PI6. assert (Q : 1 <= sqrt 3) by (rewrite <- sqrt_1 at 1; apply sqrt_le_1_alt; lra). split; lra.
Qed.
