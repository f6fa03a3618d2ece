(** Property C101: precision of sky coordinates. *)
Require Import Reals Lra Lia ZArith Bool.
From Flocq Require Import Core.
From Verif Require Import Base Vec3 Isometry_Proof Sky_Model Sky_Spec Sky_Proof Round_Model Round_Spec Round_Thm Round_Thm2 Drift_Spec Drift_Proof Drift_Thm Astro_Model Astro_Spec Astro_Proof Astro_Proof2 Astro_Proof3.
Open Scope R_scope.

Lemma c2s_nonzero : forall u rnd farcsin farctan2 degree p x, 0 <= u -> accurate u rnd -> fl_cartesian_to_sky rnd farcsin farctan2 degree p = Ok x -> p <> vzero.
Proof.
  intros u rnd farcsin farctan2 degree p x U A E ->. unfold fl_cartesian_to_sky, fl_sine in E. pose proof (rnd_zero u rnd A) as Z.
  assert (D : fl_distance rnd vzero = 0) by (unfold fl_distance, vzero; cbn [vx vy vz]; rewrite !Rmult_0_r, !Z, !Rplus_0_r, !Z, sqrt_0, Z; reflexivity).
  rewrite D in E. destruct (Req_EM_T 0 0); [discriminate|lra].
Qed.

Section Precise.
Variables (u d : R) (rnd : R -> R) (fcos fsin farcsin : R -> R) (farctan2 : R -> R -> R).
(** Roundings of relative accuracy u, a library of accuracy d. *)
Hypothesis U : 0 <= u <= 1 / 1000.
Hypothesis Dd : 0 <= d <= 1 / 1000.
Hypothesis A : accurate u rnd.
Hypothesis Lb : library d fcos fsin farcsin farctan2.

(** Distances, right ascensions up to whole turns: a few roundings. *)
Theorem C101_distance_right_ascension : forall degree p dist ra dec, fl_cartesian_to_sky rnd farcsin farctan2 degree p = Ok (dist, ra, dec) ->
  exists dist0 ra0 dec0, cartesian_to_sky degree p = Ok (dist0, ra0, dec0) /\ Rabs (dist - dist0) <= 4 * u * dist0 /\ same_within degree (in_units degree (4 * d + 80 * u)) ra ra0.
Proof.
  intros degree p dist ra dec E. pose proof (c2s_nonzero u rnd _ _ _ _ _ ltac:(lra) A E) as N. destruct (c2s_ok degree p N) as (d0 & r0 & t0 & E0). exists d0, r0, t0. split; [exact E0|].
  destruct (ra_near u d rnd fcos fsin farcsin farctan2 U Dd A Lb degree p _ _ _ _ _ _ E E0) as ((k & K) & _). split.
  - destruct (c2s_angles _ _ _ _ _ E0) as (-> & P & _). pose proof (dist_rel u rnd U A p) as D. unfold rel in D. rewrite (Rabs_right (vnorm p)) in D by lra.
    unfold fl_cartesian_to_sky in E. destruct (fl_sine rnd p); [|discriminate]. destruct (Rle_dec _ _); [|discriminate]. injection E as <- _ _. exact D.
  - exists k. apply below_units. exact K.
Qed.
Print Assumptions C101_distance_right_ascension.

(** Declinations: the square root of a few roundings everywhere. *)
Theorem C101_declination : forall degree p dist ra dec, fl_cartesian_to_sky rnd farcsin farctan2 degree p = Ok (dist, ra, dec) ->
  exists dist0 ra0 dec0, cartesian_to_sky degree p = Ok (dist0, ra0, dec0) /\ Rabs (dec - dec0) <= in_units degree (d + 12 * u + sqrt (48 * u)).
Proof.
  intros degree p dist ra dec E. pose proof (c2s_nonzero u rnd _ _ _ _ _ ltac:(lra) A E) as N. destruct (c2s_ok degree p N) as (d0 & r0 & t0 & E0). exists d0, r0, t0. split; [exact E0|].
  destruct (dec_near u d rnd fcos fsin farcsin farctan2 U Dd A Lb degree p _ _ _ _ _ _ N E E0) as (K & _). apply below_units. exact K.
Qed.
Print Assumptions C101_declination.
(** A few roundings, over the cosine of the declination, away from the poles. Partial: the full claim has no such factor, and is refuted below. *)
Theorem C101_declination_partial : forall degree p dist ra dec, fl_cartesian_to_sky rnd farcsin farctan2 degree p = Ok (dist, ra, dec) -> 0 < off_axis p ->
  exists dist0 ra0 dec0, cartesian_to_sky degree p = Ok (dist0, ra0, dec0) /\ Rabs (dec - dec0) <= in_units degree (d + 12 * u + 24 * u * (dist0 / off_axis p)).
Proof.
  intros degree p dist ra dec E O. pose proof (c2s_nonzero u rnd _ _ _ _ _ ltac:(lra) A E) as N. destruct (c2s_ok degree p N) as (d0 & r0 & t0 & E0). exists d0, r0, t0. split; [exact E0|].
  destruct (dec_near u d rnd fcos fsin farcsin farctan2 U Dd A Lb degree p _ _ _ _ _ _ N E E0) as (_ & K & _). apply below_units. destruct (c2s_angles _ _ _ _ _ E0) as (-> & _). exact (K O).
Qed.
Print Assumptions C101_declination_partial.

(** Positions of given sky coordinates: a few roundings times the distance. *)
Theorem C101_positions : forall degree dist ra dec, Rabs ra <= full_turn degree -> Rabs dec <= full_turn degree ->
  coords_within (Rabs dist * (3 * d + 80 * u)) (fl_sky_to_cartesian rnd fcos fsin degree dist ra dec) (sky_to_cartesian degree None (NFloat dist) (NFloat ra) (NFloat dec)).
Proof.
  intros degree dist ra dec Ra De. pose proof PI_below. pose proof (conversion_pos degree) as C. pose proof (full_conversion degree) as F.
  apply (s2c_near u d rnd fcos fsin farcsin farctan2 U Dd A Lb); rewrite Rabs_mult, (Rabs_right (conversion degree)) by lra; (apply Rle_trans with (full_turn degree * conversion degree); [apply Rmult_le_compat_r; lra|lra]).
Qed.
Print Assumptions C101_positions.

(** To the sky and back. *)
Lemma there_and_back : forall degree p dist ra dec eT, fl_cartesian_to_sky rnd farcsin farctan2 degree p = Ok (dist, ra, dec) ->
  (forall D0 R0 T0, cartesian_to_sky degree p = Ok (D0, R0, T0) -> Rabs ((dec - T0) * conversion degree) <= d + 12 * u + eT) ->
  coords_within ((10 * d + 200 * u + eT) * vnorm p) (fl_sky_to_cartesian rnd fcos fsin degree dist ra dec) p.
Proof.
  intros degree p dist ra dec eT E K. pose proof (c2s_nonzero u rnd _ _ _ _ _ ltac:(lra) A E) as N. destruct (c2s_ok degree p N) as (d0 & r0 & t0 & E0). specialize (K _ _ _ E0).
  destruct (ra_near u d rnd fcos fsin farcsin farctan2 U Dd A Lb degree p _ _ _ _ _ _ E E0) as ((k & Kr) & Br). destruct (dec_near u d rnd fcos fsin farcsin farctan2 U Dd A Lb degree p _ _ _ _ _ _ N E E0) as (_ & _ & Bt).
  pose proof (s2c_near u d rnd fcos fsin farcsin farctan2 U Dd A Lb degree dist ra dec Br Bt) as (X1 & Y1 & Z1).
  assert (D : Rabs (dist - d0) <= 4 * u * d0 /\ d0 = vnorm p /\ 0 < vnorm p).
  { destruct (c2s_angles _ _ _ _ _ E0) as (-> & P & _). split; [|split; [reflexivity|exact P] ]. pose proof (dist_rel u rnd U A p) as D. unfold rel in D. rewrite (Rabs_right (vnorm p)) in D by lra.
    unfold fl_cartesian_to_sky in E. destruct (fl_sine rnd p); [|discriminate]. destruct (Rle_dec _ _); [|discriminate]. injection E as <- _ _. exact D. }
  destruct D as (D & -> & P). destruct (s2c_lipschitz degree dist ra dec (vnorm p) r0 t0 k (4 * u) _ _ ltac:(lra) D Kr K) as (X2 & Y2 & Z2).
  rewrite (sky_roundtrip1 degree p _ _ _ N E0) in X2, Y2, Z2.
  assert (Q : Rabs dist <= 1.01 * vnorm p) by (pose proof (Rabs_triang (dist - vnorm p) (vnorm p)) as T; replace (dist - vnorm p + vnorm p) with dist in T by ring; rewrite (Rabs_right (vnorm p)) in T by lra; nra).
  assert (W : Rabs dist * (3 * d + 80 * u) <= 1.01 * vnorm p * (3 * d + 80 * u)) by (apply Rmult_le_compat_r; lra).
  assert (V1 : 0 <= vnorm p * d) by (apply Rmult_le_pos; lra). assert (V2 : 0 <= vnorm p * u) by (apply Rmult_le_pos; lra).
  set (q := fl_sky_to_cartesian rnd fcos fsin degree dist ra dec) in *. set (q' := sky_to_cartesian degree None (NFloat dist) (NFloat ra) (NFloat dec)) in *.
  assert (G : forall a b c, Rabs (a - b) <= Rabs dist * (3 * d + 80 * u) -> Rabs (b - c) <= (4 * u + (4 * d + 80 * u) + (d + 12 * u + eT)) * vnorm p -> Rabs (a - c) <= (10 * d + 200 * u + eT) * vnorm p).
  { intros a b c H1 H2. pose proof (Rabs_triang (a - b) (b - c)) as T. replace (a - b + (b - c)) with (a - c) in T by ring. lra. }
  split; [eapply G; eauto|]. split; eapply G; eauto.
Qed.
Theorem C101_there_and_back : forall degree p dist ra dec, fl_cartesian_to_sky rnd farcsin farctan2 degree p = Ok (dist, ra, dec) ->
  coords_within ((10 * d + 200 * u + sqrt (48 * u)) * vnorm p) (fl_sky_to_cartesian rnd fcos fsin degree dist ra dec) p.
Proof.
  intros degree p dist ra dec E. pose proof (c2s_nonzero u rnd _ _ _ _ _ ltac:(lra) A E) as N. apply there_and_back; [exact E|]. intros D0 R0 T0 E0.
  exact (proj1 (dec_near u d rnd fcos fsin farcsin farctan2 U Dd A Lb degree p _ _ _ _ _ _ N E E0)).
Qed.
Print Assumptions C101_there_and_back.
(** Partial: as for declinations. *)
Theorem C101_there_and_back_partial : forall degree p dist ra dec, fl_cartesian_to_sky rnd farcsin farctan2 degree p = Ok (dist, ra, dec) -> 0 < off_axis p ->
  coords_within ((10 * d + 200 * u + 24 * u * (vnorm p / off_axis p)) * vnorm p) (fl_sky_to_cartesian rnd fcos fsin degree dist ra dec) p.
Proof.
  intros degree p dist ra dec E O. pose proof (c2s_nonzero u rnd _ _ _ _ _ ltac:(lra) A E) as N. apply there_and_back; [exact E|]. intros D0 R0 T0 E0.
  exact (proj1 (proj2 (dec_near u d rnd fcos fsin farcsin farctan2 U Dd A Lb degree p _ _ _ _ _ _ N E E0)) O).
Qed.
Print Assumptions C101_there_and_back_partial.
End Precise.

(** In double precision, every position whose squares do not underflow has sky coordinates. *)
Theorem C101_defined : forall farcsin farctan2 degree p, float_position p -> visible_position p -> p <> V 0 0 0 ->
  exists dist ra dec, fl_cartesian_to_sky double farcsin farctan2 degree p = Ok (dist, ra, dec).
Proof.
  intros farcsin farctan2 degree p F Vi N. destruct (C81_declination_partial p F Vi N) as (s & E & B). unfold fl_cartesian_to_sky. rewrite E.
  destruct (Rle_dec (Rabs s) 1) as [_|K]; [eauto|]. exfalso. apply K. apply Rabs_le. exact B.
Qed.
Print Assumptions C101_defined.
Lemma absorbed_up : forall t, 0 <= t < bpow radix2 (-53) -> double (1 + t) = 1.
Proof.
  intros t T. assert (B1 : bpow radix2 (-53) <= 1) by (change 1 with (bpow radix2 0); apply bpow_le; lia).
  assert (M : mag radix2 (1 + t) = 1%Z :> Z). { apply mag_unique. change (bpow radix2 (1 - 1)) with 1. change (bpow radix2 1) with 2. rewrite Rabs_right by lra. lra. }
  unfold double, round, scaled_mantissa, cexp. rewrite M. change (FLT_exp (-1074) 53 1) with (-52)%Z. change (- -52)%Z with 52%Z.
  replace (ZnearestE ((1 + t) * bpow radix2 52)) with (2 ^ 52)%Z; [unfold F2R; cbn [Fnum Fexp]; change (IZR (2 ^ 52)) with (bpow radix2 52); rewrite <- bpow_plus; reflexivity|]. symmetry. apply Znearest_imp.
  replace ((1 + t) * bpow radix2 52 - IZR (2 ^ 52)) with (t * bpow radix2 52) by (change (IZR (2 ^ 52)) with (bpow radix2 52); ring).
  assert (Q : bpow radix2 (-53) * bpow radix2 52 = / 2) by (rewrite <- bpow_plus; reflexivity). pose proof (bpow_gt_0 radix2 52). rewrite Rabs_right by nra. nra.
Qed.
(** Near a pole: two positions that are far more than a rounding apart, and whose declinations differ by 2^24 roundings, get the same sky coordinates, with any library. So no bound in proportion
    to the precision holds for declinations, and converting back gives at least one of the two wrong. *)
Theorem C101_pole_refuted : exists p q, float_position p /\ float_position q /\ visible_position p /\ visible_position q /\
  (forall d fcos fsin farcsin farctan2 degree, library d fcos fsin farcsin farctan2 -> fl_cartesian_to_sky double farcsin farctan2 degree p = fl_cartesian_to_sky double farcsin farctan2 degree q) /\
  2 ^ 24 * unit_roundoff <= Rabs (vx p - vx q) /\
  exists dp rp tp dq rq tq, cartesian_to_sky false p = Ok (dp, rp, tp) /\ cartesian_to_sky false q = Ok (dq, rq, tq) /\ 2 ^ 24 * unit_roundoff <= Rabs (tp - tq).
Proof.
  set (x := bpow radix2 (-27)). set (y := bpow radix2 (-28)). assert (X : x = / 134217728) by reflexivity. assert (Y : y = / 268435456) by reflexivity.
  assert (F1 : float_of double 1) by apply double_one. assert (F0 : float_of double 0) by apply double_rounding.
  assert (D : forall t, (t <= -27)%Z -> (-537 <= t)%Z -> fl_distance double (V (bpow radix2 t) 0 1) = 1).
  { intros t T T'. unfold fl_distance. cbn [vx vy vz]. rewrite Rmult_0_r, Rmult_1_r, F0, F1, <- bpow_plus, Rplus_0_r. rewrite (double_bpow (t + t)) by lia. rewrite (double_bpow (t + t)) by lia. rewrite Rplus_comm.
    rewrite absorbed_up; [rewrite sqrt_1; exact F1|]. split; [apply Rlt_le, bpow_gt_0|]. apply bpow_lt. lia. }
  assert (S : forall t, (t <= -27)%Z -> (-537 <= t)%Z -> fl_sine double (V (bpow radix2 t) 0 1) = Some 1).
  { intros t T T'. unfold fl_sine. rewrite (D t T T'). cbn [vz]. destruct (Req_EM_T 1 0); [lra|]. replace (1 / 1) with 1 by field. rewrite F1. reflexivity. }
  assert (Vi : forall t, (t <= -27)%Z -> (-400 <= t)%Z -> visible_position (V (bpow radix2 t) 0 1) /\ float_position (V (bpow radix2 t) 0 1)).
  { intros t T T'. assert (K : / 2 ^ 500 = bpow radix2 (-500)) by reflexivity || (change (bpow radix2 (-500)) with (/ IZR (2 ^ 500)); rewrite pow_IZR; reflexivity). split; (split; [|split]); cbn [vx vy vz].
    - right. rewrite K, Rabs_right by (apply Rle_ge, Rlt_le, bpow_gt_0). apply bpow_le. lia.
    - left. reflexivity.
    - right. rewrite K, Rabs_R1. change 1 with (bpow radix2 0). apply bpow_le. lia.
    - apply double_bpow. lia.
    - exact F0.
    - exact F1. }
  destruct (Vi (-27)%Z ltac:(lia) ltac:(lia)) as [Vp Fp]. destruct (Vi (-28)%Z ltac:(lia) ltac:(lia)) as [Vq Fq].
  assert (UR : 2 ^ 24 * unit_roundoff = / 536870912) by (unfold unit_roundoff; cbn; lra). rewrite UR.
  exists (V x 0 1), (V y 0 1). split; [exact Fp|]. split; [exact Fq|]. split; [exact Vp|]. split; [exact Vq|]. split.
  - intros d fcos fsin farcsin farctan2 degree (_ & _ & _ & L). unfold fl_cartesian_to_sky, x, y. rewrite !D, !S by lia. cbn [vx vy].
    assert (Z : forall t, 0 < t -> farctan2 0 t = 0).
    { intros t T. specialize (L 0 t). assert (Q : arctan2 0 t = 0) by (unfold arctan2; destruct (Rlt_dec 0 t); [|lra]; unfold Rdiv; rewrite Rmult_0_l; apply atan_0). rewrite Q, Rabs_R0, Rmult_0_r, Rminus_0_r in L.
      destruct (Req_dec (farctan2 0 t) 0) as [|N]; auto. pose proof (Rabs_pos_lt _ N). lra. }
    rewrite !Z by apply bpow_gt_0. reflexivity.
  - split; [cbn [vx]; rewrite X, Y; rewrite Rabs_right; lra|].
    assert (Np : V x 0 1 <> vzero) by (intros E; injection E; lra). assert (Nq : V y 0 1 <> vzero) by (intros E; injection E; lra).
    destruct (c2s_ok false _ Np) as (dp & rp & tp & Ep). destruct (c2s_ok false _ Nq) as (dq & rq & tq & Eq). exists dp, rp, tp, dq, rq, tq. split; [exact Ep|]. split; [exact Eq|].
    destruct (c2s_angles _ _ _ _ _ Ep) as (_ & Pp & _ & Tp). destruct (c2s_angles _ _ _ _ _ Eq) as (_ & Pq & _ & Tq). unfold conversion in Tp, Tq. rewrite Rmult_1_r in Tp, Tq.
    pose proof (cos_dec _ Np) as Cp. pose proof (cos_dec _ Nq) as Cq. rewrite <- Tp in Cp. rewrite <- Tq in Cq. eapply Rle_trans; [|apply cos_lipschitz]. rewrite Cp, Cq.
    assert (O : forall t, 0 < t -> off_axis (V t 0 1) = t) by (intros t T; unfold off_axis; cbn [vx vy]; replace (t * t + 0 * 0) with (t * t) by ring; apply sqrt_square; lra). rewrite !O by lra.
    assert (Nn : forall t, 0 < t <= / 1000 -> 1 <= vnorm (V t 0 1) <= 1.001).
    { intros t T. unfold vnorm, vdot. cbn [vx vy vz]. split.
      - rewrite <- sqrt_1 at 1. apply sqrt_le_1_alt. nra.
      - rewrite <- (sqrt_square 1.001) by lra. apply sqrt_le_1_alt. nra. }
    pose proof (Nn x ltac:(lra)) as N1. pose proof (Nn y ltac:(lra)) as N2. set (n1 := vnorm (V x 0 1)) in *. set (n2 := vnorm (V y 0 1)) in *.
    assert (I1 : x / 1.001 <= x / n1) by (apply Rmult_le_compat_l; [lra|]; apply Rinv_le_contravar; lra).
    assert (I2 : y / n2 <= y) by (rewrite <- (Rmult_1_r y) at 2; apply Rmult_le_compat_l; [lra|]; rewrite <- Rinv_1; apply Rinv_le_contravar; lra).
    rewrite Rabs_right; lra.
Qed.
Print Assumptions C101_pole_refuted.

(** A position, double precision without underflow, exact functions: all hypotheses hold. *)
Example C101_case : exists dist ra dec, accurate unit_roundoff double_free /\ library 0 cos sin asin arctan2 /\ 0 <= unit_roundoff <= 1 / 1000 /\
  fl_cartesian_to_sky double_free asin arctan2 true (V 3 0 4) = Ok (dist, ra, dec) /\ off_axis (V 3 0 4) = 3 /\ vnorm (V 3 0 4) = 5.
Proof.
  assert (I : forall n, (Z.abs n < 2 ^ 53)%Z -> double_free (IZR n) = IZR n).
  { intros n H. apply round_generic; [apply valid_rnd_N|]. apply generic_format_FLX. exists (Float radix2 n 0); [unfold F2R; cbn; ring|exact H]. }
  assert (D : fl_distance double_free (V 3 0 4) = 5).
  { unfold fl_distance. cbn [vx vy vz]. replace (3 * 3) with 9 by ring. replace (0 * 0) with 0 by ring. replace (4 * 4) with 16 by ring. rewrite !I by (cbn; lia). rewrite Rplus_0_r, I by (cbn; lia). replace (9 + 16) with 25 by ring. rewrite I by (cbn; lia).
    replace 25 with (5 * 5) by ring. rewrite sqrt_square by lra. apply I. cbn; lia. }
  unfold fl_cartesian_to_sky, fl_sine. rewrite D. destruct (Req_EM_T 5 0); [lra|]. cbn [vx vy vz].
  assert (B : Rabs (double_free (4 / 5)) <= 1).
  { assert (M : forall a b, a <= b -> double_free a <= double_free b) by (intros a b L; apply round_le; [apply FLX_exp_valid; reflexivity|apply valid_rnd_N|exact L]).
    apply Rabs_le. split; [apply Rle_trans with 0; [lra|]; rewrite <- (I 0%Z) by (cbn; lia); apply M; lra|]. rewrite <- (I 1%Z) by (cbn; lia). apply M. lra. }
  destruct (Rle_dec _ _) as [_|N]; [|contradiction]. eexists _, _, _. split; [apply C83_double|]. split.
  { unfold library, accurate_fun. repeat split; intros; rewrite Rminus_eq_0, Rabs_R0; try rewrite Rmult_0_l; lra. }
  split; [unfold unit_roundoff; split; [apply Rlt_le, Rinv_0_lt_compat; lra|cbn; lra]|]. split; [reflexivity|]. split.
  - unfold off_axis. cbn [vx vy]. replace (3 * 3 + 0 * 0) with (3 * 3) by ring. apply sqrt_square. lra.
  - unfold vnorm, vdot. cbn [vx vy vz]. replace (3 * 3 + 0 * 0 + 4 * 4) with (5 * 5) by ring. apply sqrt_square. lra.
Qed.
