(** C18, C19, exactly: which survey regions do fit in the box, and which boxes do hold the survey region. *)
Require Import Reals Lra ZArith List Bool.
From Verif Require Import Base Vec3 Isometry_Model Sky_Model Cutsky_Model Cutsky_Spec Sky_Proof Cutsky_Proof.
Open Scope R_scope.

(** The box returned for a region holds the region: every point of it is the image of a point of the box. *)
Definition region_covered (dr rr de : R * R) : Prop :=
  forall b s, cutsky_to_box dr rr de = Ok (b, s) ->
  forall p, in_region dr rr de p -> exists q, in_centred_box b q /\ transform s false q = p.

(* ------------------------------------------------------------------ C18 *)

Lemma cos_lt_1_pos : forall e, 0 < e <= PI / 2 -> cos e < 1.
Proof. intros e H. pose proof PI_RGT_0. rewrite <- cos_0. apply cos_decreasing_1; lra. Qed.

Lemma deg_zero : forall e, rad2deg e = 0 -> e = 0.
Proof. intros e H. unfold rad2deg in H. pose proof PI_RGT_0 as P. rewrite <- (Rmult_1_r e). replace 1 with ((180 / PI) * (PI / 180)) by (field; lra). nra. Qed.

Lemma corner_sky : forall m e e', rad2deg e * (PI / 180) = e -> rad2deg e' * (PI / 180) = e' ->
  vx (sky_point m (rad2deg e) (rad2deg e')) = m * cos e' * cos e.
Proof. intros m e e' A B. unfold sky_point. cbn. rewrite A, B. reflexivity. Qed.

Lemma deg_90 : forall e, 0 <= e <= PI / 2 -> -90 <= rad2deg e <= 90.
Proof.
  intros e H. pose proof PI_RGT_0 as P. pose proof (rad2deg_deg e) as D.
  assert (E : rad2deg e * (PI / 180) = e) by exact D. split; nra.
Qed.

Lemma corner_out : forall m dx e e', 0 < m -> 0 < dx -> cos e = dx / m -> 0 <= e <= PI / 2 -> 0 <= e' <= PI / 2 -> e' <> 0 ->
  m * cos e' * cos e < dx.
Proof.
  intros m dx e e' Hm Hx C He He' N. rewrite C. replace (m * cos e' * (dx / m)) with (dx * cos e') by (field; lra).
  pose proof (cos_lt_1_pos e' ltac:(lra)). nra.
Qed.

(** C18, observer outside the box: the promised region is in the box exactly when one of its two angular widths is zero. *)
Theorem C18_outside_exactly : forall b dmax dmin dr rr de, 0 < vx b -> vx b < dmax -> 0 <= vy b -> 0 <= vz b ->
  box_to_cutsky b dmax dmin = Ok (dr, rr, de) -> fst dr <= snd dr ->
  ((forall p, in_region dr rr de p -> in_box_at b dmax p) <-> (snd rr = 0 \/ snd de = 0)).
Proof.
  intros b dmax dmin dr rr de Hb Hx Hy Hz H Hd. pose proof PI_RGT_0 as P.
  assert (SYM : fst rr = - snd rr /\ fst de = - snd de).
  { unfold box_to_cutsky in H. cbv zeta in H. destruct (if Rle_dec (dmax - vx b) 0 then _ else _) as [[[m d0] d1]|] in H; [|discriminate].
    cbn [bind] in H. destruct (Rltb (vy b) (vz b)) in H; injection H as <- <- <-; cbn; split; reflexivity. }
  destruct SYM as [S1 S2]. split.
  - intros C.
    assert (exists e e', dr = (fst dr, dmax) /\ 0 <= e <= PI / 2 /\ 0 <= e' <= PI / 2 /\ snd rr = rad2deg e /\ snd de = rad2deg e' /\ 0 < fst dr /\
      (e <> 0 -> e' <> 0 -> fst dr * cos e' * cos e < dmax - vx b)) as (e & e' & DR & B & B' & RR & DE & M & K).
    { unfold box_to_cutsky in H. destruct (Rle_dec (dmax - vx b) 0) as [N|_]; [lra|].
      destruct (Rltb (vy b) (vz b)) eqn:F.
      - apply Rltb_true in F. destruct (btc_outside (vz b) (vy b) (dmax - vx b) dmax dmin) as [[[m e0] e1]|] eqn:E; [|discriminate].
        cbn [bind] in H. injection H as <- <- <-. cbn [fst snd] in *. apply btc_outside_ok in E; try lra.
        destruct E as (K1 & K2 & K3 & K4 & K5 & K6 & K7). exists e1, e0. repeat (split; [first [reflexivity|lra]|]).
        intros N1 N2. replace (m * cos e0 * cos e1) with (m * cos e1 * cos e0) by ring. apply corner_out; auto; lra.
      - apply Rltb_false in F. destruct (btc_outside (vy b) (vz b) (dmax - vx b) dmax dmin) as [[[m e0] e1]|] eqn:E; [|discriminate].
        cbn [bind] in H. injection H as <- <- <-. cbn [fst snd] in *. apply btc_outside_ok in E; try lra.
        destruct E as (K1 & K2 & K3 & K4 & K5 & K6 & K7). exists e0, e1. repeat (split; [first [reflexivity|lra]|]).
        intros N1 N2. apply corner_out; auto; lra. }
    destruct (Req_dec e 0) as [Z|Z]; [left; rewrite RR, Z; unfold rad2deg; lra|].
    destruct (Req_dec e' 0) as [Z'|Z']; [right; rewrite DE, Z'; unfold rad2deg; lra|]. exfalso.
    pose proof (rad2deg_deg e) as D1. pose proof (rad2deg_deg e') as D2. pose proof (deg_90 e B). pose proof (deg_90 e' B').
    assert (0 <= rad2deg e /\ 0 <= rad2deg e') as [P1 P2] by (split; nra).
    destruct (C (sky_point (fst dr) (snd rr) (snd de))) as [[LX _] _].
    + exists (fst dr), (snd rr), (snd de). split; [lra|]. split.
      * exists 0%Z. rewrite S1, RR. destruct (Rlt_dec _ _); lra.
      * split; [lra|]. split; [lra|reflexivity].
    + specialize (K Z Z'). rewrite RR, DE in LX. unfold sky_point in LX; cbn [vx] in LX. cbv zeta in LX. cbn [vx] in LX.
      rewrite D1, D2 in LX. lra.
  - intros Hor p (d & ra & dec & Rd & (k & Rk) & Rdec & _ & ->).
    assert (SP : sky_point d ra dec = sky_point d (ra + 360 * IZR k) dec).
    { unfold sky_point. replace ((ra + 360 * IZR k) * (PI / 180)) with (ra * (PI / 180) + IZR k * (2 * PI)) by field.
      rewrite cos_period_Z, sin_period_Z. reflexivity. }
    assert (NW : ~ snd rr < fst rr).
    { unfold box_to_cutsky in H. destruct (Rle_dec (dmax - vx b) 0) as [N|_]; [lra|].
      destruct (Rltb (vy b) (vz b)) eqn:F.
      - apply Rltb_true in F. destruct (btc_outside (vz b) (vy b) (dmax - vx b) dmax dmin) as [[[m e0] e1]|] eqn:E; [|discriminate].
        cbn [bind] in H. injection H as <- <- <-. cbn [fst snd] in *. apply btc_outside_ok in E; try lra.
        destruct E as (K1 & K2 & K3 & _). pose proof (rad2deg_deg e1). nra.
      - apply Rltb_false in F. destruct (btc_outside (vy b) (vz b) (dmax - vx b) dmax dmin) as [[[m e0] e1]|] eqn:E; [|discriminate].
        cbn [bind] in H. injection H as <- <- <-. cbn [fst snd] in *. apply btc_outside_ok in E; try lra.
        destruct E as (K1 & K2 & K3 & _). pose proof (rad2deg_deg e0). nra. }
    destruct (Rlt_dec (snd rr) (fst rr)) in Rk; [tauto|]. rewrite SP.
    apply (btc_outside_thm b dmax dmin dr rr de); auto. destruct Hor as [Z|Z]; [left|right]; lra.
Qed.
Print Assumptions C18_outside_exactly.
(** A flat box in front of the observer, one of height zero: its region is in it. With a height it is not (C18_observer_outside_refuted). *)
Example C18_exact_case : exists dr rr de, box_to_cutsky (V 1 2 0) 2 0 = Ok (dr, rr, de) /\ fst dr <= snd dr /\ snd de = 0.
Proof.
  unfold box_to_cutsky, Rltb. cbn [vx vy vz]. destruct (Rlt_dec 2 0) as [L|_]; [lra|].
  destruct (Rle_dec (2 - 1) 0) as [L|_]; [lra|]. unfold btc_outside. pose proof PI_RGT_0 as P.
  destruct (Rlt_dec (sqrt ((2 - 1) ^ 2 + (2 / 2) ^ 2)) 2) as [_|N].
  2:{ exfalso. apply N. replace ((2 - 1) ^ 2 + (2 / 2) ^ 2) with 2 by field. pose proof (sqrt_sqrt 2 ltac:(lra)). pose proof (sqrt_pos 2). nra. }
  unfold fdiv, np_arcsin, np_arccos. destruct (Req_EM_T 2 0) as [L|_]; [lra|]. cbn [bind].
  destruct (Rle_dec (Rabs (2 / 2 / 2)) 1) as [_|N]; [|exfalso; apply N; apply Rabs_le; lra]. cbn [bind].
  replace (2 / 2 / 2) with (1 / 2) by field. rewrite asin_half, cos_PI6.
  assert (S3 : 0 < sqrt 3) by (apply sqrt_lt_R0; lra). assert (Q3 : sqrt 3 * sqrt 3 = 3) by (apply sqrt_sqrt; lra).
  destruct (Req_EM_T (sqrt 3 / 2) 0) as [L|_]; [lra|]. cbn [bind].
  assert (M : (2 - 1) / (sqrt 3 / 2) = 2 / sqrt 3) by (field; lra). rewrite M.
  assert (MP : 0 < 2 / sqrt 3) by (apply Rdiv_lt_0_compat; lra).
  destruct (Rle_dec (Rabs (0 / 2 / 2)) 1) as [_|N]; [|exfalso; apply N; apply Rabs_le; lra]. cbn [bind].
  destruct (Req_EM_T (2 / sqrt 3) 0) as [L|_]; [lra|]. cbn [bind].
  assert (R : (2 - 1) / (2 / sqrt 3) = sqrt 3 / 2) by (field; lra). rewrite R.
  assert (sqrt 3 <= 2) by nra.
  destruct (Rle_dec (Rabs (sqrt 3 / 2)) 1) as [_|N]; [|exfalso; apply N; apply Rabs_le; lra]. cbn [bind].
  eexists _, _, _. split; [reflexivity|]. cbn [fst snd]. split.
  - apply Rmult_le_reg_r with (sqrt 3); [lra|]. replace (2 / sqrt 3 * sqrt 3) with 2 by (field; lra). nra.
  - replace (0 / 2 / 2) with 0 by field. rewrite asin_0, Rmin_left; [unfold rad2deg; lra|]. pose proof (acos_bound (sqrt 3 / 2)); lra.
Qed.

(* ------------------------------------------------------------------ C19 *)

Lemma ctb_any : forall dr rr de, exists b s, cutsky_to_box dr rr de = Ok (b, s) /\ b = ctb_boxsize dr rr de.
Proof. intros dr rr de. destruct (ctb_ok dr rr de) as (s & E & _). eauto. Qed.

(** Coverage read in the frame of the box. *)
Lemma covered_frame : forall dr rr d0 d1, 0 <= ra_width rr < 360 -> -90 <= d0 <= d1 -> d1 <= 90 ->
  let w := ra_width rr / 2 * (PI / 180) in let h := (d1 - d0) / 2 * (PI / 180) in let D0 := (d0 + d1) / 2 * (PI / 180) in
  (region_covered dr rr (d0, d1) <->
   forall d A D, fst dr <= d <= snd dr -> Rabs A <= w -> Rabs (D - D0) <= h ->
     fst dr * Rmin (cos w) (cos h) <= fx d D A D0 <= snd dr /\ Rabs (fy d D A) <= snd dr * sin w /\ Rabs (fz d D A D0) <= snd dr * sin h).
Proof.
  intros dr rr d0 d1 Hw H0 H1 w h D0. pose proof PI_RGT_0 as P. set (t := PI / 180) in *. assert (T : 0 < t) by (unfold t; lra).
  destruct (ctb_rarange_spec rr Hw) as (m & M1 & M2). destruct (ctb_any dr rr (d0, d1)) as (b & s & E & EB).
  assert (BX : snd dr - vx b = fst dr * Rmin (cos w) (cos h) /\ vy b / 2 = snd dr * sin w /\ vz b / 2 = snd dr * sin h).
  { rewrite EB. unfold ctb_boxsize. cbn [vx vy vz fst snd]. rewrite M1, M2.
    replace (Rabs (fst rr + 360 * IZR m + ra_width rr - (fst rr + 360 * IZR m))) with (ra_width rr) by (rewrite Rabs_right; lra).
    replace (Rabs (d1 - d0)) with (d1 - d0) by (rewrite Rabs_right; lra).
    replace (ra_width rr / 2 * PI / 180) with w by (unfold w, t; field). replace ((d1 - d0) / 2 * PI / 180) with h by (unfold h, t; field).
    split; [ring|]. split; field. }
  destruct BX as (BX & BY & BZ).
  assert (CEN : (fst (ctb_rarange rr) + snd (ctb_rarange rr)) / 2 = fst rr + 360 * IZR m + ra_width rr / 2) by (rewrite M1, M2; field).
  assert (DEG : forall x y, x * t <= y * t <-> x <= y).
  { intros x y; split; intros L; [apply Rmult_le_reg_r with t; lra|apply Rmult_le_compat_r; lra]. }
  split.
  - intros C d A D Rd RA RD. apply Rabs_le_inv in RA. apply Rabs_le_inv in RD.
    set (ra := A / t + (fst rr + 360 * IZR m + ra_width rr / 2)). set (dec := D / t).
    assert (AT : A / t * t = A) by (field; lra). assert (DT : D / t * t = D) by (field; lra).
    assert (IN : in_region dr rr (d0, d1) (sky_point d ra dec)).
    { exists d, ra, dec. split; [exact Rd|]. split; [|split; [|split; [|reflexivity] ] ].
      - exists (- m)%Z. rewrite opp_IZR. unfold ra.
        assert (A / t <= ra_width rr / 2) by (apply DEG; rewrite AT; exact (proj2 RA)).
        assert (- (ra_width rr / 2) <= A / t) by (apply DEG; rewrite AT; unfold w in RA; lra).
        unfold ra_width in *. destruct (Rlt_dec (snd rr) (fst rr)); lra.
      - cbn [fst snd]. unfold dec. split; apply DEG; rewrite DT; unfold D0, h in RD; lra.
      - assert (d0 <= dec <= d1) by (unfold dec; split; apply DEG; rewrite DT; unfold D0, h in RD; lra). lra. }
    specialize (C b s E _ IN). apply (ctb_covered_iff _ _ _ _ _ _ _ _ E) in C. cbv zeta in C. cbn [fst snd] in C. fold t in C.
    rewrite CEN, BX, BY, BZ in C. unfold ra, dec in C.
    replace ((A / t + (fst rr + 360 * IZR m + ra_width rr / 2) - (fst rr + 360 * IZR m + ra_width rr / 2)) * t) with A in C by (field; lra).
    rewrite DT in C. exact C.
  - intros C b' s' E' p (d & ra & dec & Rd & (k & Rk) & Rdec & _ & ->). rewrite E in E'. injection E' as <- <-. cbn [fst snd] in Rdec.
    assert (SP : sky_point d ra dec = sky_point d (ra + 360 * IZR (k + m)) dec).
    { unfold sky_point. replace ((ra + 360 * IZR (k + m)) * (PI / 180)) with (ra * (PI / 180) + IZR (k + m) * (2 * PI)) by field.
      rewrite cos_period_Z, sin_period_Z. reflexivity. }
    rewrite SP. apply (ctb_covered_iff _ _ _ _ _ _ _ _ E). cbv zeta. cbn [fst snd]. fold t. rewrite CEN, BX, BY, BZ. apply C; auto.
    + rewrite plus_IZR. unfold w. apply Rabs_le. unfold ra_width in *. destruct (Rlt_dec (snd rr) (fst rr)); split; nra.
    + unfold D0, h. apply Rabs_le. split; nra.
Qed.

Lemma fz_alt : forall d D A D0, fz d D A D0 = d * (sin (D - D0) + sin D0 * cos D * (1 - cos A)).
Proof. intros. unfold fz. rewrite sin_minus. ring. Qed.
Lemma fx_alt : forall d D A D0, fx d D A D0 = d * (cos (D - D0) - cos D0 * cos D * (1 - cos A)).
Proof. intros. unfold fx. rewrite cos_minus. ring. Qed.
Lemma Rabs_self : forall x, 0 <= x -> Rabs x <= x.
Proof. intros; rewrite Rabs_right; lra. Qed.

(** C19, exactly, for a declination range that does not touch the poles: the box holds the survey region exactly when the right
    ascension width is zero, or the declination range is symmetric about the equator, the right ascension width is at most half a
    circle, and there is no shell corner (the region starts at the observer, or has no height, or is exactly half a circle wide). *)
Theorem C19_exactly : forall dr rr d0 d1, 0 <= fst dr <= snd dr -> 0 < snd dr -> 0 <= ra_width rr < 360 -> -90 < d0 -> d0 <= d1 -> d1 < 90 ->
  (region_covered dr rr (d0, d1) <->
   ra_width rr = 0 \/ (d0 = - d1 /\ ra_width rr <= 180 /\ (fst dr = 0 \/ d1 = 0 \/ ra_width rr = 180))).
Proof.
  intros dr rr d0 d1 Hd Hm Hw H0 H01 H1. pose proof PI_RGT_0 as P. set (t := PI / 180). assert (T : 0 < t) by (unfold t; lra).
  rewrite (covered_frame dr rr d0 d1 Hw ltac:(lra) ltac:(lra)). cbv zeta. fold t.
  set (w := ra_width rr / 2 * t). set (h := (d1 - d0) / 2 * t). set (D0 := (d0 + d1) / 2 * t).
  assert (TP : 180 * t = PI) by (unfold t; field). assert (T9 : 90 * t = PI / 2) by (unfold t; field).
  assert (W : 0 <= w < PI) by (unfold w; nra). assert (Hh : 0 <= h < PI / 2) by (unfold h; nra).
  assert (L1 : d1 * t < PI / 2) by nra. assert (L0 : - (PI / 2) < d0 * t) by nra.
  assert (E1 : D0 + h = d1 * t) by (unfold D0, h; field). assert (E0 : D0 - h = d0 * t) by (unfold D0, h; field).
  set (dm := snd dr) in *. set (dn := fst dr) in *.
  split.
  - intros C. destruct (Req_dec (ra_width rr) 0) as [Z|NZ]; [left; exact Z|right].
    assert (WP : 0 < w) by (unfold w; nra).
    assert (CW : cos w < 1) by (rewrite <- cos_0; apply cos_decreasing_1; lra).
    assert (AW : Rabs (- w) <= w) by (rewrite Rabs_Ropp; apply Rabs_self; lra).
    assert (EQ : D0 = 0).
    { destruct (Rtotal_order D0 0) as [N|[N|N]]; auto; exfalso.
      - destruct (C dm (- w) (D0 - h)) as (_ & _ & K); [lra|exact AW|replace (D0 - h - D0) with (- h) by ring; rewrite Rabs_Ropp; apply Rabs_self; lra|].
        rewrite fz_alt, cos_neg in K. replace (D0 - h - D0) with (- h) in K by ring. rewrite sin_neg in K. apply Rabs_le_inv in K.
        assert (SD : sin D0 < 0) by (apply sin_lt_0_var; lra). assert (CD : 0 < cos (D0 - h)) by (apply cos_gt_0; lra).
        assert (0 < - sin D0 * cos (D0 - h) * (1 - cos w)) by (apply Rmult_lt_0_compat; [apply Rmult_lt_0_compat|]; lra). nra.
      - destruct (C dm (- w) (D0 + h)) as (_ & _ & K); [lra|exact AW|replace (D0 + h - D0) with h by ring; apply Rabs_self; lra|].
        rewrite fz_alt, cos_neg in K. replace (D0 + h - D0) with h in K by ring. apply Rabs_le_inv in K.
        assert (SD : 0 < sin D0) by (apply sin_gt_0; lra). assert (CD : 0 < cos (D0 + h)) by (apply cos_gt_0; lra).
        assert (0 < sin D0 * cos (D0 + h) * (1 - cos w)) by (apply Rmult_lt_0_compat; [apply Rmult_lt_0_compat|]; lra). nra. }
    split; [unfold D0 in EQ; nra|].
    assert (W2 : ra_width rr <= 180).
    { apply Rnot_lt_le. intros L. assert (WB : PI / 2 < w) by (unfold w; nra).
      destruct (C dm (PI / 2) 0) as (_ & K & _); [lra|rewrite Rabs_right; lra|rewrite EQ, Rminus_0_r, Rabs_R0; lra|].
      unfold fy in K. rewrite cos_0, sin_PI2 in K. rewrite Rabs_right in K by lra.
      assert (SW : sin w < 1) by (rewrite <- sin_PI2; apply sin_decreasing_1; lra). nra. }
    split; [exact W2|]. destruct (Req_dec dn 0) as [Z|N]; [left; exact Z|right]. destruct (Req_dec d1 0) as [Z|N1]; [left; exact Z|right].
    destruct (Req_dec (ra_width rr) 180) as [Z|N2]; [exact Z|exfalso].
    assert (WQ : w < PI / 2) by (unfold w; nra). assert (HP : h <> 0) by (rewrite EQ in *; nra).
    destruct (C dn (- w) h) as ((K & _) & _); [lra|exact AW|rewrite EQ, Rminus_0_r; apply Rabs_self; lra|].
    rewrite EQ in K. unfold fx in K. rewrite cos_0, sin_0, cos_neg in K.
    assert (CH : cos h < 1) by (rewrite <- cos_0; apply cos_decreasing_1; lra).
    assert (0 < cos w) by (apply cos_gt_0; lra). assert (0 < cos h) by (apply cos_gt_0; lra).
    assert (Q : cos h * cos w < Rmin (cos w) (cos h)) by (apply Rmin_glb_lt; nra). nra.
  - intros Hor d A D Rd RA RD.
    assert (ZERO : w = 0 -> (dn * Rmin (cos w) (cos h) <= fx d D A D0 <= dm) /\ Rabs (fy d D A) <= dm * sin w /\ Rabs (fz d D A D0) <= dm * sin h).
    { intros Z. assert (A0 : A = 0) by (rewrite Z in RA; apply Rabs_le_inv in RA; lra).
      rewrite fx_alt, fz_alt, A0, Z. unfold fy. rewrite cos_0, sin_0. pose proof (cos_abs_ge _ _ RD ltac:(lra)) as CD. pose proof (sin_abs_le _ _ RD ltac:(lra)) as SD.
      pose proof (COS_bound (D - D0)) as CB. assert (0 <= cos h) by (apply cos_ge_0; lra). pose proof (Rmin_r 1 (cos h)).
      assert (0 <= Rmin 1 (cos h)) by (apply Rmin_glb; lra).
      split; [split|split].
      - replace (d * (cos (D - D0) - cos D0 * cos D * (1 - 1))) with (d * cos (D - D0)) by ring. apply Rmult_le_compat; lra.
      - replace (d * (cos (D - D0) - cos D0 * cos D * (1 - 1))) with (d * cos (D - D0)) by ring. nra.
      - rewrite !Rmult_0_r, Rabs_R0. lra.
      - replace (d * (sin (D - D0) + sin D0 * cos D * (1 - 1))) with (d * sin (D - D0)) by ring.
        apply (mul_bound d dm (sin (D - D0)) (sin h)); [lra|exact SD]. }
    destruct Hor as [Z|(S & W2 & Z)]; [apply ZERO; unfold w; rewrite Z; lra|].
    assert (EQ : D0 = 0) by (unfold D0; rewrite S; lra). rewrite EQ, Rminus_0_r in RD. rewrite EQ in *.
    assert (WQ : w <= PI / 2) by (unfold w; nra).
    pose proof (sin_abs_le A w RA ltac:(lra)) as SA. pose proof (sin_abs_le D h RD ltac:(lra)) as SD.
    pose proof (cos_abs_ge A w RA ltac:(lra)) as CA. pose proof (cos_abs_ge D h RD ltac:(lra)) as CD.
    pose proof (cos_ge_0 w ltac:(lra) ltac:(lra)) as CA0. pose proof (cos_ge_0 h ltac:(lra) ltac:(lra)) as CD0.
    pose proof (COS_bound A) as BA. pose proof (COS_bound D) as BD. unfold fx, fy, fz. rewrite cos_0, sin_0.
    assert (DC : 0 <= d * cos D <= dm) by nra.
    split; [split|split].
    + replace (d * (1 * (cos D * cos A) + 0 * sin D)) with (d * (cos D * cos A)) by ring.
      pose proof (Rmin_l (cos w) (cos h)). pose proof (Rmin_r (cos w) (cos h)). assert (MP : 0 <= Rmin (cos w) (cos h)) by (apply Rmin_glb; lra).
      destruct Z as [Z|[Z|Z]].
      * rewrite Z, Rmult_0_l. apply Rmult_le_pos; [lra|]. apply Rmult_le_pos; lra.
      * assert (D = 0) as ->. { assert (HZ : h = 0) by (rewrite <- E1 in *; nra). rewrite HZ in RD. apply Rabs_le_inv in RD. lra. }
        rewrite cos_0. rewrite Rmult_1_l. apply Rmult_le_compat; lra.
      * assert (CZ : cos w = 0) by (replace w with (PI / 2); [apply cos_PI2|unfold w; rewrite Z; lra]).
        assert (Rmin (cos w) (cos h) = 0) as -> by (rewrite CZ in *; lra). rewrite Rmult_0_r. apply Rmult_le_pos; [lra|]. apply Rmult_le_pos; lra.
    + assert (d * (cos D * cos A) <= dm) by nra. lra.
    + replace (d * (cos D * sin A)) with (d * cos D * sin A) by ring. apply (mul_bound _ _ _ _ DC SA).
    + replace (d * (1 * sin D - 0 * (cos D * cos A))) with (d * sin D) by ring. assert (Hd' : 0 <= d <= dm) by lra. apply (mul_bound _ _ _ _ Hd' SD).
Qed.
Print Assumptions C19_exactly.
Example C19_exact_case : 0 <= fst (500, 1000) <= snd (500, 1000) /\ 0 < snd (500, 1000) /\ 0 <= ra_width (300, 40) < 360 /\ -90 < -20 /\ -20 <= 70 /\ 70 < 90 /\
  ra_width (300, 40) = 100.
Proof. unfold ra_width; cbn. destruct (Rlt_dec 40 300); lra. Qed.

(** A cap around the pole, starting at the observer and with its lower edge above the equator, is held exactly when its right
    ascension width is at most half a circle. *)
Theorem C19_polar_cap_exactly : forall dm rr d0, 0 < dm -> 0 <= ra_width rr < 360 -> 0 <= d0 < 90 ->
  (region_covered (0, dm) rr (d0, 90) <-> ra_width rr <= 180).
Proof.
  intros dm rr d0 Hm Hw H0. pose proof PI_RGT_0 as P. set (t := PI / 180). assert (T : 0 < t) by (unfold t; lra).
  rewrite (covered_frame (0, dm) rr d0 90 Hw ltac:(lra) ltac:(lra)). cbv zeta. fold t. cbn [fst snd].
  set (w := ra_width rr / 2 * t). set (h := (90 - d0) / 2 * t). set (D0 := (d0 + 90) / 2 * t).
  assert (TP : 180 * t = PI) by (unfold t; field). assert (T9 : 90 * t = PI / 2) by (unfold t; field).
  assert (W : 0 <= w < PI) by (unfold w; nra). assert (Hh : 0 < h <= PI / 4) by (unfold h; nra).
  assert (SUM : D0 + h = PI / 2) by (unfold D0, h; rewrite <- T9; field).
  assert (SD0 : 0 < sin D0) by (apply sin_gt_0; lra). assert (CD0 : 0 < cos D0) by (apply cos_gt_0; lra).
  assert (CS : sin h = cos D0) by (replace h with (PI / 2 - D0) by lra; apply sin_shift).
  split.
  - intros C. apply Rnot_lt_le. intros L. assert (WB : PI / 2 < w) by (unfold w; nra).
    assert (CW : 0 < - cos w) by (pose proof (cos_lt_0 w ltac:(lra) ltac:(lra)); lra).
    set (k := sin D0 * - cos w). assert (K : 0 < k) by (apply Rmult_lt_0_compat; lra).
    set (y := atan (k / cos D0)). assert (KC : 0 < k / cos D0) by (apply Rdiv_lt_0_compat; lra).
    assert (Y : 0 < y < PI / 2). { unfold y. split; [rewrite <- atan_0; apply atan_increasing; exact KC|apply atan_bound]. }
    set (x := Rmin (y / 2) h). assert (X : 0 < x <= h /\ x < y).
    { unfold x. split; [split; [apply Rmin_glb_lt; lra|apply Rmin_r]|]. apply Rle_lt_trans with (y / 2); [apply Rmin_l|lra]. }
    assert (SX : 0 < sin x) by (apply sin_gt_0; lra). assert (CX : 0 < cos x) by (apply cos_gt_0; lra).
    assert (TX : cos D0 * sin x < k * cos x).
    { assert (TL : tan x < tan y) by (apply tan_increasing; lra). unfold y in TL. rewrite tan_atan in TL. unfold tan in TL.
      apply Rmult_lt_reg_r with (/ (cos D0 * cos x)); [apply Rinv_0_lt_compat, Rmult_lt_0_compat; lra|].
      replace (cos D0 * sin x * / (cos D0 * cos x)) with (sin x / cos x) by (field; lra).
      replace (k * cos x * / (cos D0 * cos x)) with (k / cos D0) by (field; lra). exact TL. }
    destruct (C dm w (PI / 2 - 2 * x)) as (_ & _ & Z); [lra|apply Rabs_self; lra|apply Rabs_le; lra|].
    unfold fz in Z. rewrite sin_shift, cos_shift, cos_2a_sin, sin_2a, CS in Z. apply Rabs_le_inv in Z. destruct Z as [_ Z].
    assert (G : cos D0 * (1 - 2 * sin x * sin x) - sin D0 * (2 * sin x * cos x * cos w) = cos D0 + 2 * sin x * (k * cos x - cos D0 * sin x)) by (unfold k; ring).
    rewrite G in Z. assert (0 < 2 * sin x * (k * cos x - cos D0 * sin x)) by (apply Rmult_lt_0_compat; lra). nra.
  - intros W2 d A D Rd RA RD. assert (WQ : w <= PI / 2) by (unfold w; nra).
    pose proof (sin_abs_le A w RA ltac:(lra)) as SA. pose proof (cos_abs_ge A w RA ltac:(lra)) as CA.
    pose proof (cos_ge_0 w ltac:(lra) ltac:(lra)) as CA0. pose proof (COS_bound A) as BA.
    pose proof (sin_abs_le _ _ RD ltac:(lra)) as SR. pose proof RD as RD'. apply Rabs_le_inv in RD'.
    assert (DB : 0 <= D <= PI / 2) by lra. assert (CD : 0 <= cos D) by (apply cos_ge_0; lra). assert (SD : 0 <= sin D) by (apply sin_ge_0; lra).
    pose proof (COS_bound D) as BD. pose proof (SIN_bound D) as BS. assert (DC : 0 <= d * cos D <= dm) by nra.
    assert (0 <= cos D * cos A) by (apply Rmult_le_pos; lra).
    split; [split|split].
    + rewrite Rmult_0_l. unfold fx. apply Rmult_le_pos; [lra|]. apply Rplus_le_le_0_compat; apply Rmult_le_pos; lra.
    + rewrite fx_alt. pose proof (COS_bound (D - D0)). assert (0 <= cos D0 * cos D * (1 - cos A)) by (apply Rmult_le_pos; [apply Rmult_le_pos|]; lra). nra.
    + unfold fy. replace (d * (cos D * sin A)) with (d * cos D * sin A) by ring. apply (mul_bound _ _ _ _ DC SA).
    + apply (mul_bound d dm (cos D0 * sin D - sin D0 * (cos D * cos A)) (sin h)); [lra|]. apply Rabs_le. split.
      * pose proof (Rabs_le_inv _ _ SR) as [S1 _]. rewrite sin_minus in S1.
        assert (cos D * cos A <= cos D) by nra. assert (sin D0 * (cos D * cos A) <= sin D0 * cos D) by (apply Rmult_le_compat_l; lra). lra.
      * rewrite CS. assert (0 <= sin D0 * (cos D * cos A)) by (apply Rmult_le_pos; lra). nra.
Qed.
Print Assumptions C19_polar_cap_exactly.
Example C19_polar_case : 0 < 1000 /\ 0 <= ra_width (300, 40) < 360 /\ 0 <= 40 < 90 /\ ra_width (300, 40) <= 180.
Proof. unfold ra_width; cbn. destruct (Rlt_dec 40 300); lra. Qed.
