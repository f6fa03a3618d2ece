(** C97: ranges and boxes convert back into each other. *)
Require Import Reals Lra Lia ZArith List Bool String.
From Verif Require Import Base Vec3 Isometry_Model Isometry_Proof Sky_Model Sky_Proof Cutsky_Model Cutsky_Spec Cutsky_Proof.
Open Scope R_scope.

Lemma fdiv_ok : forall x y, y <> 0 -> fdiv x y = Ok (x / y).
Proof. intros x y H. unfold fdiv. destruct (Req_EM_T y 0); [contradiction|auto]. Qed.
Lemma np_arccos_ok : forall x, 0 <= x <= 1 -> np_arccos x = Ok (acos x).
Proof. intros x H. unfold np_arccos. destruct (Rle_dec (Rabs x) 1) as [|N]; auto. destruct N. rewrite Rabs_right; lra. Qed.
Lemma deg_half : forall w, w / 2 * PI / 180 = w / 2 * (PI / 180).
Proof. intros. field. Qed.
Lemma rad2deg_half : forall w, rad2deg (w / 2 * PI / 180) = w / 2.
Proof. intros. unfold rad2deg. pose proof PI_RGT_0. field. lra. Qed.

(** The view of the box of a symmetric region. *)
Lemma view_back : forall dmin dmax r h, 0 <= dmin <= dmax -> 0 < dmax -> 0 <= h -> h <= r -> r < PI / 2 ->
  (if Rle_dec (dmin * cos r) 0 then btc_inside (2 * dmax * sin r) (2 * dmax * sin h) (dmin * cos r) dmax else btc_outside (2 * dmax * sin r) (2 * dmax * sin h) (dmin * cos r) dmax dmin) = Ok (dmin, r, h).
Proof.
  intros dmin dmax r h Hd Hm H0 Hr H1. pose proof PI_RGT_0 as P.
  assert (C : 0 < cos r) by (apply cos_gt_0; lra). assert (S : 0 <= sin r) by (apply sin_ge_0; lra). assert (S1 : sin r < 1) by (rewrite <- sin_PI2; apply sin_increasing_1; lra).
  assert (SH : 0 <= sin h) by (apply sin_ge_0; lra). assert (SHR : sin h <= sin r) by (destruct (Req_dec h r); [subst; lra|]; left; apply sin_increasing_1; lra).
  assert (Q : forall s, 2 * dmax * s / 2 / dmax = s) by (intros; field; lra).
  destruct (Rle_dec (dmin * cos r) 0) as [L|L].
  - assert (dmin = 0) by (destruct (Req_dec dmin 0); auto; assert (0 < dmin * cos r) by (apply Rmult_lt_0_compat; lra); lra). subst.
    unfold btc_inside. rewrite !fdiv_ok by lra. cbn [bind]. rewrite !Q. destruct (Rlt_dec (sin r) 1); [|lra]. rewrite !np_arcsin_ok by lra. cbn [bind]. rewrite !asin_sin by lra. auto.
  - assert (D : 0 < dmin) by (destruct (Req_dec dmin 0); [subst; exfalso; apply L; lra|lra]). set (dx := dmin * cos r) in *.
    assert (X : dx / dmin = cos r) by (unfold dx; field; lra). assert (C1 : cos r <= 1) by apply COS_bound.
    unfold btc_outside.
    assert (V : (if Rlt_dec (sqrt (dx ^ 2 + (2 * dmax * sin r / 2) ^ 2)) dmax then do q <- fdiv (2 * dmax * sin r / 2) dmax; do a <- np_arcsin q; do m <- fdiv dx (cos a); Ok (m, a)
      else if Rlt_dec dmin dx then Err ValueError else do q <- fdiv dx dmin; do a <- np_arccos q; Ok (dmin, a)) = Ok (dmin, r)).
    { destruct (Rlt_dec _ _).
      - rewrite fdiv_ok by lra. cbn [bind]. rewrite Q, np_arcsin_ok by lra. cbn [bind]. rewrite asin_sin by lra. rewrite fdiv_ok by lra. cbn [bind]. do 2 f_equal. unfold dx. field. lra.
      - destruct (Rlt_dec dmin dx) as [B|B]; [exfalso; unfold dx in B; nra|]. rewrite fdiv_ok by lra. cbn [bind]. rewrite X, np_arccos_ok by lra. cbn [bind]. rewrite acos_cos by lra. auto. }
    rewrite V. cbn [bind]. rewrite fdiv_ok by lra. cbn [bind]. rewrite Q, np_arcsin_ok by lra. cbn [bind]. rewrite fdiv_ok by lra. cbn [bind]. rewrite X, np_arccos_ok by lra. cbn [bind]. rewrite acos_cos, asin_sin by lra. rewrite Rmin_left by lra. auto.
Qed.
Lemma size_is : forall dr rr de, 0 <= ra_width rr < 360 -> 
  ctb_boxsize dr rr de = V (snd dr - fst dr * Rmin (cos (ra_width rr / 2 * PI / 180)) (cos (Rabs (snd de - fst de) / 2 * PI / 180))) (2 * snd dr * sin (ra_width rr / 2 * PI / 180)) (2 * snd dr * sin (Rabs (snd de - fst de) / 2 * PI / 180)).
Proof. intros dr rr de W. unfold ctb_boxsize. cbv zeta. destruct (ctb_rarange_spec rr W) as (k & -> & ->). replace (fst rr + 360 * IZR k + ra_width rr - (fst rr + 360 * IZR k)) with (ra_width rr) by ring. rewrite (Rabs_right (ra_width rr)) by lra. auto. Qed.
Lemma box_back : forall dmin dmax r h, 0 <= dmin <= dmax -> 0 < dmax -> 0 <= h < PI / 2 -> 0 <= r < PI / 2 ->
  box_to_cutsky (V (dmax - dmin * Rmin (cos r) (cos h)) (2 * dmax * sin r) (2 * dmax * sin h)) dmax dmin = Ok ((dmin, dmax), (- rad2deg r, rad2deg r), (- rad2deg h, rad2deg h)).
Proof.
  intros dmin dmax r h Hd Hm Hh Hr. pose proof PI_RGT_0 as P. unfold box_to_cutsky. cbn [vx vy vz]. cbv zeta. replace (dmax - (dmax - dmin * Rmin (cos r) (cos h))) with (dmin * Rmin (cos r) (cos h)) by ring.
  unfold Rltb. destruct (Rlt_dec (2 * dmax * sin r) (2 * dmax * sin h)) as [L|L].
  - assert (H : r < h). { destruct (Rle_or_lt h r) as [G|]; auto. exfalso. assert (sin h <= sin r) by (destruct (Req_dec h r); [subst; lra|]; left; apply sin_increasing_1; lra). nra. }
    rewrite Rmin_right by (left; apply cos_decreasing_1; lra). rewrite view_back by lra. auto.
  - assert (H : h <= r). { destruct (Rle_or_lt h r) as [G|G]; auto. exfalso. assert (sin r < sin h) by (apply sin_increasing_1; lra). nra. }
    rewrite Rmin_left by (destruct (Req_dec h r); [subst; lra|]; left; apply cos_decreasing_1; lra). rewrite view_back by lra. auto.
Qed.

(** The box of a region gives back its distances and its widths: RA ranges may cross 360 and start anywhere; Dec ranges may be written in any order. *)
Theorem C97_ranges : forall dr rr de, 0 <= fst dr <= snd dr -> 0 < snd dr -> 0 <= ra_width rr < 180 -> Rabs (snd de - fst de) < 180 ->
  exists b s, cutsky_to_box dr rr de = Ok (b, s) /\
  box_to_cutsky b (snd dr) (fst dr) = Ok (dr, (- (ra_width rr / 2), ra_width rr / 2), (- (Rabs (snd de - fst de) / 2), Rabs (snd de - fst de) / 2)).
Proof.
  intros dr rr de Hd Hm Hr Hh. destruct (ctb_ok dr rr de) as (s & E & _). exists (ctb_boxsize dr rr de), s. split; auto. rewrite size_is by lra.
  pose proof PI_RGT_0. pose proof (Rabs_pos (snd de - fst de)). rewrite box_back; try lra; try nra.
  rewrite !rad2deg_half. destruct dr; auto.
Qed.
Print Assumptions C97_ranges.

(** Over half a turn the width of the region cannot be told from that of the rest of the turn. *)
Theorem C97_wide : forall dmax rr de, 0 < dmax -> 180 < ra_width rr < 360 -> Rabs (snd de - fst de) < 180 ->
  exists b s, cutsky_to_box (0, dmax) rr de = Ok (b, s) /\
  box_to_cutsky b dmax 0 = Ok ((0, dmax), (- ((360 - ra_width rr) / 2), (360 - ra_width rr) / 2), (- (Rabs (snd de - fst de) / 2), Rabs (snd de - fst de) / 2)).
Proof.
  intros dmax rr de Hm Hr Hh. destruct (ctb_ok (0, dmax) rr de) as (s & E & _). exists (ctb_boxsize (0, dmax) rr de), s. split; auto. rewrite size_is by lra.
  pose proof PI_RGT_0. pose proof (Rabs_pos (snd de - fst de)). cbn [fst snd]. rewrite <- sin_PI_x. replace (PI - ra_width rr / 2 * PI / 180) with ((360 - ra_width rr) / 2 * PI / 180) by field.
  replace (dmax - 0 * Rmin (cos (ra_width rr / 2 * PI / 180)) (cos (Rabs (snd de - fst de) / 2 * PI / 180))) with (dmax - 0 * Rmin (cos ((360 - ra_width rr) / 2 * PI / 180)) (cos (Rabs (snd de - fst de) / 2 * PI / 180))) by ring.
  rewrite box_back; try lra; try nra. rewrite !rad2deg_half. auto.
Qed.
Print Assumptions C97_wide.
Theorem C97_wide_refuted : exists b s rr, ra_width rr = 270 /\ cutsky_to_box (0, 1) rr (-10, 10) = Ok (b, s) /\ box_to_cutsky b 1 0 = Ok ((0, 1), (- 45, 45), (- 10, 10)).
Proof.
  assert (W : ra_width (300, 210) = 270) by (unfold ra_width; cbn [fst snd]; destruct (Rlt_dec 210 300); lra).
  destruct (C97_wide 1 (300, 210) (-10, 10)) as (b & s & E & B); [lra|rewrite W; lra| |].
  - cbn [fst snd]. rewrite Rabs_right; lra.
  - exists b, s, (300, 210). repeat split; auto. rewrite B, W. cbn [fst snd]. rewrite Rabs_right by lra. repeat f_equal; field.
Qed.
Print Assumptions C97_wide_refuted.

(** For half a turn exactly the minimum distance is lost: the observer is on the near face, and the range starts at 0. *)
Theorem C97_half_turn : forall dr rr de, 0 <= fst dr <= snd dr -> 0 < snd dr -> ra_width rr = 180 -> Rabs (snd de - fst de) < 180 ->
  exists b s, cutsky_to_box dr rr de = Ok (b, s) /\ box_to_cutsky b (snd dr) (fst dr) = Ok ((0, snd dr), (- 90, 90), (- (Rabs (snd de - fst de) / 2), Rabs (snd de - fst de) / 2)).
Proof.
  intros [dmin dmax] rr de Hd Hm Hr Hh. cbn [fst snd] in *. destruct (ctb_ok (dmin, dmax) rr de) as (s & E & _). exists (ctb_boxsize (dmin, dmax) rr de), s. split; auto. rewrite size_is by lra.
  pose proof PI_RGT_0. pose proof (Rabs_pos (snd de - fst de)). set (w := Rabs (snd de - fst de)) in *. cbn [fst snd]. rewrite Hr. replace (180 / 2 * PI / 180) with (PI / 2) by field. rewrite cos_PI2, sin_PI2.
  set (h := w / 2 * PI / 180). assert (Hh' : 0 <= h < PI / 2) by (unfold h; nra). assert (C : 0 < cos h) by (apply cos_gt_0; lra). assert (S : 0 <= sin h) by (apply sin_ge_0; lra). assert (S1 : sin h < 1) by (rewrite <- sin_PI2; apply sin_increasing_1; lra).
  rewrite Rmin_left by lra. unfold box_to_cutsky. cbn [vx vy vz]. cbv zeta. replace (dmax - (dmax - dmin * 0)) with 0 by ring. unfold Rltb. destruct (Rlt_dec (2 * dmax * 1) (2 * dmax * sin h)); [exfalso; nra|].
  destruct (Rle_dec 0 0); [|lra]. unfold btc_inside. rewrite !fdiv_ok by lra. cbn [bind]. replace (2 * dmax * 1 / 2 / dmax) with 1 by (field; lra). replace (2 * dmax * sin h / 2 / dmax) with (sin h) by (field; lra).
  destruct (Rlt_dec 1 1); [lra|]. rewrite Rabs_R0. replace (0 / dmax) with 0 by (field; lra). destruct (Rlt_dec 0 1); [|lra]. rewrite np_arcsin_ok by lra. cbn [bind]. destruct (Rlt_dec (sin h) 1); [|lra]. rewrite np_arcsin_ok by lra. cbn [bind]. rewrite asin_0, asin_sin by lra.
  unfold h. rewrite rad2deg_half. replace (rad2deg (0 + PI / 2)) with 90 by (unfold rad2deg; field; lra). auto.
Qed.
Print Assumptions C97_half_turn.
Theorem C97_half_turn_refuted : exists b s dr, dr = (1, 2) /\ cutsky_to_box dr (0, 180) (-10, 10) = Ok (b, s) /\ box_to_cutsky b 2 1 = Ok ((0, 2), (- 90, 90), (- 10, 10)).
Proof.
  assert (W : ra_width (0, 180) = 180) by (unfold ra_width; cbn [fst snd]; destruct (Rlt_dec 180 0); lra).
  destruct (C97_half_turn (1, 2) (0, 180) (-10, 10)) as (b & s & E & B); cbn [fst snd]; try lra; auto; [rewrite Rabs_right; lra|].
  exists b, s, (1, 2). repeat split; auto. cbn [fst snd] in B. rewrite B. rewrite Rabs_right by lra. repeat f_equal; field.
Qed.
Print Assumptions C97_half_turn_refuted.

(** Half widths in degrees, through the wrapping of angles. *)
Lemma sym_width : forall e, 0 <= e -> e < PI -> 0 <= ra_width (- rad2deg e, rad2deg e) < 360 /\ ra_width (- rad2deg e, rad2deg e) / 2 * PI / 180 = e.
Proof.
  intros e H0 H1. pose proof PI_RGT_0. assert (P : 0 <= rad2deg e) by (apply rad2deg_nonneg; auto). unfold ra_width. cbn [fst snd]. destruct (Rlt_dec (rad2deg e) (- rad2deg e)); [lra|].
  assert (L : rad2deg e < 180) by (unfold rad2deg; apply (Rmult_lt_reg_r PI); auto; unfold Rdiv; rewrite Rmult_assoc, Rinv_l by lra; lra). split; [lra|]. unfold rad2deg. field. lra.
Qed.
Lemma sym_dec : forall e, 0 <= e -> Rabs (rad2deg e - - rad2deg e) / 2 * PI / 180 = e.
Proof. intros e H. pose proof PI_RGT_0. assert (P : 0 <= rad2deg e) by (apply rad2deg_nonneg; auto). rewrite Rabs_right by lra. unfold rad2deg. field. lra. Qed.
Lemma full_width : ctb_rarange (- rad2deg PI, rad2deg PI) = (180, 180).
Proof.
  assert (E : rad2deg PI = 180) by (unfold rad2deg; pose proof PI_RGT_0; field; lra). rewrite E. unfold ctb_rarange. cbn [fst snd]. rewrite (wrap_id_deg 180) by lra. replace (wrap_angle true (Ropp 180)) with 180.
  - destruct (Rlt_dec 180 180); [lra|auto].
  - rewrite <- (wrap_shift true (Ropp 180) 1). unfold turn. replace (Ropp 180 + 1 * 360) with 180 by ring. rewrite wrap_id_deg; lra.
Qed.
Lemma sym_size : forall m dmax e h, 0 <= e <= PI -> 0 <= h -> (m = 0 \/ e < PI) ->
  ctb_boxsize (m, dmax) (- rad2deg e, rad2deg e) (- rad2deg h, rad2deg h) = V (dmax - m * Rmin (cos e) (cos h)) (2 * dmax * sin e) (2 * dmax * sin h).
Proof.
  intros m dmax e h He Hh Hm. destruct (Req_dec e PI) as [->|N].
  - destruct Hm as [->|]; [|lra]. unfold ctb_boxsize. rewrite full_width. cbn [fst snd]. rewrite sym_dec by auto. replace (Rabs (180 - 180) / 2 * PI / 180) with 0 by (rewrite Rminus_diag_eq, Rabs_R0 by auto; field). rewrite sin_0, sin_PI. f_equal; ring.
  - destruct (sym_width e) as [W E]; try lra. rewrite size_is by auto. cbn [fst snd]. rewrite E, sym_dec by auto. auto.
Qed.
Lemma outside_m : forall b1 b2 dx dmax dmin m e0 e1, 0 < dmax -> 0 <= b1 -> 0 < dx -> dmin <= dmax -> btc_outside b1 b2 dx dmax dmin = Ok (m, e0, e1) -> m <= dmax.
Proof.
  intros b1 b2 dx dmax dmin m e0 e1 Hm Hb Hx Hd H. unfold btc_outside in H.
  destruct (Rlt_dec (sqrt (dx ^ 2 + (b1 / 2) ^ 2)) dmax) as [L|L].
  - rewrite fdiv_ok in H by lra. cbn [bind] in H. destruct (np_arcsin (b1 / 2 / dmax)) as [a|] eqn:A; [|discriminate]. apply np_arcsin_inv in A as [R0 ->]. cbn [bind] in H.
    destruct (fdiv dx (cos (asin (b1 / 2 / dmax)))) as [q|] eqn:F; [|discriminate]. apply fdiv_inv in F as [N ->]. cbn [bind] in H. destruct (fdiv (b2 / 2) dmax); [|discriminate]. cbn [bind] in H. destruct (np_arcsin _) in H; [|discriminate]. cbn [bind] in H.
    destruct (fdiv dx _) in H; [|discriminate]. cbn [bind] in H. destruct (np_arccos _) in H; [|discriminate]. cbn [bind] in H. injection H as <- _ _.
    rewrite cos_asin in * by auto. set (c := sqrt (1 - (b1 / 2 / dmax)²)) in *. assert (C : 0 < c) by (pose proof (sqrt_pos (1 - (b1 / 2 / dmax)²)); unfold c in *; lra).
    apply (Rmult_le_reg_r c); auto. unfold Rdiv. rewrite Rmult_assoc, Rinv_l, Rmult_1_r by lra.
    assert (CC : c * c = 1 - (b1 / 2 / dmax)²). { apply sqrt_sqrt. destruct (Rle_or_lt 0 (1 - (b1 / 2 / dmax)²)); auto. exfalso. unfold c in C. rewrite sqrt_neg_0 in C by lra. lra. }
    assert (S0 : dx ^ 2 + (b1 / 2) ^ 2 < dmax * dmax). { assert (G : 0 <= dx ^ 2 + (b1 / 2) ^ 2) by nra. pose proof (sqrt_sqrt _ G) as T. pose proof (sqrt_pos (dx ^ 2 + (b1 / 2) ^ 2)). nra. }
    assert (D : dx * dx < (dmax * c) * (dmax * c)). { replace (dmax * c * (dmax * c)) with (dmax * dmax * (c * c)) by ring. rewrite CC. unfold Rsqr. replace (dmax * dmax * (1 - b1 / 2 / dmax * (b1 / 2 / dmax))) with (dmax * dmax - (b1 / 2) ^ 2) by (field; lra). nra. }
    assert (0 < dmax * c) by (apply Rmult_lt_0_compat; auto). nra.
  - destruct (Rlt_dec dmin dx); [discriminate|]. destruct (fdiv dx dmin) eqn:F; [|discriminate]. apply fdiv_inv in F as [N ->]. cbn [bind] in H. destruct (np_arccos (dx / dmin)) in H; [|discriminate]. cbn [bind] in H. destruct (fdiv (b2 / 2) dmax); [|discriminate]. cbn [bind] in H. destruct (np_arcsin _) in H; [|discriminate]. cbn [bind] in H.
    destruct (fdiv dx dmin) in H; [|discriminate]. cbn [bind] in H. destruct (np_arccos _) in H; [|discriminate]. cbn [bind] in H. injection H as <- _ _. auto.
Qed.

(** The ranges of a box need a box that is not larger. *)
Theorem C97_boxes : forall b dmax dmin dr rr de, 0 < vx b -> 0 <= vy b -> 0 <= vz b -> 0 < dmax -> dmin <= dmax -> box_to_cutsky b dmax dmin = Ok (dr, rr, de) ->
  exists b' s, cutsky_to_box dr rr de = Ok (b', s) /\ vx b' = Rmin (vx b) dmax /\ vy b' <= vy b /\ vz b' <= vz b.
Proof.
  intros b dmax dmin dr rr de Hx Hy Hz Hm Hd H. destruct (ctb_ok dr rr de) as (s & E & _). exists (ctb_boxsize dr rr de), s. split; auto. clear E.
  pose proof PI_RGT_0 as P. unfold box_to_cutsky in H. cbv zeta in H. set (b1 := if Rltb (vy b) (vz b) then vz b else vy b) in *. set (b2 := if Rltb (vy b) (vz b) then vy b else vz b) in *.
  assert (B : 0 <= b2 <= b1) by (unfold b1, b2, Rltb; destruct (Rlt_dec (vy b) (vz b)); lra).
  assert (K : exists m e0 e1, (if Rle_dec (dmax - vx b) 0 then btc_inside b1 b2 (dmax - vx b) dmax else btc_outside b1 b2 (dmax - vx b) dmax dmin) = Ok (m, e0, e1) /\ 0 <= e0 <= PI /\ 0 <= e1 <= PI / 2 /\ (m = 0 \/ e0 < PI) /\
    dmax - m * Rmin (cos e0) (cos e1) = Rmin (vx b) dmax /\ 2 * dmax * sin e0 <= b1 /\ 2 * dmax * sin e1 <= b2).
  { destruct (Rle_dec (dmax - vx b) 0) as [L|L].
    - destruct (btc_inside_ok b1 b2 (dmax - vx b) dmax Hm B L) as (e0 & e1 & -> & R0 & R1 & S1 & _ & S0). exists 0, e0, e1. split; [auto|]. split; [lra|]. split; [lra|]. split; [auto|]. rewrite (Rmin_right (vx b)) by lra. split; [ring|]. split; [|lra].
      pose proof (SIN_bound e0). destruct S0 as [[_ S0]|S0]; nra.
    - destruct (btc_outside b1 b2 (dmax - vx b) dmax dmin) as [[[m e0] e1]|] eqn:O; [|discriminate]. exists m, e0, e1. destruct (btc_outside_ok b1 b2 (dmax - vx b) dmax dmin m e0 e1 Hm B ltac:(lra) O) as (M & R0 & R1 & C0 & C1 & S1 & S0).
      pose proof (outside_m b1 b2 (dmax - vx b) dmax dmin m e0 e1 Hm ltac:(lra) ltac:(lra) Hd O) as MD. specialize (S0 MD). split; [auto|]. split; [lra|]. split; [lra|]. split; [right; lra|]. rewrite (Rmin_left (vx b)) by lra. rewrite C0, Rmin_left by lra. split; [field; lra|]. lra. }
  destruct K as (m & e0 & e1 & K & R0 & R1 & M & X & S0 & S1). rewrite K in H. cbn [bind] in H. unfold b1, b2 in S0, S1. destruct (Rltb (vy b) (vz b)); injection H as <- <- <-.
  - rewrite sym_size by (lra || (right; lra)). cbn [vx vy vz]. rewrite (Rmin_comm (cos e1)). auto.
  - rewrite sym_size by (lra || auto). cbn [vx vy vz]. auto.
Qed.
Print Assumptions C97_boxes.

(** The same box, when the sides limit the view from outside; the part in front of the observer, when they do from inside. *)
Theorem C97_same_box : forall b dmax dmin, 0 < vx b -> 0 <= vy b -> 0 <= vz b -> 0 < dmax ->
  (vx b < dmax -> (dmax - vx b) ^ 2 + (vy b / 2) ^ 2 < dmax ^ 2 -> (dmax - vx b) ^ 2 + (vz b / 2) ^ 2 < dmax ^ 2 ->
    exists dr rr de s, box_to_cutsky b dmax dmin = Ok (dr, rr, de) /\ cutsky_to_box dr rr de = Ok (b, s)) /\
  (dmax <= vx b -> vy b < 2 * dmax -> vz b < 2 * dmax -> exists dr rr de s, box_to_cutsky b dmax dmin = Ok (dr, rr, de) /\ cutsky_to_box dr rr de = Ok (V dmax (vy b) (vz b), s)).
Proof.
  intros b dmax dmin Hx Hy Hz Hm. pose proof PI_RGT_0 as P.
  assert (AS : forall t, 0 <= t -> t < 2 * dmax -> 0 <= t / 2 / dmax < 1 /\ 2 * dmax * sin (asin (t / 2 / dmax)) = t /\ 0 <= asin (t / 2 / dmax) < PI / 2).
  { intros t T0 T1. assert (Q : 0 <= t / 2 / dmax < 1) by (split; [apply div_range; lra|apply (Rmult_lt_reg_r dmax); auto; unfold Rdiv; rewrite Rmult_assoc, Rinv_l by lra; lra]). split; auto. rewrite sin_asin by lra. split; [field; lra|].
    split; [apply asin_range; lra|]. destruct (asin_bound_lt (t / 2 / dmax)); lra. }
  unfold box_to_cutsky. cbv zeta. set (b1 := if Rltb (vy b) (vz b) then vz b else vy b). set (b2 := if Rltb (vy b) (vz b) then vy b else vz b).
  assert (B : 0 <= b2 <= b1) by (unfold b1, b2, Rltb; destruct (Rlt_dec (vy b) (vz b)); lra).
  split.
  - intros L Y Z. set (dx := dmax - vx b) in *. assert (D0 : 0 < dx) by (unfold dx; lra). assert (S : dx ^ 2 + (b1 / 2) ^ 2 < dmax ^ 2) by (unfold b1; destruct (Rltb (vy b) (vz b)); auto).
    assert (L1 : b1 < 2 * dmax) by nra. destruct (AS b1) as (Q1 & T1 & A1); try lra. destruct (AS b2) as (Q2 & T2 & A2); try lra. set (a1 := asin (b1 / 2 / dmax)) in *. set (a2 := asin (b2 / 2 / dmax)) in *.
    assert (C1 : 0 < cos a1) by (apply cos_gt_0; lra). assert (SQ : sqrt (dx ^ 2 + (b1 / 2) ^ 2) < dmax) by (rewrite <- (sqrt_square dmax) by lra; apply sqrt_lt_1; nra).
    assert (A21 : a2 <= a1). { destruct (Rle_or_lt a2 a1); auto. exfalso. assert (sin a1 < sin a2) by (apply sin_increasing_1; lra). nra. }
    assert (K : btc_outside b1 b2 dx dmax dmin = Ok (dx / cos a1, a1, a2)).
    { unfold btc_outside. destruct (Rlt_dec _ _); [|contradiction]. rewrite !fdiv_ok by lra. cbn [bind]. rewrite np_arcsin_ok by lra. cbn [bind]. fold a1. rewrite fdiv_ok by lra. cbn [bind]. rewrite np_arcsin_ok by lra. cbn [bind]. fold a2. 
      assert (N : 0 < dx / cos a1) by (apply Rdiv_lt_0_compat; lra). rewrite fdiv_ok by lra. cbn [bind]. replace (dx / (dx / cos a1)) with (cos a1) by (field; lra). pose proof (COS_bound a1). rewrite np_arccos_ok by lra. cbn [bind]. rewrite acos_cos, Rmin_left by lra. auto. }
    destruct (Rle_dec dx 0); [lra|]. rewrite K. cbn [bind].
    assert (CM : cos a1 <= cos a2) by (destruct (Req_dec a2 a1) as [->|]; [lra|]; left; apply cos_decreasing_1; lra).
    assert (XX : dmax - dx / cos a1 * cos a1 = vx b) by (unfold dx; field; lra).
    unfold b1, b2 in T1, T2. destruct (Rltb (vy b) (vz b)).
    + destruct (ctb_ok (dx / cos a1, dmax) (- rad2deg a2, rad2deg a2) (- rad2deg a1, rad2deg a1)) as (s & E & _). do 4 eexists. split; [reflexivity|]. rewrite E. rewrite sym_size by (lra || (right; lra)). rewrite Rmin_right, XX, T1, T2 by lra. destruct b; reflexivity.
    + destruct (ctb_ok (dx / cos a1, dmax) (- rad2deg a1, rad2deg a1) (- rad2deg a2, rad2deg a2)) as (s & E & _). do 4 eexists. split; [reflexivity|]. rewrite E. rewrite sym_size by (lra || (right; lra)). rewrite Rmin_left, XX, T1, T2 by lra. destruct b; reflexivity.
  - intros L Y Z. destruct (Rle_dec (dmax - vx b) 0); [|lra]. assert (L1 : b1 < 2 * dmax) by (unfold b1; destruct (Rltb (vy b) (vz b)); auto). destruct (AS b1) as (Q1 & T1 & A1); try lra. destruct (AS b2) as (Q2 & T2 & A2); try lra.
    unfold btc_inside. rewrite !fdiv_ok by lra. cbn [bind]. destruct (Rlt_dec (b1 / 2 / dmax) 1); [|lra]. rewrite !np_arcsin_ok by lra. cbn [bind]. set (a1 := asin (b1 / 2 / dmax)) in *. set (a2 := asin (b2 / 2 / dmax)) in *. unfold b1, b2 in T1, T2. destruct (Rltb (vy b) (vz b)).
    + destruct (ctb_ok (0, dmax) (- rad2deg a2, rad2deg a2) (- rad2deg a1, rad2deg a1)) as (s & E & _). do 4 eexists. split; [reflexivity|]. rewrite E. rewrite sym_size by (lra || auto). rewrite T1, T2. do 3 f_equal. ring.
    + destruct (ctb_ok (0, dmax) (- rad2deg a1, rad2deg a1) (- rad2deg a2, rad2deg a2)) as (s & E & _). do 4 eexists. split; [reflexivity|]. rewrite E. rewrite sym_size by (lra || auto). rewrite T1, T2. do 3 f_equal. ring.
Qed.
Print Assumptions C97_same_box.

(** A minimum distance above the maximum one is taken, and the ranges need a larger box. *)
Theorem C97_reversed_refuted : exists dr rr de b' s, box_to_cutsky (V 1 (7 / 2) 0) 2 10 = Ok (dr, rr, de) /\ cutsky_to_box dr rr de = Ok (b', s) /\ 7 / 2 < vy b'.
Proof.
  pose proof PI_RGT_0 as P. assert (B : -1 <= 1 / 10 <= 1) by lra. pose proof (acos_bound (1 / 10)) as AB. assert (C : cos (acos (1 / 10)) = 1 / 10) by (apply cos_acos; lra). set (a := acos (1 / 10)) in *.
  assert (A : a < PI) by (destruct (Req_dec a PI) as [E|]; [rewrite E, cos_PI in C; lra|lra]). assert (S : 9 / 10 < sin a). { assert (0 <= sin a) by (apply sin_ge_0; lra). pose proof (sin2_cos2 a) as T. unfold Rsqr in T. rewrite C in T. nra. }
  assert (K : box_to_cutsky (V 1 (7 / 2) 0) 2 10 = Ok ((10, 2), (- rad2deg a, rad2deg a), (- rad2deg 0, rad2deg 0))).
  { unfold box_to_cutsky. cbn [vx vy vz]. cbv zeta. unfold Rltb. destruct (Rlt_dec (7 / 2) 0); [lra|]. destruct (Rle_dec (2 - 1) 0); [lra|]. unfold btc_outside.
    destruct (Rlt_dec _ 2) as [L|_]. { exfalso. assert (G : 0 <= (2 - 1) ^ 2 + (7 / 2 / 2) ^ 2) by nra. pose proof (sqrt_sqrt _ G). pose proof (sqrt_pos ((2 - 1) ^ 2 + (7 / 2 / 2) ^ 2)). nra. }
    destruct (Rlt_dec 10 (2 - 1)); [lra|]. rewrite fdiv_ok by lra. cbn [bind]. replace ((2 - 1) / 10) with (1 / 10) by field. rewrite np_arccos_ok by lra. cbn [bind]. rewrite fdiv_ok by lra. cbn [bind]. replace (0 / 2 / 2) with 0 by field. rewrite np_arcsin_ok by lra. cbn [bind].
    rewrite fdiv_ok by lra. cbn [bind]. replace ((2 - 1) / 10) with (1 / 10) by field. rewrite np_arccos_ok by lra. cbn [bind]. fold a. rewrite asin_0, Rmin_left by lra. auto. }
  destruct (ctb_ok (10, 2) (- rad2deg a, rad2deg a) (- rad2deg 0, rad2deg 0)) as (s & E & _). do 5 eexists. split; [exact K|]. split; [exact E|]. rewrite sym_size by (lra || (right; lra)). cbn [vy]. lra.
Qed.
Print Assumptions C97_reversed_refuted.

Example C97_case : (0 <= fst (500, 1000) <= snd (500, 1000) /\ 0 < snd (500, 1000) /\ 0 <= ra_width (330, 60) < 180 /\ Rabs (snd (40, 10) - fst (40, 10)) < 180) /\
  (vx (V 1 2 1) < 2 /\ (2 - vx (V 1 2 1)) ^ 2 + (vy (V 1 2 1) / 2) ^ 2 < 2 ^ 2 /\ (2 - vx (V 1 2 1)) ^ 2 + (vz (V 1 2 1) / 2) ^ 2 < 2 ^ 2) /\
  (180 < ra_width (0, 300) < 360).
Proof. unfold ra_width. cbn [fst snd vx vy vz]. destruct (Rlt_dec 60 330), (Rlt_dec 300 0); try lra. rewrite Rabs_left by lra. lra. Qed.
