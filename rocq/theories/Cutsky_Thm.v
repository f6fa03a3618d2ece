(** Theorems C18, C19: survey regions and boxes. *)
Require Import Reals Lra ZArith List Bool.
From Verif Require Import Base Vec3 Isometry_Model Sky_Model Cutsky_Model Cutsky_Spec Cutsky_Proof.
Open Scope R_scope.

(** C18. Observer inside the box (dmax no larger than the depth): the whole promised region is in the box. *)
Theorem C18_observer_inside_partial : forall b dmax dmin, 0 < dmax -> dmax <= vx b -> 0 <= vy b -> 0 <= vz b ->
  exists dr rr de, box_to_cutsky b dmax dmin = Ok (dr, rr, de) /\ dr = (0, dmax) /\
    forall p, in_region dr rr de p -> in_box_at b dmax p.
Proof. exact btc_inside_thm. Qed.
Print Assumptions C18_observer_inside_partial.
Example C18_case : 0 < 2 /\ 2 <= vx (V 3 2 4) /\ 0 <= vy (V 3 2 4) /\ 0 <= vz (V 3 2 4).
Proof. cbn; lra. Qed.

(** Observer outside the box: only the points of the two central arcs (RA = 0 or Dec = 0) are guaranteed to be in the box. *)
Theorem C18_observer_outside_partial : forall b dmax dmin dr rr de, 0 < vx b -> vx b < dmax -> 0 <= vy b -> 0 <= vz b ->
  box_to_cutsky b dmax dmin = Ok (dr, rr, de) ->
  forall d ra dec, fst dr <= d <= snd dr -> fst rr <= ra <= snd rr -> fst de <= dec <= snd de -> (ra = 0 \/ dec = 0) ->
  in_box_at b dmax (sky_point d ra dec).
Proof. exact btc_outside_thm. Qed.
Print Assumptions C18_observer_outside_partial.
Example C18_case2 : exists r, box_to_cutsky (V 1 2 2) 2 0 = Ok r.
Proof. eexists; apply btc_outside_example. Qed.

(** The full property fails there: a corner of the promised region is in front of the box. *)
Theorem C18_observer_outside_refuted :
  exists dr rr de p, box_to_cutsky (V 1 2 2) 2 0 = Ok (dr, rr, de) /\ in_region dr rr de p /\ ~ in_box_at (V 1 2 2) 2 p.
Proof. exact btc_outside_corner. Qed.
Print Assumptions C18_observer_outside_refuted.

(** For a box that is tallest along z and an observer inside, the declination range goes beyond the pole. *)
Theorem C18_dec_range_refuted : exists dr rr de, box_to_cutsky (V 3 2 4) 2 0 = Ok (dr, rr, de) /\ 90 < snd de.
Proof. exact btc_dec_beyond. Qed.
Print Assumptions C18_dec_range_refuted.

(** C19. Region symmetric about the equator, at most half a circle wide, starting at the observer (or with one angular width zero). *)
Theorem C19_covers_symmetric_partial : forall dr rr h, 0 <= fst dr <= snd dr -> 0 <= ra_width rr <= 180 -> 0 <= h <= 90 ->
  (fst dr = 0 \/ ra_width rr = 0 \/ h = 0) ->
  exists b s, cutsky_to_box dr rr (- h, h) = Ok (b, s) /\
  forall p, in_region dr rr (- h, h) p -> exists q, in_centred_box b q /\ transform s false q = p.
Proof. exact ctb_cover_thm. Qed.
Print Assumptions C19_covers_symmetric_partial.
Example C19_case : 0 <= fst (0, 1000) <= snd (0, 1000) /\ 0 <= ra_width (300, 40) <= 180 /\ 0 <= 30 <= 90 /\
  (fst (0, 1000) = 0 \/ ra_width (300, 40) = 0 \/ 30 = 0).
Proof. unfold ra_width; cbn. destruct (Rlt_dec 40 300); lra. Qed.

(** In all cases the axis of the box points to the middle of the ranges. *)
Theorem C19_axis_points_to_centre : forall dr rr de b s, cutsky_to_box dr rr de = Ok (b, s) -> 0 <= ra_width rr < 360 ->
  forall x, transform s false (V (x - (snd dr - vx b / 2)) 0 0) = sky_point x (fst rr + ra_width rr / 2) ((fst de + snd de) / 2).
Proof. exact ctb_axis. Qed.
Print Assumptions C19_axis_points_to_centre.

(** The full property fails for the full circle, for ranges wider than half a circle, for declination ranges off the equator,
    and at the corners of a shell. *)
Theorem C19_full_circle_refuted : exists b s p, cutsky_to_box (0, 100) (0, 360) (-10, 10) = Ok (b, s) /\
  in_region (0, 100) (0, 360) (-10, 10) p /\ ~ exists q, in_centred_box b q /\ transform s false q = p.
Proof. exact ctb_full_circle. Qed.
Print Assumptions C19_full_circle_refuted.
Theorem C19_wide_range_refuted : exists b s p, cutsky_to_box (0, 1) (0, 300) (0, 0) = Ok (b, s) /\
  in_region (0, 1) (0, 300) (0, 0) p /\ ~ exists q, in_centred_box b q /\ transform s false q = p.
Proof. exact ctb_wide. Qed.
Print Assumptions C19_wide_range_refuted.
Theorem C19_off_equator_refuted : exists b s p, cutsky_to_box (0, 1) (0, 180) (0, 60) = Ok (b, s) /\
  in_region (0, 1) (0, 180) (0, 60) p /\ ~ exists q, in_centred_box b q /\ transform s false q = p.
Proof. exact ctb_off_equator. Qed.
Print Assumptions C19_off_equator_refuted.
Theorem C19_shell_corner_refuted : exists b s p, cutsky_to_box (1, 1) (0, 120) (-60, 60) = Ok (b, s) /\
  in_region (1, 1) (0, 120) (-60, 60) p /\ ~ exists q, in_centred_box b q /\ transform s false q = p.
Proof. exact ctb_corner. Qed.
Print Assumptions C19_shell_corner_refuted.
