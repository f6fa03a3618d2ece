(** Small specification for the conversion between boxes and survey regions. *)
Require Import Reals ZArith.
From Verif Require Import Vec3 Isometry_Model.
Open Scope R_scope.

(** The point at distance d in the direction (ra, dec), angles in degrees. *)
Definition sky_point (d ra dec : R) : vec :=
  let t := PI / 180 in
  V (d * cos (dec * t) * cos (ra * t)) (d * cos (dec * t) * sin (ra * t)) (d * sin (dec * t)).

(** Right ascension [ra] is in the range (lo, hi) of the circle; hi < lo means that the range crosses 360. *)
Definition ra_in (range : R * R) (ra : R) : Prop :=
  exists k : Z, fst range <= ra + 360 * IZR k <= (if Rlt_dec (snd range) (fst range) then snd range + 360 else snd range).

(** The survey region: distance, RA and Dec in their ranges. *)
Definition in_region (drange rarange decrange : R * R) (p : vec) : Prop :=
  exists d ra dec, fst drange <= d <= snd drange /\ ra_in rarange ra /\ fst decrange <= dec <= snd decrange /\
    -90 <= dec <= 90 /\ p = sky_point d ra dec.

(** The box of size b seen from the observer at the origin: far face at x = dmax, centred in y and z. *)
Definition in_box_at (b : vec) (dmax : R) (p : vec) : Prop :=
  dmax - vx b <= vx p <= dmax /\ Rabs (vy p) <= vy b / 2 /\ Rabs (vz p) <= vz b / 2.

(** The box of size b centred on the origin. *)
Definition in_centred_box (b : vec) (p : vec) : Prop :=
  Rabs (vx p) <= vx b / 2 /\ Rabs (vy p) <= vy b / 2 /\ Rabs (vz p) <= vz b / 2.

(** Width of a right ascension range. *)
Definition ra_width (rr : R * R) : R := (if Rlt_dec (snd rr) (fst rr) then snd rr + 360 else snd rr) - fst rr.
