(** C101: what precision of sky coordinates means. *)
Require Import Reals ZArith.
From Verif Require Import Base Vec3 Sky_Model Sky_Spec Drift_Spec.
Open Scope R_scope.

(** A library whose cosine and sine are within [d] of the exact ones, whose arcsine is so between -1 and 1, and whose arctan2 has the relative accuracy [d]. *)
Definition library (d : R) (fcos fsin farcsin : R -> R) (farctan2 : R -> R -> R) : Prop :=
  accurate_fun d fcos cos /\ accurate_fun d fsin sin /\ (forall s, Rabs s <= 1 -> Rabs (farcsin s - asin s) <= d) /\
  forall y x, Rabs (farctan2 y x - arctan2 y x) <= d * Rabs (arctan2 y x).
(** An angle in radians, in the units asked for. *)
Definition in_units (degree : bool) (radians : R) : R := radians * full_turn degree / (2 * PI).
(** Two angles, within [e] of one another up to whole turns. *)
Definition same_within (degree : bool) (e a b : R) : Prop := exists k : Z, Rabs (a - b - IZR k * full_turn degree) <= e.
(** Distance from the polar axis. *)
Definition off_axis (p : vec) : R := sqrt (vx p * vx p + vy p * vy p).
(** Coordinates within [e]. *)
Definition coords_within (e : R) (p q : vec) : Prop := Rabs (vx p - vx q) <= e /\ Rabs (vy p - vy q) <= e /\ Rabs (vz p - vz q) <= e.
