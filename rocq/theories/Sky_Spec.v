(** Small specification for the utilities of utils.py. *)
Require Import Reals ZArith List.
From Verif Require Import Vec3.
Open Scope R_scope.

(** A full turn, in degrees or radians. *)
Definition full_turn (degree : bool) : R := if degree then 360 else 2 * PI.

(** Two angles are the same direction: they differ by a whole number of turns. *)
Definition same_angle (degree : bool) (a b : R) : Prop := exists k : Z, a = b + IZR k * full_turn degree.

(** [p] is the orthogonal projection of [v] on the line spanned by [d]. *)
Definition is_projection (v d p : vec) : Prop :=
  (exists k, p = V (k * vx d) (k * vy d) (k * vz d)) /\
  (vx v - vx p) * vx d + (vy v - vy p) * vy d + (vz v - vz p) * vz d = 0.
