(** Specification of rounding. *)
Require Import Reals ZArith.
From Flocq Require Import Core.
From Verif Require Import Base Vec3.
Open Scope R_scope.

(** What every rounding mode of every format does: it keeps order, and numbers of the format. *)
Definition rounding (rnd : R -> R) : Prop := (forall x y, x <= y -> rnd x <= rnd y) /\ (forall x, rnd (rnd x) = rnd x) /\ rnd 0 = 0.
(** Numbers of the format. *)
Definition float_of (rnd : R -> R) (x : R) : Prop := rnd x = x.
(** Double precision, rounding to nearest, ties to even; exponents are not bounded above (overflow is left out). *)
Definition double : R -> R := round radix2 (FLT_exp (-1074) 53) ZnearestE.
(** One rounding changes a number by this fraction at most. *)
Definition unit_roundoff : R := / 2 ^ 53.
(** Coordinates whose squares do not underflow. *)
Definition visible (x : R) : Prop := x = 0 \/ / 2 ^ 500 <= Rabs x.
(** Positions with such coordinates, and with floating-point coordinates. *)
Definition visible_position (p : vec) : Prop := visible (vx p) /\ visible (vy p) /\ visible (vz p).
Definition float_position (p : vec) : Prop := float_of double (vx p) /\ float_of double (vy p) /\ float_of double (vz p).
