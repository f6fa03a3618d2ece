(** Redshift space distortions, in words of geometry. *)
Require Import Reals List String ZArith.
From Verif Require Import Vec3 Isometry_Model Isometry_Spec.
Open Scope R_scope.

(** Documented meaning of the argument los: an axis by name or number, or the direction of a vector. *)
Inductive los_means : axis_arg -> vec -> Prop :=
| lm_x : los_means (AxStr "x") (V 1 0 0)
| lm_y : los_means (AxStr "y") (V 0 1 0)
| lm_z : los_means (AxStr "z") (V 0 0 1)
| lm_0 : los_means (AxIdx 0) (V 1 0 0)
| lm_1 : los_means (AxIdx 1) (V 0 1 0)
| lm_2 : los_means (AxIdx 2) (V 0 0 1)
| lm_vec : forall v u, same_direction v u -> vdot u u = 1 -> los_means (AxVec v) u.

(** A relation between the rows of same rank of three arrays, the third as long as the first. *)
Definition row_by_row (rel : vec -> vec -> vec -> Prop) (pos vel out : list vec) : Prop :=
  List.length out = List.length pos /\
  forall i p v q, nth_error pos i = Some p -> nth_error vel i = Some v -> nth_error out i = Some q -> rel p v q.

(** [q] is [p] moved by [f] times the component of [v] along the unit vector [u]. *)
Definition moved_along (u : vec) (f : R) (p v q : vec) : Prop :=
  vdot u u = 1 /\ q = vadd p (vscale (f * vdot v u) u).

(** The same along the direction from the observer (at the origin) to [p]. *)
Definition moved_radially (f : R) (p v q : vec) : Prop :=
  exists u, same_direction p u /\ moved_along u f p v q.
