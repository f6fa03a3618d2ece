(** What a user of EuclideanIsometry relies on, stated on points of space only. *)
Require Import Reals List String ZArith.
From Verif Require Import Vec3 Isometry_Model.
Open Scope R_scope.

(** Euclidean distance between two points. *)
Definition dist3 (p q : vec) : R :=
  sqrt ((vx p - vx q) ^ 2 + (vy p - vy q) ^ 2 + (vz p - vz q) ^ 2).

(** Signed volume of the tetrahedron (p, q, r, s), times six: the determinant of the three edges from p. *)
Definition signed_volume (p q r s : vec) : R :=
  let a := vsub q p in let b := vsub r p in let c := vsub s p in
  vx a * (vy b * vz c - vz b * vy c) - vy a * (vx b * vz c - vz b * vx c) + vz a * (vx b * vy c - vy b * vx c).

(** A rigid motion: distances and handedness are preserved. *)
Definition rigid_motion (f : vec -> vec) : Prop :=
  (forall p q, dist3 (f p) (f q) = dist3 p q) /\
  (forall p q r s, signed_volume (f p) (f q) (f r) (f s) = signed_volume p q r s).

(** [g] is [f] followed by a motion [h]. *)
Definition followed_by (f h g : vec -> vec) : Prop := forall p, g p = h (f p).

(** Turning space about the point [c] by the linear map [l]. *)
Definition turn_about (c : vec) (l : vec -> vec) (p : vec) : vec := vadd c (l (vsub p c)).

(** Same direction: equal up to a positive factor. *)
Definition same_direction (a b : vec) : Prop := exists k, 0 < k /\ vscale k a = b.

(** Documented meaning of the arguments (shift, axis) of a translation. *)
Inductive shift_means : shift_arg -> axis_arg -> vec -> Prop :=
| sm_vec : forall v, shift_means (ShVec v) AxNone v
| sm_all : forall r, shift_means (ShScalar r) AxNone (V r r r)
| sm_x : forall r, shift_means (ShScalar r) (AxStr "x") (V r 0 0)
| sm_y : forall r, shift_means (ShScalar r) (AxStr "y") (V 0 r 0)
| sm_z : forall r, shift_means (ShScalar r) (AxStr "z") (V 0 0 r)
| sm_0 : forall r, shift_means (ShScalar r) (AxIdx 0) (V r 0 0)
| sm_1 : forall r, shift_means (ShScalar r) (AxIdx 1) (V 0 r 0)
| sm_2 : forall r, shift_means (ShScalar r) (AxIdx 2) (V 0 0 r).
