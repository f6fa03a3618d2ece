(** C102: a sheared box that loses no position in double precision. *)
Require Import Reals Lra Lia ZArith List Bool SpecFloat.
From Verif Require Import Base Vec3 Remap_Model Remap_Spec Wobble_Model Wobble_Spec Wobble_Proof3 Wobble_Proof4 Wobble_Proof6 Wobble_Proof7.
Import ListNotations.
Open Scope R_scope.

(** Box of size 1 sheared by (1, 1, 0), (0, 1, 0), (0, 0, 1): whatever the finite double-precision positions below 2^53, on faces or not, in the box or not,
    the transform of the array succeeds and every image is made of finite numbers. The basis of the repository's tests is not so lucky (C102_lost_refuted). *)
Theorem C102_shear_never_lost : exists cf : gcuboid spec_float,
  gcuboid_new binary64 (1, 1, 0)%Z (0, 1, 0)%Z (0, 0, 1)%Z (GV (of_Z binary64 1) (of_Z binary64 1) (of_Z binary64 1)) = Ok cf /\
  (forall f x, vec_holds 53 f x -> exists z y, gtransform1 binary64 cf f = Ok z /\ values z (vec_of_gvec y)) /\
  (forall l, (forall f, In f l -> exists x, vec_holds 53 f x) -> exists k, gtransform binary64 cf l = Ok k).
Proof. exists shear_double. split; [exact shear_double_new|]. split; [exact shear_never|exact shear_all]. Qed.
Print Assumptions C102_shear_never_lost.
(** A position on both diagonals. *)
Example C102_case_never : vec_holds 53 (GV (dyadic 1 1) (dyadic 1 1) (dyadic 3 3)) (GV (1 / 2) (1 / 2) (3 / 8)).
Proof. split; [|split]; cbn [gx gy gz]; apply holds_dyadic; try lia; num. Qed.

(** Why: with any rounding that is odd, two faces on the same plane looking opposite ways never both turn a position down, and both accept it only on the computed plane.
    Faces whose stored offsets are not exact opposites lack this. *)
Theorem C102_opposite_faces : forall rnd, (forall x, rnd (- x) = - rnd x) -> forall a b c d p,
  gtest (rounded rnd) (GPlane (GV (- a) (- b) (- c)) (- d)) p = - gtest (rounded rnd) (GPlane (GV a b c) d) p /\
  (gisin (rounded rnd) (GCell (0, 0, 0)%Z [GPlane (GV a b c) d]) p = true \/ gisin (rounded rnd) (GCell (0, 0, 0)%Z [GPlane (GV (- a) (- b) (- c)) (- d)]) p = true).
Proof. exact opposite_any. Qed.
Print Assumptions C102_opposite_faces.
Example C102_case_opposite : forall x, Round_Spec.double (- x) = - Round_Spec.double x.
Proof. exact double_opp. Qed.
