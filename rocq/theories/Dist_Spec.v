(** What a conversion from distance to redshift is. *)
Require Import Reals List.
From Verif Require Import Base Mask_Model Smear_Spec.
Import ListNotations.
Open Scope R_scope.

(** Distances increase with redshift. *)
Definition grows (distance : R -> R) : Prop := forall a b, 0 <= a < b -> distance a < distance b.

(** Contract of scipy's splines with s = 0: orders 1 to 5; more points than the order, as many values, in increasing order; then, and
    only then, there is a spline, and it passes through the points. Of order 1 it is linear between points. Through four points the
    spline of order 3 is the cubic polynomial. *)
Definition scipy_spline (spline : nat -> list R -> list R -> result (R -> R)) : Prop :=
  (forall k x y f, spline k x y = Ok f -> (1 <= k <= 5)%nat /\ (k < length x)%nat /\ length x = length y /\ rising x /\ forall i, (i < length x)%nat -> f (nth i x 0) = nth i y 0) /\
  (forall k x y, (1 <= k <= 5)%nat -> (k < length x)%nat -> length x = length y -> rising x -> exists f, spline k x y = Ok f) /\
  (forall x y, spline 1%nat x y = lin_spline x y) /\
  (forall a b c d p q r s f t, spline 3%nat [a; b; c; d] [p; q; r; s] = Ok f -> f t = cubic a b c d p q r s t).

(** The tabulated redshifts: 0, and [nz] redshifts in geometric progression from 1e-8 to zmax. *)
Definition ratio (zmax : R) (nz : nat) : R := Rpower (zmax * 100000000) (/ INR (nz - 1)).
Definition tabulated (zmax : R) (nz : nat) (z : R) : Prop := z = 0 \/ exists i, (i < nz)%nat /\ z = / 100000000 * ratio zmax nz ^ i.
