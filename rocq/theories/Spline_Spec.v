(** Masks of any order: contract of splines, and what is promised. *)
Require Import Reals List.
From Verif Require Import Base Smear_Spec Spline_Model.
Import ListNotations.
Open Scope R_scope.

(** The table of a function. *)
Definition tabulates (f : R -> R) (z y : list R) : Prop := y = map f z.
(** scipy's interpolating splines. They are built only from tables with increasing redshifts, more of them than the order, and go through
    the table; they are zero outside; multiplying the values multiplies the spline; the table of a polynomial of degree 2 gives this polynomial (the
    order being at least 2), with its derivatives. *)
Definition splines (make : maker) : Prop :=
  (forall k z y s, make k z y = Ok s -> (1 <= k <= 5)%nat /\ (k < length z)%nat /\ length z = length y /\ rising z /\ (forall i, (i < length z)%nat -> value s (nth i z 0) = nth i y 0) /\
     (forall x, x < hd 0 z \/ last z 0 < x -> value s x = 0 /\ slope s x = 0 /\ curvature s x = 0)) /\
  (forall k z y s c, make k z y = Ok s -> exists s', make k z (map (Rmult c) y) = Ok s' /\ forall x, value s' x = c * value s x) /\
  (forall k z y s a b c, (2 <= k)%nat -> make k z y = Ok s -> tabulates (fun x => a * x ^ 2 + b * x + c) z y ->
     forall x, hd 0 z <= x <= last z 0 -> value s x = a * x ^ 2 + b * x + c /\ slope s x = 2 * a * x + b /\ curvature s x = 2 * a).
(** Points at which the maximum of the density is looked for: [order] times as many as tabulated redshifts, equally spaced over the table. *)
Definition fine_point (z : list R) (order : nat) (x : R) : Prop :=
  exists i, (i < length z * order)%nat /\ x = hd 0 z + (last z 0 - hd 0 z) * (INR i / INR (length z * order - 1)).
(** Splines of order 1 are straight between redshifts of the table. *)
Definition straight (make : maker) : Prop :=
  forall z y s a b t, make 1%nat z y = Ok s -> hd 0 z <= a -> a <= t <= b -> b <= last z 0 -> (forall x, In x z -> ~ a < x < b) ->
    (b - a) * value s t = (b - t) * value s a + (t - a) * value s b.
