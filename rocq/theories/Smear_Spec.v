(** What redshift smearing is for. *)
Require Import Reals List Lra.
From Verif Require Import Base Smear_Model.
Import ListNotations.
Open Scope R_scope.

(** A tabulated cumulative distribution: starts at 0, ends at 1, never decreases. *)
Definition proper_cdf (c : list R) : Prop :=
  (2 <= length c)%nat /\ nth 0 c 0 = 0 /\ last c 0 = 1 /\ forall i j, (i <= j < length c)%nat -> nth i c 0 <= nth j c 0.

(** Strictly increasing points. *)
Definition rising (x : list R) : Prop := forall i j, (i < j < length x)%nat -> nth i x 0 < nth j x 0.
(** The polynomial of degree 3 through four points (Lagrange). *)
Definition cubic (a b c d p q r s t : R) : R :=
  p * ((t - b) * (t - c) * (t - d) / ((a - b) * (a - c) * (a - d))) +
  q * ((t - a) * (t - c) * (t - d) / ((b - a) * (b - c) * (b - d))) +
  r * ((t - a) * (t - b) * (t - d) / ((c - a) * (c - b) * (c - d))) +
  s * ((t - a) * (t - b) * (t - c) / ((d - a) * (d - b) * (d - c))).
(** Contract of scipy's cubic spline with s = 0: four points at least, in increasing order; it passes through the points; through
    four points it is the cubic polynomial. *)
Definition cubic_spline (spline3 : list R -> list R -> result (R -> R)) : Prop :=
  (forall x y f, spline3 x y = Ok f -> (4 <= length x)%nat /\ length x = length y /\ rising x /\ forall i, (i < length x)%nat -> f (nth i x 0) = nth i y 0) /\
  (forall x y, length x = length y -> (4 <= length x)%nat -> rising x -> exists f, spline3 x y = Ok f) /\
  (forall a b c d p q r s f t, spline3 [a; b; c; d] [p; q; r; s] = Ok f -> f t = cubic a b c d p q r s t).

(** Order of extended numbers. *)
Definition ext_le (a b : ext) : Prop :=
  match a, b with
  | NaN, _ | _, NaN => False
  | MInf, _ | _, PInf => True
  | Fin a, Fin b => a <= b
  | _, _ => False
  end.
(** A continuous distribution: its cdf is 0 and 1 at the ends of the support, and does not decrease; its ppf goes from one end to the
    other and does not decrease. *)
Definition proper_rv (r : rv) : Prop :=
  rv_cdf r (rv_low r) = 0 /\ rv_cdf r (rv_high r) = 1 /\ (forall a b, ext_le a b -> rv_cdf r a <= rv_cdf r b) /\
  rv_ppf r 0 = rv_low r /\ rv_ppf r 1 = rv_high r /\ (forall p q, 0 <= p <= q -> q <= 1 -> ext_le (rv_ppf r p) (rv_ppf r q)) /\
  ext_le (rv_low r) (rv_high r) /\ rv_low r <> rv_high r /\ rv_low r <> PInf /\ rv_high r <> MInf.
