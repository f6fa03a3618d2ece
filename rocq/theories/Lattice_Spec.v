(** Small specification for the enumeration of lattice vectors. *)
Require Import Reals ZArith List.
From Verif Require Import Vec3 Remap_Spec.
Import ListNotations.
Open Scope Z_scope.

(** Greatest common divisor of a list. *)
Definition common_divisor (d : Z) (l : list Z) : Prop := forall x, In x l -> (d | x).
Definition is_gcd (g : Z) (l : list Z) : Prop := 0 <= g /\ common_divisor g l /\ forall d, common_divisor d l -> (d | g).
(** Only 1 and -1 divide all of i, j, k. *)
Definition coprime (i j k : Z) : Prop := forall d, (d | i) -> (d | j) -> (d | k) -> d = 1 \/ d = -1.

(** Coordinates are integers between -n and n. *)
Definition bounded (n : Z) (u : zvec) : Prop := let '(a, b, c) := u in - n <= a <= n /\ - n <= b <= n /\ - n <= c <= n.

(** A requested range of sizes, possibly without upper limit. *)
Definition in_range (r : R * option R) (x : R) : Prop := (fst r <= x)%R /\ match snd r with None => True | Some h => (x <= h)%R end.
(** The sizes satisfy the requested ranges; missing ranges ask nothing of a length. *)
Definition fits (ranges : option (list (R * option R))) (s1 s2 s3 : R) : Prop :=
  match ranges with
  | None => True
  | Some l => forall i r s, nth_error l i = Some r -> nth_error [s1; s2; s3] i = Some s -> in_range r s
  end.

(** (x, y, z) rearranged in decreasing order. *)
Definition decreasing (t : R * R * R) : Prop := let '(x, y, z) := t in (y <= x)%R /\ (z <= y)%R.
Definition rearranged (t u : R * R * R) : Prop :=
  let '(x, y, z) := t in
  u = (x, y, z) \/ u = (x, z, y) \/ u = (y, x, z) \/ u = (y, z, x) \/ u = (z, x, y) \/ u = (z, y, x).
