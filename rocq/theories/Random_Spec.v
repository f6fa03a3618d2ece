(** What random catalogs are for. *)
Require Import Reals ZArith List.
From Verif Require Import Base Vec3 Sample_Spec.
Import ListNotations.
Open Scope R_scope.

(** [n] is a nearest integer to [x]. *)
Definition nearest (n : Z) (x : R) : Prop := Rabs (IZR n - x) <= 1 / 2.
(** Random numbers of a uniform law on [0, 1). *)
Definition unit_number (t : R) : Prop := 0 <= t < 1.
Definition unit_triple (t : vec) : Prop := unit_number (vx t) /\ unit_number (vy t) /\ unit_number (vz t).
(** A stream of random numbers for boxes: as many triples as objects. *)
Definition box_stream (rng : nat -> list vec) : Prop := forall n, length (rng n) = n /\ Forall unit_triple (rng n).
(** The lower faces belong to the box, the upper faces do not. *)
Definition inside_box (size center p : vec) : Prop :=
  (vx center - vx size / 2 <= vx p < vx center + vx size / 2) /\
  (vy center - vy size / 2 <= vy p < vy center + vy size / 2) /\
  (vz center - vz size / 2 <= vz p < vz center + vz size / 2).
(** Streams for the sky: numbers in [0, 1); in every round each process draws as many as it asked for. *)
Definition angle_stream (draws : nat -> nat -> list (R * R * R)) : Prop :=
  forall k r t v u, In (t, v, u) (draws k r) -> unit_number t /\ unit_number v /\ unit_number u.
Definition distance_stream (draws : nat -> nat -> list (R * R)) : Prop :=
  forall k r t u, In (t, u) (draws k r) -> unit_number t /\ unit_number u.
Definition enough {A} (draws : nat -> nat -> list A) (sizes : list nat) : Prop := forall k r, (r < length sizes)%nat -> length (draws k r) = nth r sizes 0%nat.
(** Splitting over processes loses no object. *)
Definition splits (split : nat -> list nat) : Prop := forall n, total (split n) = n.
