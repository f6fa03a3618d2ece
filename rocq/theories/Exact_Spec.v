(** Exact conditions: when remapping keeps the volume, and which modes displacements and redshift-space distortions treat as they should. *)
Require Import Reals ZArith List Bool.
From Verif Require Import Base Vec3 Rsd_Model Mock_Model Mock_Spec.
Open Scope R_scope.

(** Every edge lies along axes whose sides are equal. *)
Definition joins_equal_sides (size e : vec) : Prop :=
  (vx e <> 0 -> vy e <> 0 -> vx size = vy size) /\ (vx e <> 0 -> vz e <> 0 -> vx size = vz size) /\ (vy e <> 0 -> vz e <> 0 -> vy size = vz size).

(** Part of a wave vector along the axes where the index is the one taken for the Nyquist frequency, and the rest. *)
Definition on_half (n k : idx) (w : vec) : vec :=
  V (if Nat.eq_dec (ix k) (Nat.div (ix n) 2) then vx w else 0) (if Nat.eq_dec (iy k) (Nat.div (iy n) 2) then vy w else 0)
    (if Nat.eq_dec (iz k) (Nat.div (iz n) 2) then vz w else 0).
Definition off_half (n k : idx) (w : vec) : vec := vsub w (on_half n k w).
