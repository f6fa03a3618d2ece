(** What a redshift density is, independent of the model. Objects are pairs (redshift, weight). *)
Require Import Reals List.
From Verif Require Import Base.
Import ListNotations.
Open Scope R_scope.

(** Total weight of the objects whose redshift has a property. *)
Definition weight_where (P : R -> bool) (objs : list (R * R)) : R := Rsum (map (fun o => if P (fst o) then snd o else 0) objs).
Definition total_weight (objs : list (R * R)) : R := Rsum (map snd objs).

(** Redshift [z] is in the bin from [a] to [b]; the upper end belongs to the last bin only. *)
Definition in_bin (last : bool) (a b z : R) : bool :=
  if Rle_dec a z then (if last then (if Rle_dec z b then true else false) else (if Rlt_dec z b then true else false)) else false.
Definition in_interval (a b z : R) : bool := in_bin true a b z.

(** Volume of the part [fsky] of the sky between two redshifts; no normalisation without [fsky]. *)
Definition shell (fsky : option R) (distance : R -> R) (a b : R) : R :=
  match fsky with Some f => f * (4 / 3 * PI * distance b ^ 3 - 4 / 3 * PI * distance a ^ 3) | None => 1 end.
Definition distance_of (distance : option (R -> R)) : R -> R := match distance with Some d => d | None => fun x => x end.

Definition first (e : list R) : R := nth 0 e 0.
Definition final (e : list R) : R := last e 0.

(** Contract of the spline: it passes through the points and vanishes outside of them. *)
Definition interpolates (spline : nat -> list R -> list R -> result (R -> R)) : Prop :=
  forall k z y f, spline k z y = Ok f -> length z = length y /\ (forall i, (i < length z)%nat -> f (nth i z 0) = nth i y 0) /\
    forall x, x < first z \/ final z < x -> f x = 0.
