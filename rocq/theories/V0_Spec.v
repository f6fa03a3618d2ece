(** Sky targets and tiles, in words. *)
Require Import ZArith List.
From Verif Require Import FA_Model.
Open Scope Z_scope.

(** [find] gives the places in a list of tiles of those that cover a point, in any order. *)
Definition finds {P} (covers : tile -> P -> Prop) (find : list tile -> P -> list nat) : Prop :=
  forall tiles p i, In i (find tiles p) <-> exists t, nth_error tiles i = Some t /\ covers t p.
(** A sky target is given to tile [id], that is among those with targets and covers it. *)
Definition given_well {P A} (covers : tile -> P -> Prop) (tiles_in_pass : list tile) (gathered : list (list Z)) (s : P * A) (id : Z) : Prop :=
  exists t, In t tiles_in_pass /\ tile_id t = id /\ In id (concat gathered) /\ covers t (fst s).
(** All fibres work. *)
Definition all_work (w : world) : Prop := forall t, exists good, w_good w t = Base.Ok good /\ forall x f, w_fiber w t x = Base.Ok f -> good f = true.
