(** What fiberassign, the tiles and the exchange of rows between processes are taken to satisfy, and words for the claims. *)
Require Import Reals ZArith List Bool Permutation.
From Verif Require Import Base FA_Model.
Import ListNotations.
Open Scope Z_scope.

(** Rows are shared between processes, all the rows of a tile on the same one. *)
Definition shares {A} (tile : A -> Z) (exchange : list A -> list (list A)) : Prop :=
  forall rows, Permutation (List.concat (exchange rows)) rows /\
    forall i j r s, In r (nth i (exchange rows) []) -> In s (nth j (exchange rows) []) -> tile r = tile s -> i = j.
(** A tile only reaches targets it is over: tiles of a pass do not overlap. *)
Definition own_targets (w : world) : Prop :=
  forall t rows x, (In x (map snd (a_located (w_assign w t rows))) \/ In x (flat_map snd (a_avail (w_assign w t rows)))) -> w_science w x = true ->
    exists r, In r rows /\ p_id r = x /\ p_tile r = t.
(** fiberassign depends on the targets of the tile only, whatever their order. *)
Definition local (w : world) : Prop :=
  forall t rows rows', Permutation (filter (fun r => p_tile r =? t) rows) (filter (fun r => p_tile r =? t) rows') -> w_assign w t rows = w_assign w t rows'.
(** A location is given one target, a target one location, that reaches it; a fibre leads to one location. *)
Definition sound_assignment (w : world) : Prop :=
  (forall t rows, NoDup (map fst (a_located (w_assign w t rows)))) /\
  (forall t rows, NoDup (map snd (a_located (w_assign w t rows)))) /\
  (forall t rows x i, In (x, i) (a_located (w_assign w t rows)) -> exists l, In (x, l) (a_avail (w_assign w t rows)) /\ In i l) /\
  (forall t x y f, 0 <= f -> w_fiber w t x = Ok f -> w_fiber w t y = Ok f -> x = y).
(** Fibres kept have a number. *)
Definition sound_fibers (w : world) : Prop := forall t good f, w_good w t = Ok good -> good f = true -> 0 <= f < 5000.
(** All of this. *)
Definition sound (w : world) : Prop := own_targets w /\ local w /\ sound_assignment w /\ sound_fibers w.
(** Tiles have their own identifiers. *)
Definition distinct_tiles (tiles : list tile) : Prop := NoDup (map tile_id tiles).

(** OBS_PASS and FIBER of a target in a pass. *)
Definition observed (t : target) (pass : nat) : bool := nth pass (t_obs t) false.
Definition fiber_in (t : target) (pass : nat) : Z := nth pass (t_fiber t) (-1).
(** Number of passes a target was observed in. *)
Definition times_observed (t : target) : Z := Z.of_nat (List.length (filter (fun b : bool => b) (t_obs t))).
(** The tile a target is in, in a pass. *)
Definition in_tile (find : list tile -> R * R -> list nat) (tiles : list tile) (pass : nat) (t : target) (tid : Z) : Prop :=
  0 <= tid /\ tile_over find (tiles_in tiles pass) (t_pos t) = Ok tid.
(** Same identity and position. *)
Definition same_object (t t' : target) : Prop := t_id t' = t_id t /\ t_pos t' = t_pos t.
