(** Completeness weights, from the columns of the targets only. *)
Require Import Reals ZArith List Bool.
From Verif Require Import Base FA_Model FA_Spec.
Import ListNotations.
Open Scope Z_scope.

Definition Zsum (l : list Z) : Z := fold_right Z.add 0 l.
Definition how_many {A} (f : A -> bool) (l : list A) : Z := Z.of_nat (List.length (filter f l)).
Section Spec.
  Variables (find : list tile -> R * R -> list nat) (tiles : list tile).
  (** The tile over a target in a pass, -1 if there is none. *)
  Definition tile_in (q : nat) (t : target) : Z := match tile_over find (tiles_in tiles q) (t_pos t) with Ok tid => tid | Err _ => -1 end.
  (** A target that is available and was never observed. *)
  Definition waits (u : target) : bool := t_available u && (t_numobs u =? 0).
  (** It is attributed to the first pass it has a fibre in. *)
  Definition wants (q : nat) (u : target) : bool := (0 <=? tile_in q u) && negb (fiber_in u q =? -1).
  Definition first_wants (q : nat) (u : target) : bool := wants q u && forallb (fun p => negb (wants p u)) (seq 0 q).
  (** Target [u] wanted the fibre that observed [t] in pass [q]. *)
  Definition wanted_by (q : nat) (t u : target) : bool := waits u && first_wants q u && (tile_in q u =? tile_in q t) && (fiber_in u q =? fiber_in t q).
  (** Targets that wanted the fibre of [t], over the first [n] passes. *)
  Definition excess (targets : list target) (n : nat) (t : target) : Z :=
    Zsum (map (fun q => if observed t q && (0 <=? tile_in q t) then how_many (wanted_by q t) targets else 0) (seq 0 n)).
  Definition expected_weight (targets : list target) (n : nat) (t : target) : option Z :=
    if t_numobs t =? 0 then None else Some (1 + excess targets n t).
End Spec.
(** What the weights add to one. *)
Definition total_excess (l : list (option Z)) : Z := Zsum (map (fun w => match w with Some w => w - 1 | None => 0 end) l).
