(** Specification of the footprint. *)
Require Import Reals ZArith List Bool String.
From Verif Require Import Base Brick_Model Foot_Model.
Import ListNotations.
Open Scope string_scope.

(** desimodel: [covers t p], the point is within the radius of the tile; the tiles over a point are listed once each; a point is inside if a tile covers it. *)
Definition finds (covers : tile -> R * R -> bool) (find : list tile -> R * R -> list nat) : Prop :=
  forall tiles p, NoDup (find tiles p) /\ forall i, In i (find tiles p) <-> exists t, nth_error tiles i = Some t /\ covers t p = true.
Definition contains (covers : tile -> R * R -> bool) (inside : list tile -> R * R -> bool * nat) : Prop :=
  forall tiles p, (fst (inside tiles p) = true <-> exists t, In t tiles /\ covers t p = true) /\ (tiles <> [] -> exists t, nth_error tiles (snd (inside tiles p)) = Some t /\ (fst (inside tiles p) = true -> covers t p = true)).

(** Releases (in any case), the reduction they are made from, and the last night of observation. *)
Inductive release_table : string -> string -> option Z -> Prop :=
  | rel_sv3 : release_table "sv3" "fuji" None
  | rel_onepercent : release_table "onepercent" "fuji" None
  | rel_da02 : release_table "da02" "guadalupe" None
  | rel_m3 : release_table "m3" "guadalupe" None
  | rel_y1 : release_table "y1" "daily" (Some 20220613%Z)
  | rel_y3 : release_table "y3" "loa" None.
Definition before (night : option Z) (t : tile) : bool := match night with None => true | Some n => (t_lastnight t <=? n)%Z end.
(** Tiles that count. *)
Definition requested (survey program : string) (night : option Z) (t : tile) : bool := (t_survey t =? survey) && (t_program t =? program) && before night t.
(** Number of tiles that count over a point. *)
Definition passes (covers : tile -> R * R -> bool) (count : tile -> bool) (table : list tile) (p : R * R) : Z :=
  Z.of_nat (List.length (filter (fun t => count t && covers t p) table)).
(** A point is in the footprint if at least the passes asked for, at least one by default, are over it. *)
Definition in_footprint (covers : tile -> R * R -> bool) (count : tile -> bool) (table : list tile) (npasses : option Z) (p : R * R) : bool :=
  match npasses with
  | Some n => (n <=? passes covers count table p)%Z
  | None => (1 <=? passes covers count table p)%Z
  end.
(** Tables with rows added, at any place. *)
Inductive extends : list tile -> list tile -> Prop :=
  | ext_nil : extends [] []
  | ext_same : forall t l l', extends l l' -> extends (t :: l) (t :: l')
  | ext_more : forall t l l', extends l l' -> extends l (t :: l').
(** The second mask has all the objects of the first. *)
Definition no_fewer (m m' : list bool) : Prop := Forall2 (fun b b' => b = true -> b' = true) m m'.
