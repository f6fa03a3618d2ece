(** Tables of tiles and of stuck fibres, in words. *)
Require Import ZArith String Ascii List Bool.
From Verif Require Import Base FA_Model Tile_Model.
Import ListNotations.

(** The same letter, small or capital. *)
Definition same_letter (c d : ascii) : Prop :=
  c = d \/ (65 <= nat_of_ascii c <= 90 /\ nat_of_ascii d = nat_of_ascii c + 32)%nat \/ (65 <= nat_of_ascii d <= 90 /\ nat_of_ascii c = nat_of_ascii d + 32)%nat.
Fixpoint same_word (s t : string) : Prop :=
  match s, t with
  | EmptyString, EmptyString => True
  | String c s, String d t => same_letter c d /\ same_word s t
  | _, _ => False
  end.
(** No small letter. *)
Fixpoint capitals (s : string) : Prop := match s with EmptyString => True | String c s => ~ (97 <= nat_of_ascii c <= 122)%nat /\ capitals s end.

(** [x] is the last row of [l] that satisfies [p]. *)
Definition last_row {A} (p : A -> Prop) (l : list A) (x : A) : Prop := exists l1 l2, l = l1 ++ x :: l2 /\ p x /\ Forall (fun y => ~ p y) l2.
(** Bits [i] and [j] of a status tell that a fibre is stuck, or broken. *)
Definition stuck_only (i j : Z) (status : Z) : Prop := Z.testbit status i = true /\ Z.testbit status j = false.
(** What the table of a file should say about a location: it is on sky ([b]) or not; bit [k] of a type tells a sky target. *)
Definition on_sky (i j k : Z) (f : fafile) (loc : Z) (b : bool) : Prop :=
  (exists x, last_row (fun x => fst x = loc) (ff_monitors f) x /\ b = Z.testbit (snd x) k) \/
  (~ In loc (map fst (ff_monitors f)) /\ exists x, last_row (fun x => fst (fst x) = loc /\ stuck_only i j (snd (fst x))) (ff_fibers f) x /\ (b = true <-> snd x = "SKY"%string)).
