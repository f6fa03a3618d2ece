(** Moves and the opposite moves (C94). *)
Require Import Reals ZArith String List Bool.
From Verif Require Import Base Vec3 Isometry_Model Isometry_Spec Box_Model Box_Spec Unit_Spec Rsd_Spec.
Import ListNotations.
Open Scope R_scope.

(** A translation and that by the opposite vector, a number of quarter turns and one that makes full turns with it; arguments in any documented spelling. *)
Inductive opposite : box_call -> box_call -> Prop :=
| opposite_shift : forall sh ax sh' ax' v, shift_means sh ax v -> shift_means sh' ax' (vopp v) -> opposite (Translate sh ax) (Translate sh' ax')
| opposite_turn : forall a k l ax ax', axis_means a ax -> axis_means a ax' -> ((k + l) mod 4 = 0)%Z -> opposite (Rotate k ax) (Rotate l ax').
(** Boxes have sides of some length. *)
Definition box_sides (size : vec) : Prop := 0 <= vx size /\ 0 <= vy size /\ 0 <= vz size.

(** Calls of an isometry in the frame of the origin; the history stops at the first that raises. *)
Inductive iso_call : Type := ITranslate (shift : shift_arg) (axis : axis_arg) | IRotate (angle : R) (axis : axis_arg) (degree : bool) | IMatrix (m : mat).
Definition iso_step (s : iso) (c : iso_call) : iso * result unit :=
  match c with
  | ITranslate shift axis => iso_translation s shift axis "origin"
  | IRotate angle axis degree => iso_rotation s angle axis degree "origin"
  | IMatrix m => iso_dot s m "origin"
  end.
Fixpoint iso_run (s : iso) (l : list iso_call) : result iso := match l with [] => Ok s | c :: l => match iso_step s c with (s, Ok _) => iso_run s l | (_, Err e) => Err e end end.
(** An angle in radians. *)
Definition in_radians (angle : R) (degree : bool) : R := if degree then angle * PI / 180 else angle.
Inductive opposite_iso : iso_call -> iso_call -> Prop :=
| opposite_translate : forall sh ax sh' ax' v, shift_means sh ax v -> shift_means sh' ax' (vopp v) -> opposite_iso (ITranslate sh ax) (ITranslate sh' ax')
| opposite_rotate : forall angle angle' ax ax' d d' u, los_means ax u -> los_means ax' u -> in_radians angle' d' = - in_radians angle d -> opposite_iso (IRotate angle ax d) (IRotate angle' ax' d')
| opposite_matrix : forall m m', (forall p, mapply m' (mapply m p) = p) -> opposite_iso (IMatrix m) (IMatrix m').

(** catalog[position] = array. *)
Definition with_positions (c : pcat) (l : list vec) : pcat := PCat (set_col (pc_position c) (ColV l) (pc_data c)) (pc_position c) (pc_velocity c) (pc_vectors c) (pc_invariants c).
