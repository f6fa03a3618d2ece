(** C99: specification of moves of boxes under rounding. *)
Require Import Reals ZArith String List Bool.
From Verif Require Import Base Vec3 Isometry_Model Box_Model Box_Spec Round_Spec Slip_Model.
Import ListNotations.
Open Scope R_scope.

(** Vectors whose coordinates are numbers of the format; catalogs whose vectors, size and center are. *)
Definition float_vec (rnd : R -> R) (v : vec) : Prop := float_of rnd (vx v) /\ float_of rnd (vy v) /\ float_of rnd (vz v).
Definition float_box (rnd : R -> R) (c : boxcat) : Prop :=
  float_vec rnd (boxsize c) /\ float_vec rnd (boxcenter c) /\
  forall n l, In (n, ColV l) (pc_data (bc_cat c)) -> In n (pc_vectors (bc_cat c)) -> Forall (float_vec rnd) l.
(** Sums of products with a row of the identity are exact for numbers of the format: one product is a number of the format, the others
    are zero. So it is in any order of summation, with or without fused operations. *)
Definition exact_on_axes (rnd : R -> R) (dot3 : vec -> vec -> R) : Prop :=
  forall v, float_vec rnd v -> dot3 (V 1 0 0) v = vx v /\ dot3 (V 0 1 0) v = vy v /\ dot3 (V 0 0 1) v = vz v.
(** [p] moved by [v], with one rounding per coordinate. *)
Definition shifted (rnd : R -> R) (v p : vec) : vec := V (rnd (vx p + vx v)) (rnd (vy p + vy v)) (rnd (vz p + vz v)).

(** ** Histories *)
Inductive bmove : Type := BTranslate (shift : shift_arg) (axis : axis_arg) | BRotate (quarter_turns : BinNums.Z) (axis : axis_arg).
Fixpoint exact_moves (c : boxcat) (ms : list bmove) : result boxcat :=
  match ms with
  | [] => Ok c
  | BTranslate shift axis :: ms => do c <- translate c shift axis; exact_moves c ms
  | BRotate k axis :: ms => do c <- rotate c k axis; exact_moves c ms
  end.
Fixpoint rounded_moves rnd dot3 fcos fsin (c : boxcat) (ms : list bmove) : result boxcat :=
  match ms with
  | [] => Ok c
  | BTranslate shift axis :: ms => do c <- fl_translate rnd dot3 c shift axis; rounded_moves rnd dot3 fcos fsin c ms
  | BRotate k axis :: ms => do c <- fl_rotate rnd dot3 fcos fsin c k axis; rounded_moves rnd dot3 fcos fsin c ms
  end.
(** Total length of the translations. *)
Fixpoint way (ms : list bmove) : R :=
  match ms with
  | [] => 0
  | BTranslate shift axis :: ms => match shift_vector shift axis with Ok v => vnorm v | Err _ => 0 end + way ms
  | BRotate _ _ :: ms => way ms
  end.
(** Not so many quarter turns in one call that the rounding of the angle matters more than [eps]. *)
Definition few_turns (u eps : R) (m : bmove) : Prop :=
  match m with BTranslate _ _ => True | BRotate k _ => 5000 * u * (1 + Rabs (IZR k * PI / 2)) <= eps end.
(** Turns about the axes of the box. *)
Definition straight (m : bmove) : Prop :=
  match m with BTranslate _ _ => True | BRotate _ axis => exists a, axis_means a axis end.

(** ** Accuracy: [x0] before the moves, [x'] after the rounded moves, [x] after the exact moves *)
Definition vec_within (E L : R) (v0 v' v : vec) : Prop := vnorm (vsub v' v) <= E * (L + vnorm v0).
Inductive rows_within (E L : R) : list vec -> list vec -> list vec -> Prop :=
| rw_nil : rows_within E L [] [] []
| rw_cons : forall v0 v' v l0 l' l, vec_within E L v0 v' v -> rows_within E L l0 l' l -> rows_within E L (v0 :: l0) (v' :: l') (v :: l).
(** Columns: those that are not vectors are kept; the vectors that do not move with the box do not feel the translations.
    Numbers listed as vectors: the first move raises, with or without rounding; they are here for the empty history. *)
Inductive col_within (E L : R) (vector invariant : bool) : col -> col -> col -> Prop :=
| cw_kept : forall x, vector = false -> col_within E L vector invariant x x x
| cw_number : forall l, vector = true -> col_within E L vector invariant (ColS l) (ColS l) (ColS l)
| cw_moved : forall l0 l' l, vector = true -> rows_within E (if invariant then 0 else L) l0 l' l -> col_within E L vector invariant (ColV l0) (ColV l') (ColV l).
(** The same columns in the same order. *)
Inductive data_within (E L : R) (vectors invariants : list string) : data -> data -> data -> Prop :=
| dw_nil : data_within E L vectors invariants [] [] []
| dw_cons : forall n x0 x' x d0 d' d, col_within E L (mem n vectors) (mem n invariants) x0 x' x -> data_within E L vectors invariants d0 d' d ->
    data_within E L vectors invariants ((n, x0) :: d0) ((n, x') :: d') ((n, x) :: d).
Definition same_roles (c c' : pcat) : Prop :=
  pc_position c' = pc_position c /\ pc_velocity c' = pc_velocity c /\ pc_vectors c' = pc_vectors c /\ pc_invariants c' = pc_invariants c.
Definition box_within (E L : R) (c0 c' c : boxcat) : Prop :=
  vec_within E L (boxcenter c0) (boxcenter c') (boxcenter c) /\ vec_within E 0 (boxsize c0) (boxsize c') (boxsize c) /\
  same_roles (bc_cat c0) (bc_cat c') /\ same_roles (bc_cat c0) (bc_cat c) /\
  data_within E L (pc_vectors (bc_cat c0)) (pc_invariants (bc_cat c0)) (pc_data (bc_cat c0)) (pc_data (bc_cat c')) (pc_data (bc_cat c)).
(** Both raise the same error, or both return. *)
Definition both {A} (P : A -> A -> Prop) (x y : result A) : Prop :=
  match x, y with Ok a, Ok b => P a b | Err e, Err e' => e = e' | _, _ => False end.
(** In the box, within a margin. *)
Definition contained_within (margin : R) (size center p : vec) : Prop :=
  Rabs (vx p - vx center) <= vx size / 2 + margin /\ Rabs (vy p - vy center) <= vy size / 2 + margin /\ Rabs (vz p - vz center) <= vz size / 2 + margin.
