(** Rows of catalogs (C93): putting catalogs together, and the catalog of one object. Nothing is taken from the code here but the types. *)
Require Import Reals ZArith String List Bool.
From Verif Require Import Base Vec3 Isometry_Model Box_Model Unit_Spec.
Import ListNotations.
Open Scope R_scope.

(** Columns of the same type, and one below the other. *)
Definition same_type (x y : col) : Prop := match x, y with ColV _, ColV _ | ColS _, ColS _ => True | _, _ => False end.
Definition col_length (x : col) : nat := match x with ColV l => length l | ColS l => length l end.
Definition append_col (x y : col) : col := match x, y with ColV l, ColV m => ColV (l ++ m) | ColS l, ColS m => ColS (l ++ m) | x, _ => x end.
Fixpoint append_data (a b : data) : data := match a, b with (n, x) :: a, (_, y) :: b => (n, append_col x y) :: append_data a b | _, _ => [] end.
Definition append (a b : pcat) : pcat := PCat (append_data (pc_data a) (pc_data b)) (pc_position a) (pc_velocity a) (pc_vectors a) (pc_invariants a).
Definition append_box (a b : boxcat) : boxcat := BoxCat (append (bc_cat a) (bc_cat b)) (boxsize a) (boxcenter a).
(** All columns have [n] rows. *)
Definition has_rows (n : nat) (d : data) : Prop := Forall (fun x => col_length (snd x) = n) d.
(** Catalogs of the same columns, with the same names for position and velocity and the same vectors: those that can be put together. *)
Definition alike (a b : pcat) : Prop :=
  Forall2 (fun x y => fst x = fst y /\ same_type (snd x) (snd y)) (pc_data a) (pc_data b) /\ (exists n, has_rows n (pc_data a)) /\ (exists n, has_rows n (pc_data b)) /\
  pc_position a = pc_position b /\ pc_velocity a = pc_velocity b /\ pc_vectors a = pc_vectors b /\ pc_invariants a = pc_invariants b.
Definition alike_box (a b : boxcat) : Prop := alike (bc_cat a) (bc_cat b) /\ boxsize a = boxsize b /\ boxcenter a = boxcenter b.
(** The catalog of object number [i] alone. *)
Definition col_row (i : nat) (x : col) : col := match x with ColV l => ColV (firstn 1 (skipn i l)) | ColS l => ColS (firstn 1 (skipn i l)) end.
Definition row (i : nat) (c : boxcat) : boxcat :=
  BoxCat (PCat (map (fun x => (fst x, col_row i (snd x))) (pc_data (bc_cat c))) (pc_position (bc_cat c)) (pc_velocity (bc_cat c)) (pc_vectors (bc_cat c)) (pc_invariants (bc_cat c))) (boxsize c) (boxcenter c).
(** Several catalogs put together, one after the other. *)
Fixpoint together (c : boxcat) (l : list boxcat) : boxcat := match l with [] => c | c' :: l => append_box c (together c' l) end.
(** Rows of a catalog, in the order of the list, each as often as it is in it. *)
Definition rows (c : boxcat) (i : nat) (is : list nat) : boxcat := together (row i c) (map (fun i => row i c) is).
(** Padding adds rows. *)
Definition not_pad (o : box_call) : Prop := match o with Pad _ => False | _ => True end.
(** Masks that treat objects one by one. *)
Definition row_mask (m : rmask) : Prop := forall l l', m (l ++ l') = m l ++ m l'.
Definition row_mask2 (m : amask) : Prop := forall a a' b b', length a = length b -> length a' = length b' -> m (a ++ a') (b ++ b') = m a b ++ m a' b'.
Definition mask_length (m : rmask) : Prop := forall l, length (m l) = length l.
Definition mask_length2 (m : amask) : Prop := forall a b, length a = length b -> length (m a b) = length a.
Definition opt {A} (P : A -> Prop) (o : option A) : Prop := match o with Some a => P a | None => True end.
