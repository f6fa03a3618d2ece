(** Small specification for box catalogs. *)
Require Import Reals ZArith List String Sorted.
From Verif Require Import Vec3 Isometry_Model Isometry_Spec Box_Model.
Import ListNotations.
Open Scope R_scope.

(** Reading a catalog. *)
Definition column (c : pcat) (name : string) : option col := lookup name (pc_data c).
Definition names (c : pcat) : list string := map fst (pc_data c).

(** Columns listed as vectors do hold 3-vectors. *)
Definition vectors_ok (c : pcat) : Prop :=
  forall name x, In (name, x) (pc_data c) -> In name (pc_vectors c) -> exists l, x = ColV l.
(** All columns have n rows. *)
Definition col_rows (x : col) : nat := match x with ColV l => List.length l | ColS l => List.length l end.
Definition rows_ok (n : nat) (c : pcat) : Prop := forall name x, In (name, x) (pc_data c) -> col_rows x = n.
(** [name] is a vector that moves with the box (a position, not a velocity). *)
Definition moves (c : pcat) (name : string) : Prop := In name (pc_vectors c) /\ ~ In name (pc_invariants c).

(** Particle p is in the closed box of given size and centre. *)
Definition contained (size center p : vec) : Prop :=
  Rabs (vx p - vx center) <= vx size / 2 /\ Rabs (vy p - vy center) <= vy size / 2 /\ Rabs (vz p - vz center) <= vz size / 2.

(** Counter-clockwise quarter turn about axis x, y, z. *)
Inductive axis3 : Type := X | Y | Z.
Definition quarter (a : axis3) (p : vec) : vec :=
  match a with
  | X => V (vx p) (- vz p) (vy p)
  | Y => V (vz p) (vy p) (- vx p)
  | Z => V (- vy p) (vx p) (vz p)
  end.
Definition axis_means (a : axis3) (ax : axis_arg) : Prop :=
  match a with
  | X => ax = AxStr "x" \/ ax = AxIdx 0
  | Y => ax = AxStr "y" \/ ax = AxIdx 1
  | Z => ax = AxStr "z" \/ ax = AxIdx 2
  end.
(** k quarter turns; k and k + 4 are the same turn. *)
Definition quarters (a : axis3) (k : BinNums.Z) (p : vec) : vec := Nat.iter (Z.to_nat (k mod 4)) (quarter a) p.

Definition volume (size : vec) : R := vx size * vy size * vz size.
Definition sides (size : vec) : list R := [vx size; vy size; vz size].

(** Rows number idx of a list / column. *)
Definition pick {A} (idx : list nat) (l : list A) : list A :=
  flat_map (fun i => match nth_error l i with Some a => [a] | None => [] end) idx.
Definition pick_col (idx : list nat) (x : col) : col :=
  match x with ColV l => ColV (pick idx l) | ColS l => ColS (pick idx l) end.

(** Absolute range meant by [r] along an axis where the box starts at [low] and has side [size]. *)
Definition abs_range (unit : bool) (size low : R) (r : R * R) : R * R :=
  if unit then (low + size * fst r, low + size * snd r) else r.
Definition within (r : R * R) (x : R) : Prop := fst r <= x < snd r.

(** Cells of the grid with the given edges along each axis. *)
Fixpoint intervals (e : list R) : list (R * R) :=
  match e with a :: ((b :: _) as t) => (a, b) :: intervals t | _ => [] end.
Definition grid (e0 e1 e2 : list R) : list (list (R * R)) :=
  flat_map (fun a => flat_map (fun b => map (fun d => [a; b; d]) (intervals e2)) (intervals e1)) (intervals e0).
Definition hull (e0 e1 e2 : list R) : list (R * R) := map (fun e => (hd 0 e, last e 0)) [e0; e1; e2].

(** Values of a vector column, of a scalar column. *)
Definition vvals (name : string) (c : boxcat) : list vec := match column (bc_cat c) name with Some (ColV l) => l | _ => [] end.
Definition svals (name : string) (c : boxcat) : list R := match column (bc_cat c) name with Some (ColS l) => l | _ => [] end.

(** Rows of a padded catalog: row number i of the original, moved by v. *)
Definition pick_moved (rows : list (nat * vec)) (l : list vec) : list vec :=
  flat_map (fun r => match nth_error l (fst r) with Some a => [vadd a (snd r)] | None => [] end) rows.
(** v is a displacement by whole box sides. *)
Definition lattice_shift (size v : vec) : Prop :=
  exists i j k : BinNums.Z, v = V (vx size * IZR i) (vy size * IZR j) (vz size * IZR k).

(** Margin meant by an optional argument. *)
Definition margin (m : option R) : R := match m with Some m => m | None => 0 end.

(** n intervals of length b can be placed in an interval of length L, at distance im from each other and em from its ends. *)
Definition fits (L b em im : R) (n : nat) : Prop := INR n * b + (INR n - 1) * im + 2 * em <= L.

(** The interval of length b centred on x is inside the interval of length L centred on center, at least em from its ends. *)
Definition inside1 (L center b em x : R) : Prop := center - L / 2 + em <= x - b / 2 /\ x + b / 2 <= center + L / 2 - em.

(** Intervals of length b centred on x and y are at least im apart. *)
Definition apart1 (b im x y : R) : Prop := b + im <= Rabs (x - y).
Definition apart (b : vec) (im : margins) (x y : vec) : Prop :=
  apart1 (vx b) (margin (mg0 im)) (vx x) (vx y) \/ apart1 (vy b) (margin (mg1 im)) (vy x) (vy y) \/ apart1 (vz b) (margin (mg2 im)) (vz x) (vz y).

(** A catalog as built by the package: n rows everywhere, vector columns hold vectors, and the declared position and velocity are vectors,
    the position moving with the box and the velocity not. *)
Definition wf (n : nat) (c : pcat) : Prop :=
  rows_ok n c /\ vectors_ok c /\ In (pc_position c) (pc_vectors c) /\ ~ In (pc_position c) (pc_invariants c) /\
  In (pc_velocity c) (pc_vectors c) /\ In (pc_velocity c) (pc_invariants c).

(** Names of the added sky columns. *)
Definition rdd_names (rdd : option (string * string * string)) : list string :=
  match rdd with Some (a, b, d) => [a; b; d] | None => [] end.

(** Margins for which the placement along one axis is supported: both left to the code, or both given, with a positive external margin
    leaving room for one cut. *)
Definition usable (L b : R) (em im : option R) : Prop :=
  (em = None /\ im = None /\ 0 <= L) \/
  (exists e m, em = Some e /\ im = Some m /\ 0 < e /\ 0 <= m /\ fits L b e m 1).
