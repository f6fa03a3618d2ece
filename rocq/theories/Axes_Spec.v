(** Turned catalogs, and axes with other labels (C96). *)
Require Import Reals ZArith String List Bool.
From Verif Require Import Base Vec3 Isometry_Model Isometry_Spec Sky_Model Box_Model Box_Spec Unit_Spec Rsd_Spec Mock_Model.
From Verif Require Blind_Model.
Import ListNotations.
Open Scope R_scope.

(** Rotations and reflections: they keep products. *)
Definition orthogonal (q : mat) : Prop := forall a b, vdot (mapply q a) (mapply q b) = vdot a b.
(** A column of vectors with each vector replaced, and a catalog with all vectors replaced. *)
Definition vectors_as (f : vec -> vec) (x : col) : col := match x with ColV l => ColV (map f l) | x => x end.
Definition pcat_as (f : vec -> vec) (c : pcat) : pcat :=
  PCat (map (fun x => (fst x, if mem (fst x) (pc_vectors c) then vectors_as f (snd x) else snd x)) (pc_data c)) (pc_position c) (pc_velocity c) (pc_vectors c) (pc_invariants c).
(** The position and the velocity are among the vectors (the constructor sees to it). *)
Definition declared (c : pcat) : Prop := mem (pc_position c) (pc_vectors c) = true /\ mem (pc_velocity c) (pc_vectors c) = true.
(** Turn about the polar axis. *)
Definition about_pole (angle : R) (p : vec) : vec := V (cos angle * vx p - sin angle * vy p) (sin angle * vx p + cos angle * vy p) (vz p).

(** The six ways to label axes: which old axes are the first, second and third. *)
Inductive labels : Type := LXYZ | LYZX | LZXY | LYXZ | LXZY | LZYX.
Definition pick3 {A B} (make : A -> A -> A -> B) (l : labels) (a b c : A) : B :=
  match l with LXYZ => make a b c | LYZX => make b c a | LZXY => make c a b | LYXZ => make b a c | LXZY => make a c b | LZYX => make c b a end.
Definition vec_l (l : labels) (v : vec) : vec := pick3 V l (vx v) (vy v) (vz v).
Definition idx_l (l : labels) (i : idx) : idx := pick3 I l (ix i) (iy i) (iz i).
(** Whether turns keep their sense. *)
Definition sense (l : labels) : BinNums.Z := match l with LXYZ | LYZX | LZXY => 1 | _ => -1 end.
(** The new label of an axis, as x, y, z and as a number. *)
Definition axis_l (l : labels) (a : axis3) : axis3 :=
  match l, a with
  | LXYZ, a => a
  | LYZX, X => Z | LYZX, Y => X | LYZX, Z => Y
  | LZXY, X => Y | LZXY, Y => Z | LZXY, Z => X
  | LYXZ, X => Y | LYXZ, Y => X | LYXZ, Z => Z
  | LXZY, X => X | LXZY, Y => Z | LXZY, Z => Y
  | LZYX, X => Z | LZYX, Y => Y | LZYX, Z => X
  end.
(** A catalog in a box. *)
Definition boxcat_l (l : labels) (c : boxcat) : boxcat := BoxCat (pcat_as (vec_l l) (bc_cat c)) (vec_l l (boxsize c)) (vec_l l (boxcenter c)).
(** A call and the call on the relabelled box; arguments in any documented spelling. *)
Inductive call_l (l : labels) : box_call -> box_call -> Prop :=
| call_translate : forall sh ax sh' ax' v, shift_means sh ax v -> shift_means sh' ax' (vec_l l v) -> call_l l (Translate sh ax) (Translate sh' ax')
| call_recenter : call_l l Recenter Recenter
| call_rotate : forall k a ax ax', axis_means a ax -> axis_means (axis_l l a) ax' -> call_l l (Rotate k ax) (Rotate (sense l * k) ax')
| call_all : forall lo hi u, call_l l (Subbox (ROne lo hi) u) (Subbox (ROne lo hi) u)
| call_subbox : forall r0 r1 r2 u, call_l l (Subbox (RList [r0; r1; r2]) u) (Subbox (RList (pick3 (fun a b c => [a; b; c]) l r0 r1 r2)) u).
(** Fields on the relabelled mesh. *)
Definition field_l {A} (l : labels) (n : idx) (f f' : idx -> A) : Prop := forall x, In x (cells n) -> f' (idx_l l x) = f x.
(** Results on the relabelled mesh: the field relabelled, or the same error. *)
Definition result_l {A} (l : labels) (n : idx) (r r' : result (idx -> A)) : Prop :=
  match r, r' with Ok f, Ok f' => field_l l n f f' | Err e, Err e' => e = e' | _, _ => False end.
Definition los_l (l : labels) (los los' : option axis_arg) : Prop :=
  match los, los' with Some a, Some a' => exists u, los_means a u /\ los_means a' (vec_l l u) | None, None => True | _, _ => False end.
(** Cartesian positions as an array with one row per object. *)
Definition pos_array (t : Blind_Model.ftype) (l : list vec) : Blind_Model.parray := Blind_Model.Rows t 3 (map (fun p => [vx p; vy p; vz p]) l).
Definition axis_num (a : axis3) : nat := match a with X => 0 | Y => 1 | Z => 2 end%nat.
