(** Words for remapping with rounded numbers: what rounding is, and the way of a position through the cells of a cuboid, far from their faces. *)
Require Import Reals ZArith List SpecFloat.
From Verif Require Import Vec3 Wobble_Model.
Import ListNotations.
Open Scope R_scope.

(** Rounding with relative accuracy [eps] above underflow, and absolute accuracy [eta] below; double precision has 2^-53 and 2^-1075. *)
Definition rounds (eps eta : R) (rnd : R -> R) : Prop := forall x, Rabs (rnd x - x) <= eps * Rabs x + eta.

(** Real number of a floating-point number; infinities and NaN are not numbers. *)
Definition value (f : spec_float) : option R :=
  match f with
  | S754_zero _ => Some 0
  | S754_finite s m e => Some ((if s then -1 else 1) * IZR (Zpos m) * powerRZ 2 e)
  | _ => None
  end.
Definition values (f : gvec spec_float) (x : vec) : Prop :=
  value (gx f) = Some (vx x) /\ value (gy f) = Some (vy x) /\ value (gz f) = Some (vz x).

Definition vec_of_gvec (u : gvec R) : vec := V (gx u) (gy u) (gz u).
Definition within (b : R) (u : gvec R) : Prop := Rabs (gx u) <= b /\ Rabs (gy u) <= b /\ Rabs (gz u) <= b.
Definition near (d : R) (u v : gvec R) : Prop :=
  Rabs (gx u - gx v) <= d /\ Rabs (gy u - gy v) <= d /\ Rabs (gz u - gz v) <= d.
Definition scalar (u v : gvec R) : R := gx u * gx v + gy u * gy v + gz u * gz v.

(** Signed distance to a face, for a unit normal; position moved by whole boxes. *)
Definition height (f : gplane R) (p : gvec R) : R := scalar (gp_n f) p + gp_d f.
Definition moved (p : gvec R) (i : Z * Z * Z) : gvec R :=
  let '(a, b, c) := i in GV (gx p + IZR a) (gy p + IZR b) (gz p + IZR c).

(** [walk tau b cells p q taken]: with real numbers the position [p] goes through [cells] in turn, being moved by each cell it is in, and ends in [q];
    it is farther than [tau] inside all faces of the cells it is in, and farther than [tau] outside one face of the others; coordinates stay below [b]. *)
Inductive walk (tau b : R) : list (gcell R) -> gvec R -> gvec R -> bool -> Prop :=
| walk_end : forall p, within b p -> walk tau b [] p p false
| walk_in : forall c l p q t, within b p -> (forall f, In f (gc_faces c) -> tau < height f p) ->
    walk tau b l (moved p (gc_ipos c)) q t -> walk tau b (c :: l) p q true
| walk_out : forall c l p q t, within b p -> (exists f, In f (gc_faces c) /\ height f p < - tau) ->
    walk tau b l p q t -> walk tau b (c :: l) p q t.

(** Sizes of the numbers stored in a cuboid. *)
Definition stored (n d s : R) (c : gcuboid R) : Prop :=
  (forall k f, In k (gu_cells c) -> In f (gc_faces k) -> within n (gp_n f) /\ Rabs (gp_d f) <= d) /\
  within n (gu_n1 c) /\ within n (gu_n2 c) /\ within n (gu_n3 c) /\ within s (gu_resize c).

(** Fractions of the box; the image of a (moved) fraction, with real numbers. *)
Definition fraction (c : gcuboid R) (x : gvec R) : gvec R :=
  GV (gx x / gx (gu_boxsize c)) (gy x / gy (gu_boxsize c)) (gz x / gz (gu_boxsize c)).
Definition image (c : gcuboid R) (q : gvec R) : gvec R :=
  GV (scalar q (gu_n1 c) * gx (gu_resize c)) (scalar q (gu_n2 c) * gy (gu_resize c)) (scalar q (gu_n3 c) * gz (gu_resize c)).

(** How near a face rounding may decide, for [k] cells, normals below [n], offsets below [d] and coordinates below [b]: a few roundings. *)
Definition margin (eps eta : R) (k : nat) (n d b : R) : R :=
  27 * eps * n * b + eps * d + 10 * eta + 6 * (INR k + 1) * n * (eps * b + eta).
(** The rounding is fine enough for the number of cells. *)
Definition fine (eps eta : R) (k : nat) : Prop := 0 <= eps <= 1 / 100 /\ 0 <= eta <= 1 / 100 /\ 4 * (INR k + 1) * eps <= 1 /\ 4 * (INR k + 1) * eta <= 1.

(** [holds k f r]: the double-precision number [f] is regular (finite, of 53 bits), its real number is [r], below 2^k in size. *)
Definition holds (k : Z) (f : spec_float) (r : R) : Prop :=
  valid_binary 53 1024 f = true /\ value f = Some r /\ Rabs r <= powerRZ 2 k.
Definition vec_holds (k : Z) (f : gvec spec_float) (r : gvec R) : Prop :=
  holds k (gx f) (gx r) /\ holds k (gy f) (gy r) /\ holds k (gz f) (gz r).
Definition plane_holds (k : Z) (f : gplane spec_float) (r : gplane R) : Prop :=
  vec_holds k (gp_n f) (gp_n r) /\ holds k (gp_d f) (gp_d r).
(** Cells: displacements are below 2^53, hence exact. *)
Definition cell_holds (k : Z) (f : gcell spec_float) (r : gcell R) : Prop :=
  gc_ipos f = gc_ipos r /\ Forall2 (plane_holds k) (gc_faces f) (gc_faces r) /\
  let '(a, b, c) := gc_ipos r in (Z.abs a <= 2 ^ 53 /\ Z.abs b <= 2 ^ 53 /\ Z.abs c <= 2 ^ 53)%Z.
Definition cuboid_holds (k : Z) (f : gcuboid spec_float) (r : gcuboid R) : Prop :=
  vec_holds k (gu_boxsize f) (gu_boxsize r) /\ vec_holds k (gu_n1 f) (gu_n1 r) /\ vec_holds k (gu_n2 f) (gu_n2 r) /\ vec_holds k (gu_n3 f) (gu_n3 r) /\
  vec_holds k (gu_resize f) (gu_resize r) /\ Forall2 (cell_holds k) (gu_cells f) (gu_cells r).

(** [close delta c' c]: the cuboids have the same box and the same cells with the same faces, up to [delta] in each number. *)
Definition close_plane (delta : R) (f' f : gplane R) : Prop := near delta (gp_n f') (gp_n f) /\ Rabs (gp_d f' - gp_d f) <= delta.
Definition close_cell (delta : R) (k' k : gcell R) : Prop := gc_ipos k' = gc_ipos k /\ Forall2 (close_plane delta) (gc_faces k') (gc_faces k).
Definition close (delta : R) (c' c : gcuboid R) : Prop :=
  gu_boxsize c' = gu_boxsize c /\ near delta (gu_n1 c') (gu_n1 c) /\ near delta (gu_n2 c') (gu_n2 c) /\ near delta (gu_n3 c') (gu_n3 c) /\
  near delta (gu_resize c') (gu_resize c) /\ Forall2 (close_cell delta) (gu_cells c') (gu_cells c).
