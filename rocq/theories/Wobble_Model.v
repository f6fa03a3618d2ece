(** remap.py:25-289 (class Cuboid and its parts), written for any arithmetic, so as to run it with rounded numbers.
    Remap_Model.v has the version with real numbers. Definitions only. *)
Require Import Reals ZArith List Bool SpecFloat.
From Verif Require Import Base Box_Model.
Import ListNotations.

(** The operations of numpy used by remap.py, on its 'f8' numbers. *)
Record arith : Type := Arith {
  num : Type; of_Z : Z -> num;
  aadd : num -> num -> num; amul : num -> num -> num; adiv : num -> num -> num; aopp : num -> num; asqrt : num -> num;
  altb : num -> num -> bool; aleb : num -> num -> bool; afloor : num -> Z; aceil : num -> Z }.

(** Arrays of shape (3,). *)
Record gvec (F : Type) : Type := GV { gx : F; gy : F; gz : F }.
Arguments GV {F}. Arguments gx {F}. Arguments gy {F}. Arguments gz {F}.
(** remap.py:59-76 [Plane]: n and d. *)
Record gplane (F : Type) : Type := GPlane { gp_n : gvec F; gp_d : F }.
Arguments GPlane {F}. Arguments gp_n {F}. Arguments gp_d {F}.
(** remap.py:116-131 [Cell]. *)
Record gcell (F : Type) : Type := GCell { gc_ipos : Z * Z * Z; gc_faces : list (gplane F) }.
Arguments GCell {F}. Arguments gc_ipos {F}. Arguments gc_faces {F}.
(** remap.py:181-193, the attributes used by [transform]. *)
Record gcuboid (F : Type) : Type := GCuboid {
  gu_boxsize : gvec F; gu_n1 : gvec F; gu_n2 : gvec F; gu_n3 : gvec F; gu_resize : gvec F; gu_cells : list (gcell F) }.
Arguments GCuboid {F}. Arguments gu_boxsize {F}. Arguments gu_n1 {F}. Arguments gu_n2 {F}. Arguments gu_n3 {F}.
Arguments gu_resize {F}. Arguments gu_cells {F}.

Section Any.
Variable A : arith.
Notation F := (num A).
Notation "a +' b" := (aadd A a b) (at level 50, left associativity).
Notation "a *' b" := (amul A a b) (at level 40, left associativity).
Notation "a /' b" := (adiv A a b) (at level 40, left associativity).
Notation "-' a" := (aopp A a) (at level 35).

(** numpy's elementwise operations. *)
Definition gadd (u v : gvec F) : gvec F := GV (gx u +' gx v) (gy u +' gy v) (gz u +' gz v).
Definition gmul (u v : gvec F) : gvec F := GV (gx u *' gx v) (gy u *' gy v) (gz u *' gz v).
Definition gdiv (u v : gvec F) : gvec F := GV (gx u /' gx v) (gy u /' gy v) (gz u /' gz v).
Definition gscale (k : F) (v : gvec F) : gvec F := GV (k *' gx v) (k *' gy v) (k *' gz v).
Definition gopp (v : gvec F) : gvec F := GV (-' gx v) (-' gy v) (-' gz v).
(** remap.py:19-22 [vec3], of integers. *)
Definition gvec_of (i : Z * Z * Z) : gvec F := let '(a, b, c) := i in GV (of_Z A a) (of_Z A b) (of_Z A c).

(** remap.py:25-27 [dot]: Python's sum starts from 0. *)
Definition gdot (u v : gvec F) : F := of_Z A 0 +' gx u *' gx v +' gy u *' gy v +' gz u *' gz v.
(** remap.py:30-37 [square] and [norm]. *)
Definition gnorm (v : gvec F) : F := asqrt A (gdot v v).

(** remap.py:45-56 [orthogonalize]; a division by zero is left to the arithmetic. *)
Definition gorthogonalize (u1 u2 u3 : gvec F) : gvec F * gvec F * gvec F :=
  let s1 := gdot u1 u1 in
  let s2 := gdot u2 u2 in
  let d12 := gdot u1 u2 in
  let d23 := gdot u2 u3 in
  let d13 := gdot u1 u3 in
  let alpha := (-' d12) /' s1 in
  let gamma := (-' (alpha *' d13 +' d23)) /' (alpha *' d12 +' s2) in
  let beta := (-' (d13 +' gamma *' d12)) /' s1 in
  (u1, gadd u2 (gscale alpha u1), gadd (gadd u3 (gscale beta u1)) (gscale gamma u2)).

(** remap.py:63-76 [Plane.__init__]. *)
Definition gplane_new (p n : gvec F) : gplane F := GPlane n (-' gdot p n).
(** remap.py:83-98 [Plane.test], on one row. *)
Definition gtest (f : gplane F) (x : gvec F) : F := gdot (gp_n f) x +' gp_d f.
(** remap.py:109. *)
Definition gcube : list (gvec F) :=
  flat_map (fun x => flat_map (fun y => map (fun z => GV x y z) [of_Z A 0; of_Z A 1]) [of_Z A 0; of_Z A 1]) [of_Z A 0; of_Z A 1].
(** remap.py:100-113 [Plane.test_unit_cube]. *)
Definition gtest_unit_cube (f : gplane F) : Z :=
  let above := existsb (fun x => altb A (of_Z A 0) (gtest f x)) gcube in
  let below := existsb (fun x => altb A (gtest f x) (of_Z A 0)) gcube in
  ((if above then 1 else 0) - (if below then 1 else 0))%Z.
(** remap.py:133-140 [Cell.isin], on one row. *)
Definition gisin (c : gcell F) (x : gvec F) : bool := forallb (fun f => aleb A (of_Z A 0) (gtest f x)) (gc_faces c).

(** remap.py:195-204. *)
Definition gvertices (e1 e2 e3 : gvec F) : list (gvec F) :=
  let v0 := gvec_of (0, 0, 0)%Z in
  [v0; gadd v0 e3; gadd v0 e2; gadd (gadd v0 e2) e3; gadd v0 e1; gadd (gadd v0 e1) e3; gadd (gadd v0 e1) e2; gadd (gadd (gadd v0 e1) e2) e3].
(** remap.py:207-208: np.min and np.max. *)
Definition gmin (l : list F) : F := match l with [] => of_Z A 0 | x :: l => fold_left (fun a b => if altb A b a then b else a) l x end.
Definition gmax (l : list F) : F := match l with [] => of_Z A 0 | x :: l => fold_left (fun a b => if altb A a b then b else a) l x end.
(** remap.py:206-215. *)
Definition girange (coord : gvec F -> F) (vs : list (gvec F)) : list Z :=
  let lo := afloor A (gmin (map coord vs)) in
  let hi := aceil A (gmax (map coord vs)) in
  map (fun k => (lo + Z.of_nat k)%Z) (seq 0 (Z.to_nat (hi - lo))).
(** remap.py:216: itertools.product. *)
Definition gproduct (a b c : list Z) : list (Z * Z * Z) :=
  flat_map (fun x => flat_map (fun y => map (fun z => (x, y, z)) c) b) a.
(** remap.py:217-223. *)
Definition gtile_faces (e1 e2 e3 n1 n2 n3 : gvec F) (i : Z * Z * Z) : list (gplane F) :=
  let shift := gopp (gvec_of i) in
  let v := gvertices e1 e2 e3 in
  let v0 := gvec_of (0, 0, 0)%Z in
  [gplane_new (gadd (nth 0 v v0) shift) n1; gplane_new (gadd (nth 4 v v0) shift) (gopp n1);
   gplane_new (gadd (nth 0 v v0) shift) n2; gplane_new (gadd (nth 2 v v0) shift) (gopp n2);
   gplane_new (gadd (nth 0 v v0) shift) n3; gplane_new (gadd (nth 1 v v0) shift) (gopp n3)].
(** remap.py:226-236: None if the tile is skipped by [break]. *)
Fixpoint gkeep_faces (l : list (gplane F)) : option (list (gplane F)) :=
  match l with
  | [] => Some []
  | f :: l =>
    let r := gtest_unit_cube f in
    if (r =? -1)%Z then None else
    match gkeep_faces l with
    | None => None
    | Some k => Some (if (r =? 0)%Z then f :: k else k)
    end
  end.
(** remap.py:217-241: one tile. *)
Definition gtile_cell (e1 e2 e3 n1 n2 n3 : gvec F) (i : Z * Z * Z) : list (gcell F) :=
  match gkeep_faces (gtile_faces e1 e2 e3 n1 n2 n3 i) with
  | None => []
  | Some [] => []
  | Some faces => [GCell i faces]
  end.
(** remap.py:206-245. *)
Definition gcells (e1 e2 e3 n1 n2 n3 : gvec F) : list (gcell F) :=
  let v := gvertices e1 e2 e3 in
  let l := flat_map (gtile_cell e1 e2 e3 n1 n2 n3) (gproduct (girange gx v) (girange gy v) (girange gz v)) in
  match l with [] => [GCell (0, 0, 0)%Z []] | _ => l end.

(** remap.py:40-42 [det3], of integers: Python's integers are not rounded. *)
Definition idet3 (u v w : Z * Z * Z) : Z :=
  let '(u0, u1, u2) := u in let '(v0, v1, v2) := v in let '(w0, w1, w2) := w in
  (u0 * (v1 * w2 - v2 * w1) + u1 * (v2 * w0 - v0 * w2) + u2 * (v0 * w1 - v1 * w0))%Z.

(** remap.py:155-250 [Cuboid.__init__], for lattice vectors given as tuples of integers. *)
Definition gcuboid_new (u1 u2 u3 : Z * Z * Z) (boxsize : gvec F) : result (gcuboid F) :=
  if negb (idet3 u1 u2 u3 =? 1)%Z then Err ValueError else
  let '(e1, e2, e3) := gorthogonalize (gvec_of u1) (gvec_of u2) (gvec_of u3) in
  let unit e := let n := gnorm e in GV (gx e /' n) (gy e /' n) (gz e /' n) in
  let n1 := unit e1 in
  let n2 := unit e2 in
  let n3 := unit e3 in
  Ok (GCuboid boxsize n1 n2 n3 (GV (gnorm (gmul boxsize n1)) (gnorm (gmul boxsize n2)) (gnorm (gmul boxsize n3))) (gcells e1 e2 e3 n1 n2 n3)).

(** remap.py:276, 286: [dot(position.T, n) for n in ...]. *)
Definition gproject (c : gcuboid F) (x : gvec F) : gvec F := GV (gdot x (gu_n1 c)) (gdot x (gu_n2 c)) (gdot x (gu_n3 c)).
(** remap.py:279-283: the loop over cells, on one row. *)
Definition gloop (cells : list (gcell F)) (x : gvec F) : bool * gvec F :=
  fold_left (fun '(m, p) c => if gisin c p then (true, gadd p (gvec_of (gc_ipos c))) else (m, p)) cells (false, x).
(** remap.py:252-289 [transform] with translational_invariant = False, on one row of floats; the error of line 285 is raised if any row fails. *)
Definition gtransform1 (c : gcuboid F) (x : gvec F) : result (gvec F) :=
  match gloop (gu_cells c) (gdiv x (gu_boxsize c)) with
  | (true, p) => Ok (gmul (gproject c p) (gu_resize c))
  | (false, _) => Err CuboidError
  end.
Definition gtransform (c : gcuboid F) (l : list (gvec F)) : result (list (gvec F)) := map_result (gtransform1 c) l.
End Any.

Open Scope R_scope.
(** Real numbers, without rounding. *)
Definition exact : arith :=
  Arith R IZR Rplus Rmult Rdiv Ropp sqrt Rltb Rleb Rfloor Rceil.
(** Real numbers, rounded after every operation that may be inexact. Overflow, NaN and signed zeros are left out. *)
Definition rounded (rnd : R -> R) : arith :=
  Arith R IZR (fun a b => rnd (a + b)) (fun a b => rnd (a * b)) (fun a b => rnd (a / b)) Ropp (fun a => rnd (sqrt a)) Rltb Rleb Rfloor Rceil.
(** IEEE double precision (53 bits, exponents below 1024, rounding to nearest, ties to even), from the standard library.
    Integers are small enough to be exact. *)
Definition sf_floor (x : spec_float) : Z :=
  match x with
  | S754_finite s m e => let m := if s then Zneg m else Zpos m in if (0 <=? e)%Z then (m * 2 ^ e)%Z else (m / 2 ^ (- e))%Z
  | _ => 0%Z
  end.
Definition binary64 : arith :=
  Arith spec_float (fun z => binary_normalize 53 1024 z 0 false) (SFadd 53 1024) (SFmul 53 1024) (SFdiv 53 1024) SFopp (SFsqrt 53 1024) SFltb SFleb
    sf_floor (fun x => (- sf_floor (SFopp x))%Z).
