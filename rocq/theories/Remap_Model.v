(** Model of mockfactory/remap.py:25-322 (class Cuboid) and of BoxCatalog.remap, make_survey.py:774-808. *)
Require Import Reals ZArith List Bool String.
From Verif Require Import Base Vec3 Sky_Model Cutsky_Model Box_Model.
Import ListNotations.
Open Scope R_scope.

(** remap.py:25-27 [dot] (Python's sum starts from 0). *)
Definition rdot (u v : vec) : R := 0 + vx u * vx v + vy u * vy v + vz u * vz v.
(** remap.py:30-32 [square]. *)
Definition rsquare (v : vec) : R := rdot v v.
(** remap.py:35-37 [norm]. *)
Definition rnorm (v : vec) : R := sqrt (rsquare v).
(** remap.py:40-42 [det3]. *)
Definition det3 (u v w : vec) : R :=
  vx u * (vy v * vz w - vz v * vy w) + vy u * (vz v * vx w - vx v * vz w) + vz u * (vx v * vy w - vy v * vx w).

(** remap.py:45-56 [orthogonalize]; a division by zero (NaN in numpy) is an error. *)
Definition orthogonalize (u1 u2 u3 : vec) : result (vec * vec * vec) :=
  let s1 := rsquare u1 in
  let s2 := rsquare u2 in
  let d12 := rdot u1 u2 in
  let d23 := rdot u2 u3 in
  let d13 := rdot u1 u3 in
  do alpha <- fdiv (- d12) s1;
  do gamma <- fdiv (- (alpha * d13 + d23)) (alpha * d12 + s2);
  do beta <- fdiv (- (d13 + gamma * d12)) s1;
  Ok (u1, vadd u2 (vscale alpha u1), vadd (vadd u3 (vscale beta u1)) (vscale gamma u2)).

(** remap.py:59-76 [Plane.__init__]: attributes n and d. *)
Record plane : Type := Plane { pl_n : vec; pl_d : R }.
Definition plane_new (p n : vec) : plane := Plane n (- rdot p n).

(** remap.py:83-98 [Plane.test], on one row. *)
Definition plane_test (f : plane) (x : vec) : R := rdot (pl_n f) x + pl_d f.

(** remap.py:109: the vertices of the unit cube. *)
Definition cube : list vec :=
  flat_map (fun x => flat_map (fun y => map (fun z => V x y z) [0; 1]) [0; 1]) [0; 1].

(** remap.py:100-113 [Plane.test_unit_cube]. *)
Definition test_unit_cube (f : plane) : Z :=
  let above := existsb (fun x => Rltb 0 (plane_test f x)) cube in
  let below := existsb (fun x => Rltb (plane_test f x) 0) cube in
  ((if above then 1 else 0) - (if below then 1 else 0))%Z.

(** remap.py:116-131 [Cell]. *)
Definition ipos : Type := (Z * Z * Z)%type.
Record cell : Type := Cell { c_ipos : ipos; c_faces : list plane }.
Definition vec_of (i : ipos) : vec := let '(a, b, c) := i in V (IZR a) (IZR b) (IZR c).

(** remap.py:133-140 [Cell.isin], on one row. *)
Definition isin (c : cell) (x : vec) : bool := forallb (fun f => Rleb 0 (plane_test f x)) (c_faces c).

(** remap.py:181-193: attributes of a cuboid. Vertices [self.v] (lines 197-204) are recomputed where used. *)
Record cuboid : Type := Cuboid {
  cu_boxsize : vec; cu_n1 : vec; cu_n2 : vec; cu_n3 : vec; cu_resize : vec; cu_size : vec; cu_cells : list cell }.

(** remap.py:197-204, in the same order. *)
Definition vertices (e1 e2 e3 : vec) : list vec :=
  let v0 := vzero in
  [v0; vadd v0 e3; vadd v0 e2; vadd (vadd v0 e2) e3; vadd v0 e1; vadd (vadd v0 e1) e3; vadd (vadd v0 e1) e2; vadd (vadd (vadd v0 e1) e2) e3].

(** np.min / np.max of a non-empty list. *)
Definition list_min (l : list R) : R := match l with [] => 0 | x :: l => fold_left Rmin l x end.
Definition list_max (l : list R) : R := match l with [] => 0 | x :: l => fold_left Rmax l x end.

(** np.arange(lo, hi) for integers. *)
Definition arange (lo hi : Z) : list Z := map (fun k => (lo + Z.of_nat k)%Z) (seq 0 (Z.to_nat (hi - lo))).

(** remap.py:206-215: range of tile labels along one axis. *)
Definition irange (coord : vec -> R) (vs : list vec) : list Z :=
  arange (Rfloor (list_min (map coord vs))) (Rceil (list_max (map coord vs))).

(** itertools.product of three sequences. *)
Definition iproduct (a b c : list Z) : list ipos :=
  flat_map (fun x => flat_map (fun y => map (fun z => (x, y, z)) c) b) a.

(** remap.py:217-223: the six faces of the cuboid seen from tile [i]. *)
Definition tile_faces (e1 e2 e3 n1 n2 n3 : vec) (i : ipos) : list plane :=
  let shift := vopp (vec_of i) in
  let v := vertices e1 e2 e3 in
  [plane_new (vadd (nth 0 v vzero) shift) n1; plane_new (vadd (nth 4 v vzero) shift) (vopp n1);
   plane_new (vadd (nth 0 v vzero) shift) n2; plane_new (vadd (nth 2 v vzero) shift) (vopp n2);
   plane_new (vadd (nth 0 v vzero) shift) n3; plane_new (vadd (nth 1 v vzero) shift) (vopp n3)].

(** remap.py:226-236, the loop over faces: None if the tile is skipped by [break]. *)
Fixpoint keep_faces (l : list plane) : option (list plane) :=
  match l with
  | [] => Some []
  | f :: l =>
    let r := test_unit_cube f in
    if (r =? -1)%Z then None else
    match keep_faces l with
    | None => None
    | Some k => Some (if (r =? 0)%Z then f :: k else k)
    end
  end.

(** remap.py:217-241: one tile; no cell if skipped or without face. *)
Definition tile_cell (e1 e2 e3 n1 n2 n3 : vec) (i : ipos) : list cell :=
  match keep_faces (tile_faces e1 e2 e3 n1 n2 n3 i) with
  | None => []
  | Some [] => []
  | Some faces => [Cell i faces]
  end.

(** remap.py:206-245: list of cells, one default cell without faces if the list is empty. *)
Definition cuboid_cells (e1 e2 e3 n1 n2 n3 : vec) : list cell :=
  let v := vertices e1 e2 e3 in
  let l := flat_map (tile_cell e1 e2 e3 n1 n2 n3) (iproduct (irange vx v) (irange vy v) (irange vz v)) in
  match l with [] => [Cell (0, 0, 0)%Z []] | _ => l end.

(** e / |e|, remap.py:186-189. *)
Definition unit_of (e : vec) : result vec :=
  let n := rnorm e in if Req_EM_T n 0 then Err ZeroDivision else Ok (V (vx e / n) (vy e / n) (vz e / n)).

(** remap.py:155-250 [Cuboid.__init__]; [boxsize] after _make_array (line 185; lines 12-16, and 19-22 [vec3]). *)
Definition cuboid_new (u1 u2 u3 boxsize : vec) : result cuboid :=
  if Req_EM_T (det3 u1 u2 u3) 1 then
    do e <- orthogonalize u1 u2 u3;
    let '(e1, e2, e3) := e in
    do n1 <- unit_of e1; do n2 <- unit_of e2; do n3 <- unit_of e3;
    let resize := V (rnorm (vmul boxsize n1)) (rnorm (vmul boxsize n2)) (rnorm (vmul boxsize n3)) in
    let size := V (vx resize * rnorm e1) (vy resize * rnorm e2) (vz resize * rnorm e3) in
    Ok (Cuboid boxsize n1 n2 n3 resize size (cuboid_cells e1 e2 e3 n1 n2 n3))
  else Err ValueError.

(** [dot(position.T, n) for n in ...], remap.py:276, 286. *)
Definition project (c : cuboid) (x : vec) : vec := V (rdot x (cu_n1 c)) (rdot x (cu_n2 c)) (rdot x (cu_n3 c)).

(** remap.py:279-283: the loop over cells, which moves [position] as it goes; (mask, position) for one row. *)
Definition loop_cells (cells : list cell) (x : vec) : bool * vec :=
  fold_left (fun '(m, p) c => if isin c p then (true, vadd p (vec_of (c_ipos c))) else (m, p)) cells (false, x).

(** Componentwise division, NaN or infinity as an error. *)
Definition vdiv_result (a b : vec) : result vec :=
  do x <- fdiv (vx a) (vx b); do y <- fdiv (vy a) (vy b); do z <- fdiv (vz a) (vz b); Ok (V x y z).

(** remap.py:252-289 [transform], on one row; rows are independent, and the error of line 285 is raised if any row fails.
    Simplification: integer arrays, for which line 278 raises, are not represented. *)
Definition cu_transform1 (c : cuboid) (ti : bool) (x : vec) : result vec :=
  if ti then Ok (project c x)
  else do p <- vdiv_result x (cu_boxsize c);
       match loop_cells (cu_cells c) p with
       | (true, p) => Ok (vmul (project c p) (cu_resize c))
       | (false, _) => Err CuboidError
       end.
Definition cu_transform (c : cuboid) (ti : bool) (l : list vec) : result (list vec) := map_result (cu_transform1 c ti) l.

(** sum(p[:, None] * n for ...), remap.py:313, 318. *)
Definition combine3 (c : cuboid) (p : vec) : vec :=
  vadd (vadd (vadd vzero (vscale (vx p) (cu_n1 c))) (vscale (vy p) (cu_n2 c))) (vscale (vz p) (cu_n3 c)).

(** remap.py:291-322 [inverse_transform], on one row. *)
Definition cu_inverse1 (c : cuboid) (ti : bool) (y : vec) : result vec :=
  if ti then Ok (combine3 c y)
  else do p <- vdiv_result y (cu_resize c);
       let p := combine3 c p in
       Ok (vmul (V (Rmod (vx p) 1) (Rmod (vy p) 1) (Rmod (vz p) 1)) (cu_boxsize c)).
Definition cu_inverse (c : cuboid) (ti : bool) (l : list vec) : result (list vec) := map_result (cu_inverse1 c ti) l.

(** Arguments of BoxCatalog.remap: a Cuboid, or lattice vectors (given one by one or as one sequence). *)
Inductive remap_arg : Type := RCuboid (c : cuboid) | RVectors (l : list vec).

(** make_survey.py:789-797: missing third (or second) vectors take the default of remap.py:155; one vector alone leaves
    [cuboid] unbound. *)
Definition remap_cuboid (size : vec) (a : remap_arg) : result cuboid :=
  match a with
  | RCuboid c => Ok c
  | RVectors [] => Err ValueError
  | RVectors [u1] => Err NameError
  | RVectors [u1; u2] => cuboid_new u1 u2 (V 0 0 1) size
  | RVectors [u1; u2; u3] => cuboid_new u1 u2 u3 size
  | RVectors _ => Err TypeError
  end.

(** make_survey.py:802-804, one column. *)
Definition remap_col (cu : cuboid) (offset cuboidoffset : vec) (ti : bool) (c : col) : result col :=
  match c with
  | ColS _ => Err ValueError
  | ColV l =>
    if ti then do l' <- cu_transform cu true l; Ok (ColV l')
    else do l' <- cu_transform cu false (map (fun x => vsub x offset) l); Ok (ColV (map (fun y => vadd y cuboidoffset) l'))
  end.

(** make_survey.py:774-808 [BoxCatalog.remap]. *)
Definition remap (c : boxcat) (a : remap_arg) : result boxcat :=
  do cu <- remap_cuboid (boxsize c) a;
  let offset := vsub (boxcenter c) (vscale (1 / 2) (boxsize c)) in
  let cuboidoffset := vsub (boxcenter c) (vscale (1 / 2) (cu_size cu)) in
  let cat := bc_cat c in
  do d <- map_cols (fun n x => if mem n (pc_vectors cat) then remap_col cu offset cuboidoffset (mem n (pc_invariants cat)) x else Ok x) (pc_data cat);
  Ok (BoxCat (PCat d (pc_position cat) (pc_velocity cat) (pc_vectors cat) (pc_invariants cat)) (cu_size cu) (boxcenter c)).
