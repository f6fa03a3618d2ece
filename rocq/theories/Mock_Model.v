(** Model of Gaussian mocks: gaussian_mock.py, eulerian_mock.py and lagrangian_mock.py. A mesh with [n] cells is a function of the
    cell index. Complex fields are on the full mesh (pmesh stores half of it and the other half is its conjugate). The arrays are
    shared by processes; a slab holds part of the cells, and what is done on slabs is done on cells. *)
Require Import Reals ZArith List Bool.
From Verif Require Import Base Vec3 Isometry_Model Sky_Model Cutsky_Model Box_Model Rsd_Model.
Import ListNotations.
Open Scope R_scope.

(** A number for all axes, or one per axis (an array of length 3). *)
Inductive arg (A : Type) : Type := Scalar (a : A) | Triple (a b c : A).
Arguments Scalar {A} a. Arguments Triple {A} a b c.
(** gaussian_mock.py:10-14 [_make_array] with shape 3: component of the array made of an argument. *)
Definition first {A} (v : arg A) : A := match v with Scalar a => a | Triple a _ _ => a end.
Definition second {A} (v : arg A) : A := match v with Scalar a => a | Triple _ b _ => b end.
Definition third {A} (v : arg A) : A := match v with Scalar a => a | Triple _ _ c => c end.
(** Element-wise operation of numpy on such arguments. *)
Definition arg2 {A B C} (f : A -> B -> C) (x : arg A) (y : arg B) : arg C :=
  match x, y with
  | Scalar a, Scalar b => Scalar (f a b)
  | _, _ => Triple (f (first x) (first y)) (f (second x) (second y)) (f (third x) (third y))
  end.
(** np.rint: nearest integer, halves to even. *)
Definition rint (x : R) : Z :=
  let f := Rfloor x in
  if Rlt_dec (x - IZR f) (1 / 2) then f else if Rlt_dec (1 / 2) (x - IZR f) then (f + 1)%Z else if Z.even f then f else (f + 1)%Z.
Definition nonzero (v : arg R) : bool := negb (Reqb (first v) 0) && negb (Reqb (second v) 0) && negb (Reqb (third v) 0).
(** gaussian_mock.py:234-248: box size and mesh size given to pmesh's ParticleMesh. *)
Definition mesh_geometry (nmesh : option (arg BinNums.Z)) (boxsize cellsize : option (arg R)) : result (vec * (BinNums.Z * BinNums.Z * BinNums.Z)) :=
  do boxsize <- match boxsize, cellsize, nmesh with
                | Some b, _, _ => Ok b
                | None, Some c, Some n => Ok (arg2 (fun n c => IZR n * c) n c)
                | None, _, _ => Err ValueError
                end;
  do nmesh <- match nmesh, cellsize with
              | Some n, _ => Ok n
              | None, Some c => if nonzero c then Ok (arg2 (fun b c => rint (b / c)) boxsize c) else Err ZeroDivision
              | None, None => Err ValueError
              end;
  Ok (V (first boxsize) (second boxsize) (third boxsize), (first nmesh, second nmesh, third nmesh)).

(** Cells of a mesh, in C order, and number of cells along each axis. *)
Record idx : Type := I { ix : nat; iy : nat; iz : nat }.
Definition cells (n : idx) : list idx :=
  flat_map (fun a => flat_map (fun b => map (fun c => I a b c) (seq 0 (iz n))) (seq 0 (iy n))) (seq 0 (ix n)).
Definition size (n : idx) : R := INR (ix n) * INR (iy n) * INR (iz n).
(** Values on a mesh; NaN anywhere is an error. *)
Definition tabulate {A} (n : idx) (f : idx -> result A) (default : A) : result (idx -> A) :=
  if forallb (fun x => is_ok (f x)) (cells n) then Ok (fun x => match f x with Ok v => v | Err _ => default end) else Err ZeroDivision.

(** Complex numbers. *)
Record cplx : Type := Cx { re : R; im : R }.
Definition cadd (a b : cplx) : cplx := Cx (re a + re b) (im a + im b).
Definition cmul (a b : cplx) : cplx := Cx (re a * re b - im a * im b) (re a * im b + im a * re b).
Definition cscale (t : R) (a : cplx) : cplx := Cx (t * re a) (t * im a).
Definition expi (t : R) : cplx := Cx (cos t) (sin t).

(** pmesh's Fourier transforms, RealField.r2c (with its factor 1 / N) and ComplexField.c2r. *)
Definition phase (n k x : idx) : R :=
  2 * PI * (INR (ix k) * INR (ix x) / INR (ix n) + INR (iy k) * INR (iy x) / INR (iy n) + INR (iz k) * INR (iz x) / INR (iz n)).
Definition c2r (n : idx) (c : idx -> cplx) (x : idx) : R := Rsum (map (fun k => re (cmul (c k) (expi (phase n k x)))) (cells n)).
Definition r2c (n : idx) (f : idx -> R) (k : idx) : cplx :=
  Cx (/ size n * Rsum (map (fun x => f x * cos (phase n k x)) (cells n))) (/ size n * Rsum (map (fun x => f x * - sin (phase n k x)) (cells n))).
(** pmesh's wavenumbers, slabs.x of a complex field: [freq n i] is the signed frequency of index [i]. *)
Definition wave (freq : nat -> nat -> BinNums.Z) (box : vec) (n k : idx) : vec :=
  V (2 * PI / vx box * IZR (freq (ix n) (ix k))) (2 * PI / vy box * IZR (freq (iy n) (iy k))) (2 * PI / vz box * IZR (freq (iz n) (iz k))).

(** gaussian_mock.py:47-56 [_transform_rslab], on one coordinate. *)
Definition transform_rslab (r box : R) : R := if Rltb r 0 then r + box else r.
(** pmesh's coordinates, slabs.x of a real field: index times cell size, minus the box size for some indices. *)
Definition slab_x (neg : nat -> nat -> bool) (box : R) (n i : nat) : R := INR i * box / INR n - (if neg n i then box else 0).
(** gaussian_mock.py:352-354: point of the mesh, [offset] included. *)
Definition point (neg : nat -> nat -> bool) (box offset : vec) (n x : idx) : vec :=
  V (transform_rslab (slab_x neg (vx box) (ix n) (ix x)) (vx box) + vx offset)
    (transform_rslab (slab_x neg (vy box) (iy n) (iy x)) (vy box) + vy offset)
    (transform_rslab (slab_x neg (vz box) (iz n) (iz x)) (vz box) + vz offset).
(** gaussian_mock.py:347. *)
Definition corner (box center : vec) : vec := V (vx center - vx box / 2) (vy center - vy box / 2) (vz center - vz box / 2).

(** gaussian_mock.py:310-325, one mode; [los] is a unit vector. *)
Definition mode_power (power : R -> option R -> R) (los : option vec) (k : vec) : R :=
  let norm := sqrt (vdot k k) in
  if Req_EM_T norm 0 then 0 else
  match los with
  | Some l => power norm (Some (vdot k l / norm))
  | None => power norm None
  end.
(** gaussian_mock.py:300-327 [set_complex_delta_field]. The square root of a negative power is NaN. *)
Definition set_complex_delta_field (freq : nat -> nat -> BinNums.Z) (box : vec) (n : idx) (power : R -> option R -> R) (los : option vec)
    (noise : idx -> cplx) (inverted : bool) : result (idx -> cplx) :=
  do norm <- fdiv 1 (vx box * vy box * vz box);
  tabulate n (fun k =>
    let noise := if inverted then cscale (-1) (noise k) else noise k in
    let p := mode_power power los (wave freq box n k) * norm in
    if Rlt_dec p 0 then Err ZeroDivision else Ok (cscale (sqrt p) noise)) (Cx 0 0).

(** A bias: a number, or a function of the density and of the distance. *)
Inductive bias_arg : Type := BNum (b : R) | BFun (b : R -> R -> R).
(** mesh.cmean. *)
Definition mean (n : idx) (f : idx -> R) : result R := fdiv (Rsum (map f (cells n))) (size n).
(** gaussian_mock.py:329-359 [set_real_delta_field]. *)
Definition set_real_delta_field (neg : nat -> nat -> bool) (box center : vec) (n : idx) (delta_k : idx -> cplx) (bias : option bias_arg) (lognormal : bool) : result (idx -> R) :=
  let delta := c2r n delta_k in
  let delta := match bias with
               | None => delta
               | Some (BNum b) => fun x => delta x * b
               | Some (BFun b) => fun x => b (delta x) (distance (point neg box (corner box center) n x))
               end in
  if lognormal then do m <- mean n (fun x => exp (delta x)); Ok (fun x => exp (delta x) / m - 1) else Ok delta.

(** eulerian_mock.py:62-63: the zero mode is not divided by zero. *)
Definition safe_k2 (k : vec) : R := let k2 := vdot k k in if Req_EM_T k2 0 then 1 else k2.
Definition component (v : vec) (i : nat) : R := match i with O => vx v | 1%nat => vy v | _ => vz v end.
Definition index (v : idx) (i : nat) : nat := match i with O => ix v | 1%nat => iy v | _ => iz v end.
(** eulerian_mock.py:60-66. *)
Definition fixed_kernel (k los : vec) : R := (vdot k los / sqrt (safe_k2 k)) ^ 2.
(** eulerian_mock.py:76-80. *)
Definition at_half (n k : idx) (i : nat) : bool := Nat.eqb (index k i) (Nat.div (index n i) 2).
Definition local_mask (n k : idx) (i j : nat) : bool := (negb (at_half n k i) && negb (at_half n k j)) || (at_half n k i && at_half n k j).
Definition local_kernel (n k : idx) (w : vec) (i j : nat) : R := component w i * component w j / safe_k2 w * (if local_mask n k i j then 1 else 0).
(** eulerian_mock.py:72-73: the pairs of axes of the loop. *)
Definition pairs : list (nat * nat) := [(0, 0); (0, 1); (0, 2); (1, 1); (1, 2); (2, 2)]%nat.
(** eulerian_mock.py:35-99 [set_rsd]. Lines 82-87 give NaN at a point at the observer. *)
Definition eulerian_set_rsd (freq : nat -> nat -> BinNums.Z) (neg : nat -> nat -> bool) (box center : vec) (n : idx) (delta_k : idx -> cplx) (delta : idx -> R)
    (f : factor) (los : option axis_arg) : result (idx -> R) :=
  let r x := point neg box (corner box center) n x in
  do total <- match los with
    | Some a =>
      do l <- get_los a;
      let t := c2r n (fun k => cscale (fixed_kernel (wave freq box n k) l) (delta_k k)) in
      Ok (match f with FNum f => fun x => t x * f | FFun _ => t end)
    | None =>
      tabulate n (fun x =>
        let r2 := vx (r x) ^ 2 + vy (r x) ^ 2 + vz (r x) ^ 2 in
        if Req_EM_T r2 0 then Err ZeroDivision else
        Ok (Rsum (map (fun p =>
          let '(i, j) := p in
          let factor := 1 + (if Nat.eqb i j then 0 else 1) in
          let factor := match f with FNum f => factor * f | FFun _ => factor end in
          factor * (c2r n (fun k => cscale (local_kernel n k (wave freq box n k) i j) (delta_k k)) x * (component (r x) i * component (r x) j / r2))) pairs))) 0
    end;
  let total := match f with FFun f => fun x => total x * f (distance (r x)) | FNum _ => total end in
  Ok (fun x => delta x + total x).

(** lagrangian_mock.py:53-62: displacement along axis [i], in Fourier space. *)
Definition displacement_k (freq : nat -> nat -> BinNums.Z) (box : vec) (n : idx) (delta_k : idx -> cplx) (i : nat) (k : idx) : cplx :=
  let w := wave freq box n k in
  cmul (delta_k k) (Cx 0 (component w i / safe_k2 w * (if at_half n k i then 0 else 1))).
Definition displacement (freq : nat -> nat -> BinNums.Z) (box : vec) (n : idx) (delta_k : idx -> cplx) (i : nat) : idx -> R := c2r n (displacement_k freq box n delta_k i).

(** gaussian_mock.py:388-401 and 412-418: the selection function on the mesh, with an offset. *)
Definition paint (neg : nat -> nat -> bool) (box offset : vec) (n : idx) (nbar : R -> R -> R -> R) : result (idx -> R) :=
  tabulate n (fun x => do s <- cartesian_to_sky true (point neg box offset n x); let '(dist, ra, dec) := s in Ok (nbar dist ra dec)) 0.
Definition cell_size (box : vec) (n : idx) : vec := V (vx box / INR (ix n)) (vy box / INR (iy n)) (vz box / INR (iz n)).
(** gaussian_mock.py:412-422: the loop over shifted meshes; [todo] shifts of which the first is [i] / [order]. *)
Fixpoint interlace (freq : nat -> nat -> BinNums.Z) (neg : nat -> nat -> bool) (box offset : vec) (n : idx) (nbar : R -> R -> R -> R) (order i todo : nat) (acc : idx -> cplx) : result (idx -> cplx) :=
  match todo with
  | O => Ok acc
  | S todo =>
    let offset := vsub offset (vscale (1 / 2) (cell_size box n)) in
    do shifted <- paint neg box offset n nbar;
    let acc k := cadd (acc k) (cmul (r2c n shifted k) (expi (INR i / INR order * vdot (wave freq box n k) (cell_size box n)))) in
    interlace freq neg box offset n nbar order (S i) todo acc
  end.
(** gaussian_mock.py:361-424 [set_analytic_selection_function] with a callable; [interlacing] is 0 for False and 1 for True. *)
Definition set_selection (freq : nat -> nat -> BinNums.Z) (neg : nat -> nat -> bool) (box center : vec) (n : idx) (nbar : R -> R -> R -> R) (interlacing : nat) : result (idx -> R) :=
  do mesh <- paint neg box (corner box center) n nbar;
  match interlacing with
  | O => Ok mesh
  | _ =>
    let order := if Nat.eqb interlacing 1 then 2%nat else interlacing in
    do acc <- interlace freq neg box (corner box center) n nbar order 1 (order - 1) (r2c n mesh);
    Ok (fun x => c2r n acc x / INR order)
  end.

(** Identifier of a cell in pmesh's generate_uniform_particle_grid: its rank in C order. *)
Definition cell_id (n x : idx) : nat := ((ix x * iy n + iy x) * iz n + iz x)%nat.
(** mpsort.sort(positions, orderby=ids): stable sort of the arrays of all processes. *)
Fixpoint insert {A} (x : nat * A) (l : list (nat * A)) : list (nat * A) :=
  match l with
  | [] => [x]
  | y :: l' => if Nat.leb (fst x) (fst y) then x :: l else y :: insert x l'
  end.
Definition sort_by_id {A} (l : list (nat * A)) : list A := map snd (fold_right insert [] l).
(** Position of a point of the grid of particles. *)
Definition grid_point (box : vec) (n x : idx) : vec := V (INR (ix x) * (vx box / INR (ix n))) (INR (iy x) * (vy box / INR (iy n))) (INR (iz x) * (vz box / INR (iz n))).
(** gaussian_mock.py:501-554 [poisson_sample]. [poisson] gives one number per mean value, and fails on a negative one; [parts] is
    the list of cells of each process; [uniform m] gives a triple of numbers in [0, 1) for each of [m] objects. *)
Definition poisson_sample (box center : vec) (n : idx) (delta nbar : idx -> R) (poisson : list R -> list nat) (parts : list (list idx)) (uniform : nat -> list vec) : result (list vec) :=
  let c := cell_size box n in
  let dv := vx c * vy c * vz c in
  let lam := map (fun x => (1 + delta x) * nbar x * dv) (cells n) in
  if forallb (fun l => Rleb 0 l) lam then
    let number_ravel := poisson lam in
    let number x := nth (cell_id n x) number_ravel 0%nat in
    let local part := flat_map (fun x => repeat (cell_id n x, grid_point box n x) (number x)) part in
    let positions := sort_by_id (flat_map local parts) in
    let in_cell_shift := map (fun u => vmul u c) (uniform (length positions)) in
    Ok (map (fun x => vadd (vadd (fst x) (snd x)) (corner box center)) (combine positions in_cell_shift))
  else Err ValueError.

(** lagrangian_mock.py:118-124, one object: displacement, and wrapping into the box. [readout i] is pmesh's readout of the
    displacement field along axis [i] at a position. *)
Definition wrap (box offset p : vec) : vec :=
  V (Rmod (vx p - vx offset) (vx box) + vx offset) (Rmod (vy p - vy offset) (vy box) + vy offset) (Rmod (vz p - vz offset) (vz box) + vz offset).
Definition displaced (box center : vec) (readout : nat -> vec -> R) (p : vec) : vec * vec :=
  let d := V (readout 0%nat p) (readout 1%nat p) (readout 2%nat p) in (wrap box (corner box center) (vadd p d), d).
Definition lagrangian_sample (box center : vec) (n : idx) (delta nbar : idx -> R) (poisson : list R -> list nat) (parts : list (list idx)) (uniform : nat -> list vec)
    (readout : nat -> vec -> R) : result (list vec * list vec) :=
  do pos <- poisson_sample box center n delta nbar poisson parts uniform;
  let out := map (displaced box center readout) pos in Ok (map fst out, map snd out).

(** lagrangian_mock.py:126-155 [set_rsd]. *)
Definition lagrangian_set_rsd (pos disps : list vec) (f : factor) (los : option axis_arg) : result (list vec) :=
  do los <- match los with
            | None => map_result local_los pos
            | Some a => do v <- get_los a; Ok [v]
            end;
  do rsd <- vector_projection disps los;
  do rsd <- match f with
            | FFun f => scale_inplace rsd (map f (map distance pos))
            | FNum f => Ok (map (vscale f) rsd)
            end;
  map2_result (fun p r => Ok (vadd p r)) pos rsd.
