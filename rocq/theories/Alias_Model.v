(** Arrays in memory: which of the caller's arrays are written to, and what becomes of arrays of integers. The other model files take arrays as values; here a
    call is given references to arrays, and numpy's operations in place write to what they refer to. Definitions only. *)
Require Import Reals ZArith String List Bool.
From Verif Require Import Base Vec3 Isometry_Model Sky_Model Cutsky_Model Box_Model Rsd_Model Remap_Model Blind_Model.
Import ListNotations.
Open Scope R_scope.

(** An array: integers or floats; (3,), (N, 3), (N,) or (3, 3). Simplification: where (N, 3) is asked for, (3,) is taken as one row; the shape of the result is left out. *)
Inductive content : Type := Vec (v : vec) | Table (l : list vec) | Flat (l : list R) | Matrix (m : mat).
Record arr : Type := Arr { a_type : Sky_Model.dtype; a_content : content }.
(** Memory: arrays by address; those below [next] exist. *)
Record memory : Type := Memory { cells : nat -> arr; next : nat }.
Definition M (A : Type) : Type := memory -> memory * result A.
Definition ret {A} (a : A) : M A := fun h => (h, Ok a).
Definition lift {A} (r : result A) : M A := fun h => (h, r).
Definition mbind {A B} (m : M A) (f : A -> M B) : M B := fun h => let '(h, r) := m h in match r with Ok a => f a h | Err e => (h, Err e) end.
Notation "'let*' x := m 'in' k" := (mbind m (fun x => k)) (at level 200, x pattern, m at level 100, k at level 200).
Definition load (p : nat) : M arr := fun h => (h, Ok (cells h p)).
Definition alloc (a : arr) : M nat := fun h => (Memory (fun q => if Nat.eqb q (next h) then a else cells h q) (S (next h)), Ok (next h)).
Definition store (p : nat) (a : arr) : M unit := fun h => (Memory (fun q => if Nat.eqb q p then a else cells h q) (next h), Ok tt).
Definition floats (c : content) : M nat := alloc (Arr DFloat c).

(** What a function is given: a reference to an array, or a list or tuple of numbers. *)
Inductive given : Type := Ref (p : nat) | Seq (a : arr).
(** np.asarray, np.array (a copy), and reading. *)
Definition asarray (g : given) : M nat := match g with Ref p => ret p | Seq a => alloc a end.
Definition value (g : given) : M arr := match g with Ref p => load p | Seq a => ret a end.
Definition nparray (g : given) : M nat := let* a := value g in alloc a.
Definition as_vec (a : arr) : result vec := match a_content a with Vec v => Ok v | _ => Err ValueError end.
Definition as_table (a : arr) : result (list vec) := match a_content a with Table l => Ok l | Vec v => Ok [v] | _ => Err ValueError end.
Definition as_flat (a : arr) : result (list R) := match a_content a with Flat l => Ok l | _ => Err ValueError end.
(** a op= b for floats b: numpy does not put floats in an array of integers. *)
Definition inplace (p : nat) (f : content -> result content) : M unit :=
  let* a := load p in
  match a_type a with
  | DInt => lift (Err TypeError)
  | DFloat => let* c := lift (f (a_content a)) in store p (Arr DFloat c)
  end.
Definition on_vec (f : vec -> result vec) (c : content) : result content := match c with Vec v => do v <- f v; Ok (Vec v) | _ => Err ValueError end.
Definition on_table (f : vec -> result vec) (c : content) : result content :=
  match c with Table l => do l <- map_result f l; Ok (Table l) | Vec v => do v <- f v; Ok (Table [v]) | _ => Err ValueError end.
Definition on_flat (f : R -> R) (c : content) : result content := match c with Flat l => Ok (Flat (map f l)) | _ => Err ValueError end.

(** make_survey.py:17-37 [rotation_matrix_from_two_vectors]. *)
Definition matrix_of (a b : vec) : mat :=
  let v := vcross a b in
  let s := distance v in
  if Req_EM_T s 0 then mid else let k := cross_matrix v in madd (madd mid k) (mscale ((1 - vdot a b) / s ^ 2) (mmul k k)).
Definition two_vectors (a b : given) : M nat :=
  let* a := asarray a in
  let* b := asarray b in
  let* _ := inplace a (on_vec normalize) in
  let* _ := inplace b (on_vec normalize) in
  let* x := load a in
  let* y := load b in
  let* x := lift (as_vec x) in
  let* y := lift (as_vec y) in
  floats (Matrix (matrix_of x y)).
(** make_survey.py:52-69 [_make_array], [_get_los], for a vector. *)
Definition los_vector (los : given) : M nat :=
  let* v := value los in
  let* v := lift (as_vec v) in
  let* p := floats (Vec v) in
  let* _ := inplace p (on_vec normalize) in
  ret p.
(** utils.py:19-39 [wrap_angle], on an (N,) array. *)
Definition wrap (degree : bool) (angle : given) : M nat :=
  let* a := value angle in
  let* l := lift (as_flat a) in
  let* p := floats (Flat (map (fun x => x * conversion degree) l)) in
  let* _ := inplace p (on_flat (fun x => Rmod x (2 * PI))) in
  let* a := load p in
  let* l := lift (as_flat a) in
  floats (Flat (map (fun x => x / conversion degree) l)).
(** utils.py:42-70 [cartesian_to_sky]: the three arrays; line 67 copies the angles (line 36). *)
Definition to_sky (degree : bool) (position : given) : M (list nat) :=
  let* a := value position in
  let* l := lift (as_table a) in
  let* rows := lift (map_result (cartesian_to_sky degree) l) in
  let* d := floats (Flat (map (fun x => fst (fst x)) rows)) in
  let* ra := floats (Flat (map (fun x => snd (fst x)) rows)) in
  let* dec := floats (Flat (map snd rows)) in
  ret [d; ra; dec].
(** utils.py:73-109 [sky_to_cartesian], arrays of the same size: the array of directions is made, filled in, then multiplied by distances. *)
Definition number (t : Sky_Model.dtype) (x : R) : num := match t with DInt => NInt (Rfloor x) | DFloat => NFloat x end.
Definition to_cartesian (degree : bool) (dist ra dec : given) : M nat :=
  let* d := value dist in
  let* r := value ra in
  let* e := value dec in
  let* ld := lift (as_flat d) in
  let* lr := lift (as_flat r) in
  let* le := lift (as_flat e) in
  if negb (Nat.eqb (List.length ld) (List.length lr) && Nat.eqb (List.length ld) (List.length le)) then lift (Err ValueError) else
  let t := match a_type d, a_type r, a_type e with DInt, DInt, DInt => DInt | _, _, _ => DFloat end in
  alloc (Arr t (Table (zip3 (fun x y z => sky_to_cartesian degree None (number (a_type d) x) (number (a_type r) y) (number (a_type e) z)) ld lr le))).
(** utils.py:137-166 [vector_projection]. *)
Definition projection (vector direction : given) : M nat :=
  let* v := value vector in
  let* d := value direction in
  let* lv := lift (as_table v) in
  let* ld := lift (as_table d) in
  let* l := lift (vector_projection lv ld) in
  floats (Table l).
(** make_survey.py:94-113 [EuclideanIsometry.transform]; the translation is added in place to the product of line 111. *)
Definition apply_isometry (s : iso) (ti : bool) (vector : given) : M nat :=
  let* v := value vector in
  let* l := lift (as_table v) in
  let* p := floats (Table (map (fun x => tensordot1 x (rot s)) l)) in
  let* _ := (if ti then ret tt else inplace p (on_table (fun x => Ok (vadd x (tra s))))) in
  ret p.
(** remap.py:252-289 [Cuboid.transform]. *)
Definition cuboid_transform (c : cuboid) (ti : bool) (position : given) : M nat :=
  let* p := nparray position in
  let* a := load p in
  let* l := lift (as_table a) in
  if ti then floats (Table (map (project c) l)) else
  let* _ := inplace p (on_table (fun x => vdiv_result x (cu_boxsize c))) in
  let* _ := inplace p (on_table (fun x => match loop_cells (cu_cells c) x with (true, x) => Ok x | (false, _) => Err CuboidError end)) in
  let* a := load p in
  let* l := lift (as_table a) in
  floats (Table (map (fun x => vmul (project c x) (cu_resize c)) l)).
(** remap.py:291-322 [Cuboid.inverse_transform]. *)
Definition cuboid_inverse (c : cuboid) (ti : bool) (position : given) : M nat :=
  let* p := nparray position in
  let* a := load p in
  let* l := lift (as_table a) in
  if ti then floats (Table (map (combine3 c) l)) else
  let* _ := inplace p (on_table (fun x => vdiv_result x (cu_resize c))) in
  let* a := load p in
  let* l := lift (as_table a) in
  floats (Table (map (fun x => let y := combine3 c x in vmul (V (Rmod (vx y) 1) (Rmod (vy y) 1) (Rmod (vz y) 1)) (cu_boxsize c)) l)).
(** make_survey.py:630-640, and lagrangian_mock.py:144-155, until the displacement [rsd] is computed. *)
Definition displacement (position velocity : nat) (f : factor) (los : option axis_arg) : M nat :=
  let* x := load position in
  let* pos := lift (as_table x) in
  let* los := lift (match los with None => map_result local_los pos | Some a => do v <- get_los a; Ok [v] end) in
  let* p := floats (Table los) in
  let* rsd := projection (Ref velocity) (Ref p) in
  let* _ := inplace rsd (fun c => match c with
                                  | Table l => do l <- match f with FFun f => scale_inplace l (map f (map distance pos)) | FNum f => Ok (map (vscale f) l) end; Ok (Table l)
                                  | _ => Err ValueError
                                  end) in
  ret rsd.
Definition add_tables (a b : content) : result content :=
  match a, b with Table a, Table b => do l <- map2_result (fun p r => Ok (vadd p r)) a b; Ok (Table l) | _, _ => Err ValueError end.
(** make_survey.py:612-640 [rsd_position]; the two columns are given by reference. *)
Definition rsd_positions (position velocity : nat) (f : factor) (los : option axis_arg) : M nat :=
  let* rsd := displacement position velocity f los in
  let* x := load position in
  let* y := load rsd in
  let* c := lift (add_tables (a_content x) (a_content y)) in
  floats c.
(** blinding/catalog.py:152-157 [_format_positions] for 'pos', and 376-401 [shuffle] on one process: [u] are the random numbers. With [copy] (line 379) positions are a copy. *)
Definition shuffled (copy : bool) (frac : R) (u : list R) (permute : list R -> list R) (positions : given) : M nat :=
  let* p := (if copy then nparray positions else asarray positions) in
  let* a := load p in
  match a_type a with
  | DInt => lift (Err ValueError)
  | DFloat =>
    let* l := lift (as_table a) in
    let* _ := inplace p (fun _ => do parts <- shuffle_parts false frac [u] permute [l]; Ok (Table (List.concat parts))) in
    ret p
  end.
(** make_survey.py:338-372 [cutsky_to_box], its range of right ascension: line 370 writes to what wrap_angle returns. *)
Definition ra_range (rarange : given) : M nat :=
  let* p := wrap true rarange in
  let* _ := inplace p (fun c => match c with Flat [a; b] => Ok (Flat [if Rltb b a then a - 360 else a; b]) | Flat _ => Err IndexError | _ => Err ValueError end) in
  ret p.

(** Calls, and programs made of calls: results of calls can be arguments of others. *)
Inductive call : Type :=
| TwoVectors (a b : given)
| Los (v : given)
| WrapAngle (degree : bool) (angle : given)
| ToSky (degree : bool) (position : given)
| ToCartesian (degree : bool) (dist ra dec : given)
| Projection (vector direction : given)
| Isometry (s : iso) (ti : bool) (vector : given)
| CuboidTransform (c : cuboid) (ti : bool) (position : given)
| CuboidInverse (c : cuboid) (ti : bool) (position : given)
| RsdPosition (position velocity : nat) (f : factor) (los : option axis_arg)
| Shuffle (frac : R) (u : list R) (permute : list R -> list R) (positions : given)
| RaRange (rarange : given).
Definition one (m : M nat) : M (list nat) := let* p := m in ret [p].
Definition perform (c : call) : M (list nat) :=
  match c with
  | TwoVectors a b => one (two_vectors a b)
  | Los v => one (los_vector v)
  | WrapAngle degree angle => one (wrap degree angle)
  | ToSky degree position => to_sky degree position
  | ToCartesian degree dist ra dec => one (to_cartesian degree dist ra dec)
  | Projection vector direction => one (projection vector direction)
  | Isometry s ti vector => one (apply_isometry s ti vector)
  | CuboidTransform c ti position => one (cuboid_transform c ti position)
  | CuboidInverse c ti position => one (cuboid_inverse c ti position)
  | RsdPosition position velocity f los => one (rsd_positions position velocity f los)
  | Shuffle frac u permute positions => one (shuffled true frac u permute positions)
  | RaRange rarange => one (ra_range rarange)
  end.
(** A program: the next call may depend on the results of those before; exceptions are caught. *)
Inductive script : Type := Done | Then (c : call) (k : result (list nat) -> script).
Fixpoint play (s : script) (h : memory) : memory := match s with Done => h | Then c k => let '(h, r) := perform c h in play (k r) h end.

(** Mocks and catalogs: references to their arrays. *)
Record mock_object : Type := MockObject { mo_position : nat; mo_disps : nat }.
Record catalog_object : Type := CatalogObject { co_position : nat; co_vector : nat; co_boxsize : nat }.
(** mpytools' Catalog keeps the arrays it is given, or copies them ([copies]). *)
Definition column (copies : bool) (p : nat) : M nat := if copies then let* a := load p in alloc a else ret p.
(** lagrangian_mock.py:157-168 [to_catalog]; the size of the box is copied (_make_array). *)
Definition export (copies : bool) (m : mock_object) (boxsize : vec) : M catalog_object :=
  let* p := column copies (mo_position m) in
  let* d := column copies (mo_disps m) in
  let* b := floats (Vec boxsize) in
  ret (CatalogObject p d b).
(** lagrangian_mock.py:126-155 [set_rsd]: the displacement is added in place (line 155). *)
Definition mock_set_rsd (m : mock_object) (f : factor) (los : option axis_arg) : M unit :=
  let* rsd := displacement (mo_position m) (mo_disps m) f los in
  let* y := load rsd in
  inplace (mo_position m) (fun c => add_tables c (a_content y)).
(** gaussian_mock.py:551-556, lagrangian_mock.py:119-124 [poisson_sample]: new arrays; [position] and [disps] are what was drawn, before displacements, and read; [wrapped] brings back to the box. *)
Definition mock_sample (position disps : list vec) (wrapped : vec -> vec) : M mock_object :=
  let* p := floats (Table position) in
  let* d := floats (Table disps) in
  let* _ := inplace p (fun c => add_tables c (Table disps)) in
  let* a := load p in
  let* l := lift (as_table a) in
  let* q := floats (Table (map wrapped l)) in
  ret (MockObject q d).
(** make_survey.py:712-729 [translate], 736-757 [rotate], 653-661 [isometry]: columns are replaced by new ones. *)
Definition catalog_move (s : iso) (c : catalog_object) : M catalog_object :=
  let* p := apply_isometry s false (Ref (co_position c)) in
  let* v := apply_isometry s true (Ref (co_vector c)) in
  ret (CatalogObject p v (co_boxsize c)).
(** make_survey.py:868-871 [pad]: copy, then the box of the copy is multiplied in place; the setter then copies it (line 771). [copies] tells whether the arrays of attributes are copied by
    mpytools' Catalog.copy, or shared. *)
Definition pad_box (copies : bool) (factors : vec) (c : catalog_object) : M nat :=
  let* b := column copies (co_boxsize c) in
  let* _ := inplace b (on_vec (fun v => Ok (vmul v factors))) in
  let* a := load b in
  alloc a.
