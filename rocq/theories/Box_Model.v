(** Model of ParticleCatalog, CutskyCatalog and BoxCatalog (mockfactory/make_survey.py:525-1089), except remap (see Remap_Model.v).
    Definitions only. A catalog here is the part held by one MPI rank: every operation below acts on the rows of each rank separately. *)
Require Import Reals ZArith List Bool String.
From Verif Require Import Base Vec3 Isometry_Model Sky_Model Cutsky_Model.
Import ListNotations.
Open Scope R_scope.

(** A column: one 3-vector or one number per row. *)
Inductive col : Type := ColV (l : list vec) | ColS (l : list R).

(** Catalog data: columns in order. *)
Definition data : Type := list (string * col).

(** make_survey.py:525-579 [ParticleCatalog]: data and the attributes _position, _velocity, _vectors, _translational_invariants. *)
Record pcat : Type := PCat {
  pc_data : data; pc_position : string; pc_velocity : string; pc_vectors : list string; pc_invariants : list string }.

Definition mem (s : string) (l : list string) : bool := existsb (String.eqb s) l.

(** make_survey.py:570-579 [from_dict]: position and velocity are always vectors, velocity always translation-invariant. *)
Definition pcat_new (d : data) (position velocity : string) (vectors invariants : list string) : pcat :=
  PCat d position velocity (vectors ++ [position; velocity]) (invariants ++ [velocity]).

(** catalog[name]; KeyError modelled as an error. *)
Fixpoint lookup (name : string) (d : data) : option col :=
  match d with [] => None | (n, c) :: d => if String.eqb name n then Some c else lookup name d end.
Definition get_vec (name : string) (d : data) : result (list vec) :=
  match lookup name d with Some (ColV l) => Ok l | Some (ColS _) => Err ValueError | None => Err NameError end.

(** catalog[name] = array: replaces the column, or adds it at the end. *)
Fixpoint set_col (name : string) (c : col) (d : data) : data :=
  match d with
  | [] => [(name, c)]
  | (n, c') :: d => if String.eqb name n then (n, c) :: d else (n, c') :: set_col name c d
  end.

(** make_survey.py:591-594 [position]. *)
Definition position (c : pcat) : result (list vec) := get_vec (pc_position c) (pc_data c).
(** make_survey.py:596-599 [velocity]. *)
Definition velocity (c : pcat) : result (list vec) := get_vec (pc_velocity c) (pc_data c).

(** Apply [f] to each column in turn. *)
Fixpoint map_cols (f : string -> col -> result col) (d : data) : result data :=
  match d with
  | [] => Ok []
  | (n, c) :: d => do c' <- f n c; do d' <- map_cols f d; Ok ((n, c') :: d')
  end.

(** isometry.transform(column, ...): needs 3-vectors. *)
Definition transform_col (s : iso) (ti : bool) (c : col) : result col :=
  match c with ColV l => Ok (ColV (transform_all s ti l)) | ColS _ => Err ValueError end.

(** The loop of make_survey.py:656-657, 722-723, 747-748 over the property [vectors] (make_survey.py:581-584).
    Each pass only touches its own column, so the order of the set does not matter. *)
Definition transform_vectors (s : iso) (c : pcat) : result pcat :=
  do d <- map_cols (fun n x => if mem n (pc_vectors c) then transform_col s (mem n (pc_invariants c)) x else Ok x) (pc_data c);
  Ok (PCat d (pc_position c) (pc_velocity c) (pc_vectors c) (pc_invariants c)).

(** make_survey.py:647-657 [CutskyCatalog.isometry]. *)
Definition cutsky_isometry (c : pcat) (s : iso) : result pcat := transform_vectors s c.

(** make_survey.py:660-704 [BoxCatalog]. *)
Record boxcat : Type := BoxCat { bc_cat : pcat; boxsize : vec; boxcenter : vec }.

(** The isometry left by a chain of method calls that did not raise. *)
Definition iso_ok (r : iso * result unit) : result iso :=
  match r with (s, Ok _) => Ok s | (_, Err e) => Err e end.

(** make_survey.py:706-723 [translate]. *)
Definition translate (c : boxcat) (shift : shift_arg) (axis : axis_arg) : result boxcat :=
  do operation <- iso_ok (iso_translation iso_new shift axis "origin");
  let center := transform operation false (boxcenter c) in
  do cat <- transform_vectors operation (bc_cat c);
  Ok (BoxCat cat (boxsize c) center).

(** make_survey.py:725-727 [recenter]. *)
Definition recenter (c : boxcat) : result boxcat := translate c (ShVec (vopp (boxcenter c))) AxNone.

(** make_survey.py:729-748 [rotate]; the default of [axis] is None. *)
Definition rotate (c : boxcat) (angle_over_halfpi : Z) (axis : axis_arg) : result boxcat :=
  let angle := IZR angle_over_halfpi * PI / 2 in
  do operation <- iso_ok (iso_rotation iso_new angle axis false "origin");
  let center := transform operation false (boxcenter c) in
  let size := vabs (transform operation true (boxsize c)) in
  do cat <- transform_vectors operation (bc_cat c);
  Ok (BoxCat cat size center).

(** Boolean row selection, catalog[mask]. numpy raises IndexError if the lengths differ. *)
Fixpoint select {A} (mask : list bool) (l : list A) : result (list A) :=
  match mask, l with
  | [], [] => Ok []
  | b :: mask, a :: l => do r <- select mask l; Ok (if b then a :: r else r)
  | _, _ => Err IndexError
  end.
Definition select_col (mask : list bool) (c : col) : result col :=
  match c with
  | ColV l => do l' <- select mask l; Ok (ColV l')
  | ColS l => do l' <- select mask l; Ok (ColS l')
  end.
Definition select_rows (mask : list bool) (c : pcat) : result pcat :=
  do d <- map_cols (fun _ x => select_col mask x) (pc_data c);
  Ok (PCat d (pc_position c) (pc_velocity c) (pc_vectors c) (pc_invariants c)).

(** Argument [ranges] of subbox: one pair for all axes, or a list of pairs. *)
Inductive ranges_arg : Type := ROne (lo hi : R) | RList (l : list (R * R)).

Definition boxlow (c : boxcat) : vec := vsub (boxcenter c) (vscale (1 / 2) (boxsize c)).
Definition boxhigh (c : boxcat) : vec := vadd (boxcenter c) (vscale (1 / 2) (boxsize c)).

(** make_survey.py:811-850 [subbox]; self.boxsize / 2. is written (1 / 2) * boxsize. *)
Definition subbox (c : boxcat) (ranges : ranges_arg) (boxsize_unit : bool) : result boxcat :=
  do ranges <- match ranges with
               | ROne lo hi => Ok [(lo, hi); (lo, hi); (lo, hi)]
               | RList [] => Err IndexError
               | RList l => Ok l
               end;
  match ranges with
  | [r0; r1; r2] =>
    let off := boxlow c in
    let scale (size off : R) (r : R * R) :=
      if boxsize_unit then (size * fst r + off, size * snd r + off) else r in
    let r0 := scale (vx (boxsize c)) (vx off) r0 in
    let r1 := scale (vy (boxsize c)) (vy off) r1 in
    let r2 := scale (vz (boxsize c)) (vz off) r2 in
    let low := V (Rmax (vx (boxlow c)) (fst r0)) (Rmax (vy (boxlow c)) (fst r1)) (Rmax (vz (boxlow c)) (fst r2)) in
    let high := V (Rmin (vx (boxhigh c)) (snd r0)) (Rmin (vy (boxhigh c)) (snd r1)) (Rmin (vz (boxhigh c)) (snd r2)) in
    do pos <- position (bc_cat c);
    let mask := map (fun p =>
      Rleb (fst r0) (vx p) && Rltb (vx p) (snd r0) &&
      (Rleb (fst r1) (vy p) && Rltb (vy p) (snd r1)) &&
      (Rleb (fst r2) (vz p) && Rltb (vz p) (snd r2))) pos in
    do cat <- select_rows mask (bc_cat c);
    Ok (BoxCat cat (vsub high low) (vscale (1 / 2) (vadd high low)))
  | _ => Err ValueError
  end.

(** np.arange(-np.ceil(f) + 1, np.ceil(f)), make_survey.py:873. *)
Definition pad_shifts (f : R) : list R :=
  let n := Rceil f in
  map (fun i => IZR (- n + 1 + Z.of_nat i)) (seq 0 (Z.to_nat (2 * n - 1))).

(** self.boxsize * shift, make_survey.py:877, where [shift] is the 1-tuple (array,) produced by itertools.product(shifts)
    (make_survey.py:876, no star): numpy broadcasts shapes (3,) and (1, n), which needs n = 1 or n = 3. *)
Definition pad_shift (size : vec) (shift : list R) : result vec :=
  match shift with
  | [a] => Ok (vscale a size)
  | [a; b; c] => Ok (V (vx size * a) (vy size * b) (vz size * c))
  | _ => Err ValueError
  end.

Definition add_col (v : vec) (c : col) : result col :=
  match c with ColV l => Ok (ColV (map (fun p => vadd p v) l)) | ColS _ => Err ValueError end.
Definition in_closed_box (low high p : vec) : bool :=
  (Rleb (vx low) (vx p) && Rleb (vx p) (vx high)) && (Rleb (vy low) (vy p) && Rleb (vy p) (vy high)) &&
  (Rleb (vz low) (vz p) && Rleb (vz p) (vz high)).

(** One pass of the loop make_survey.py:876-884: the columns appended for one shift. *)
Definition pad_pass (c : boxcat) (newlow newhigh : vec) (shift : list R) : result data :=
  let cat := bc_cat c in
  do v <- pad_shift (boxsize c) shift;
  do d <- map_cols (fun n x => if mem n (pc_vectors cat) && negb (mem n (pc_invariants cat)) then add_col v x else Ok x) (pc_data cat);
  do pos <- get_vec (pc_position cat) d;
  let mask := map (in_closed_box newlow newhigh) pos in
  map_cols (fun _ x => select_col mask x) d.

(** np.concatenate of the pieces of one column. *)
Definition concat_col (a b : col) : result col :=
  match a, b with ColV l, ColV m => Ok (ColV (l ++ m)) | ColS l, ColS m => Ok (ColS (l ++ m)) | _, _ => Err ValueError end.
Definition concat_data (a b : data) : result data :=
  map_cols (fun n x => match lookup n b with Some y => concat_col x y | None => Err NameError end) a.

(** make_survey.py:852-887 [pad]; [factor] already made a 3-vector (line 868).
    mpytools' Catalog.copy is assumed to copy the arrays in _attrs, so that line 871 does not change self. *)
Definition pad (c : boxcat) (factors : vec) : result boxcat :=
  let size := vmul (boxsize c) factors in
  let low := vsub (boxcenter c) (vscale (1 / 2) size) in
  let high := vadd (boxcenter c) (vscale (1 / 2) size) in
  do d0 <- pad_pass c low high (pad_shifts (vx factors));
  do d1 <- pad_pass c low high (pad_shifts (vy factors));
  do d2 <- pad_pass c low high (pad_shifts (vz factors));
  do d01 <- concat_data d0 d1;
  do d <- concat_data d01 d2;
  let cat := bc_cat c in
  Ok (BoxCat (PCat d (pc_position cat) (pc_velocity cat) (pc_vectors cat) (pc_invariants cat)) size (boxcenter c)).

(** make_survey.py:949-970: centres of the sub-boxes along one axis. [L], [center]: side and centre of the box; [b]: side of the cut;
    [em], [im]: external and internal margin, None if not given. int() truncates; division by zero (inf or NaN in numpy) is an error. *)
Definition cut_centers (L center b : R) (em0 im0 : option R) : result (list R) :=
  let or0 (m : option R) := match m with Some m => m | None => 0 end in
  let em := or0 em0 in
  let im := or0 im0 in
  do q <- fdiv (L - 2 * em + im) (b + im);
  let nboxes := Rtrunc q in
  do m <- match em0, im0 with
          | None, None => do t <- fdiv (L - b * IZR nboxes) (IZR nboxes + 1); Ok (t, t)
          | None, Some _ => Ok (im, im)
          | Some _, None => Ok (em, em)
          | Some _, Some _ => Ok (em, im)
          end;
  let (em, im) := m in
  if Rltb em 0 || Rltb im 0 then Err ValueError else
  do m <- (if Rltb 0 em || Rltb 0 im then
             do r <- fdiv (L - b * IZR nboxes) (im * (IZR nboxes - 1) + 2 * em);
             if Rltb r 1 then Err AssertionError else Ok (r * em, r * im)
           else Ok (em, im));
  let (em, im) := m in
  Ok (map (fun i => let low := em + (b + im) * INR i in
                    let high := low + b in
                    (low + high) / 2 - L / 2 + center) (seq 0 (Z.to_nat nboxes))).

(** itertools.product of three lists, last one fastest. *)
Definition product3 (l0 l1 l2 : list R) : list vec :=
  flat_map (fun x => flat_map (fun y => map (fun z => V x y z) l2) l1) l0.

(** isometry.translation(-center); isometry += origin_isometry (make_survey.py:943-945, 977-979). *)
Definition centre_then (center : vec) (origin : iso) : result iso :=
  do s <- iso_ok (iso_translation iso_new (ShVec (vopp center)) AxNone "origin");
  Ok (iso_concatenate [s; origin]).

Fixpoint map_result {A B} (f : A -> result B) (l : list A) : result (list B) :=
  match l with [] => Ok [] | a :: l => do b <- f a; do r <- map_result f l; Ok (b :: r) end.

(** Margins: one per axis (a scalar or None is repeated, make_survey.py:931-934). *)
Record margins : Type := Margins { mg0 : option R; mg1 : option R; mg2 : option R }.

(** Result of isometry_for_cutsky: one isometry (noutput = 1) or a list. *)
Inductive isos : Type := IsoOne (s : iso) | IsoList (l : list iso).

(** make_survey.py:889-982 [isometry_for_cutsky]; [noutput] is None or a natural number.
    The two masks returned besides are those of the ranges, see Mask_Model.v. The warning of line 942 is not modelled. *)
Definition isometry_for_cutsky (c : boxcat) (drange rarange decrange : R * R) (em im : margins) (noutput : option nat) : result isos :=
  do r <- cutsky_to_box drange rarange decrange;
  let (b, origin) := r in
  match noutput with
  | Some 1%nat => do s <- centre_then (boxcenter c) origin; Ok (IsoOne s)
  | _ =>
    do l0 <- cut_centers (vx (boxsize c)) (vx (boxcenter c)) (vx b) (mg0 em) (mg0 im);
    do l1 <- cut_centers (vy (boxsize c)) (vy (boxcenter c)) (vy b) (mg1 em) (mg1 im);
    do l2 <- cut_centers (vz (boxsize c)) (vz (boxcenter c)) (vz b) (mg2 em) (mg2 im);
    let nmax := (List.length l0 * List.length l1 * List.length l2)%nat in
    do n <- match noutput with
            | Some n => if Nat.ltb nmax n then Err ValueError else Ok n
            | None => Ok nmax
            end;
    do l <- map_result (fun x => centre_then x origin) (firstn n (product3 l0 l1 l2));
    Ok (IsoList l)
  end.

(** A mask already bound to its random numbers: rows -> booleans. *)
Definition rmask : Type := list R -> list bool.
Definition amask : Type := list R -> list R -> list bool.

(** Element-wise [mask &= other]. *)
Definition mask_and (a b : list bool) : result (list bool) := map2_result (fun x y => Ok (andb x y)) a b.

(** make_survey.py:1017-1035: one isometry. [rdd] holds the names of the columns RA, Dec, distance. *)
Definition cutsky_from_isometry1 (c : boxcat) (s : iso) (mr : option rmask) (ma : option amask)
    (rdd : option (string * string * string)) : result pcat :=
  let cat := bc_cat c in
  (* lines 1018-1019: vectors and invariants are passed through from_dict *)
  let cat := pcat_new (pc_data cat) (pc_position cat) (pc_velocity cat)
                      (filter (fun n => mem n (map fst (pc_data cat))) (pc_vectors cat)) (pc_invariants cat) in
  do cat <- cutsky_isometry cat s;
  do pos <- position cat;
  do sky <- map_result (cartesian_to_sky true) pos;
  let dist := map (fun x => fst (fst x)) sky in
  let ra := map (fun x => snd (fst x)) sky in
  let dec := map snd sky in
  let cat := match rdd with
             | Some (nra, ndec, ndist) =>
               PCat (set_col ndist (ColS dist) (set_col ndec (ColS dec) (set_col nra (ColS ra) (pc_data cat))))
                    (pc_position cat) (pc_velocity cat) (pc_vectors cat) (pc_invariants cat)
             | None => cat
             end in
  match mr with
  | Some mr =>
    let mask := mr dist in
    do mask <- match ma with Some ma => mask_and mask (ma ra dec) | None => Ok mask end;
    select_rows mask cat
  | None => match ma with Some ma => select_rows (ma ra dec) cat | None => Ok cat end
  end.

(** The default of [rdd], make_survey.py:984. *)
Definition rdd_default : option (string * string * string) := Some ("RA", "DEC", "Distance")%string.

(** make_survey.py:984-1035 [cutsky_from_isometry]: for a list of isometries, line 1015 calls itself without passing [rdd]. *)
Definition cutsky_from_isometry (c : boxcat) (s : isos) (mr : option rmask) (ma : option amask)
    (rdd : option (string * string * string)) : result (list pcat) :=
  match s with
  | IsoOne s => do r <- cutsky_from_isometry1 c s mr ma rdd; Ok [r]
  | IsoList l => map_result (fun s => cutsky_from_isometry1 c s mr ma rdd_default) l
  end.
