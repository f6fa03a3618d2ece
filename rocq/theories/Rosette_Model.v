(** Model of the main part of desi/from_box_to_desi_sv3_cutsky.py (lines 40-258). Definitions only. The files of the survey, the cosmology, the boxes and
    the random numbers are arguments, and so is desimodel's is_point_in_desi. Catalogs are whole: arrays scattered over processes are given as their
    concatenation, every step being row by row. Messages, the plots of lines 223-233 (plot_debug is False, line 83) and the bricks of lines 237-243
    (add_brick_quantities is False, line 81) are left out. *)
Require Import Reals ZArith String List Bool.
From Verif Require Import Base Vec3 Isometry_Model Sky_Model Cutsky_Model Box_Model Rsd_Model Remap_Model Mask_Model FA_Model Region_Model Script_Model SV3_Model.
Import ListNotations.
Open Scope R_scope.

(** from_box_to_desi_sv3_cutsky.py:194-195: mean of the unit vectors to the rosettes. *)
Definition group_los (directions : list (R * R)) : result vec :=
  let l := map (fun x => sky_to_cartesian true None (NFloat 1) (NFloat (fst x)) (NFloat (snd x))) directions in
  do x <- fdiv (Rsum (map vx l)) (INR (List.length l));
  do y <- fdiv (Rsum (map vy l)) (INR (List.length l));
  do z <- fdiv (Rsum (map vz l)) (INR (List.length l));
  Ok (V x y z).

(** from_box_to_desi_sv3_cutsky.py:196-207: the remapped box in front of the observer; [vectors] is lattice[cuboidsize][0]. Line 204 takes the first of the
    three values that isometry_for_cutsky returns. *)
Definition place_box (vectors : list vec) (angle dmax : R) (los : vec) (c : boxcat) : result pcat :=
  do sky <- cartesian_to_sky true los;
  let center_ra := snd (fst sky) in
  let center_dec := snd sky in
  do los_rotation <- iso_ok (iso_rotation iso_new angle (AxVec los) true "origin");
  do remapped <- remap c (RVectors vectors);
  do r <- box_to_cutsky (boxsize remapped) dmax 0;
  let '(drange, rarange, decrange) := r in
  do s <- isometry_for_cutsky remapped drange (fst rarange + center_ra, snd rarange + center_ra) (fst decrange + center_dec, snd decrange + center_dec)
            (Margins None None None) (Margins None None None) (Some 1%nat);
  do l <- cutsky_from_isometry remapped s None None None;
  match l with
  | [cat] => cutsky_isometry cat los_rotation
  | _ => Err TypeError
  end.

(** from_box_to_desi_sv3_cutsky.py:209-216: observed position, right ascension, declination and redshift; [factor] is None for randoms. *)
Definition observe (factor : option R) (d2z : R -> R) (cat : pcat) : result pcat :=
  do r <- match factor with
          | Some f => do rsd <- rsd_position cat (FNum f) None; Ok (rsd, with_data cat (set_col "RSDPosition" (ColV rsd) (pc_data cat)))
          | None => do pos <- get_vec "Position" (pc_data cat); Ok (pos, cat)
          end;
  let (pos, cat) := r in
  do sky <- map_result (cartesian_to_sky true) pos;
  let d := set_col "RA" (ColS (map (fun x => snd (fst x)) sky)) (pc_data cat) in
  let d := set_col "DEC" (ColS (map snd sky)) d in
  Ok (with_data cat (set_col "Z" (ColS (map (fun x => d2z (fst (fst x))) sky)) d)).

(** Numbers drawn for n rows. *)
Definition numbers (u : nat -> R) (n : nat) : list R := map u (seq 0 n).
(** Tiles: identifier and direction. *)
Definition tile : Type := (Z * (R * R))%type.
(** from_box_to_desi_sv3_cutsky.py:192: tiles of the rosettes of a group. *)
Fixpoint tiles_of (tiles_rosettes : list (Z * list Z)) (rosettes : list Z) : result (list Z) :=
  match rosettes with
  | [] => Ok []
  | r :: rosettes => match zassoc r tiles_rosettes with Some l => do l' <- tiles_of tiles_rosettes rosettes; Ok (l ++ l')%list | None => Err KeyError end
  end.
(** from_box_to_desi_sv3_cutsky.py:220-221, 235: selection by tiles and redshift. *)
Definition cut_rosette (in_desi : list tile -> list (R * R) -> list bool) (tiles : list tile) (ids : list Z) (prob : R -> R) (u : nat -> R) (cat : pcat) : result pcat :=
  do ra <- get_num "RA" (pc_data cat);
  do dec <- get_num "DEC" (pc_data cat);
  do z <- get_num "Z" (pc_data cat);
  let inside := in_desi (filter (fun t => existsb (Z.eqb (fst t)) ids) tiles) (combine ra dec) in
  do mask <- mask_and inside (mask_call (map prob z) (numbers u (List.length z)));
  select_rows mask cat.

(** What the script has read and drawn. [group]: rosettes, lattice[cuboidsize][0] and los_rotation, lines 120-130. *)
Record group : Type := Group { g_rosettes : list Z; g_vectors : result (list vec); g_angle : R }.
Record inputs : Type := Inputs {
  i_outdir : option string;
  i_groups : list group;
  i_tiles_rosettes : list (Z * list Z);
  i_directions : list (Z * (R * R));
  i_tiles : list tile;
  i_in_desi : list tile -> list (R * R) -> list bool;
  i_prob : string -> R -> R;
  i_ndata : string -> nat;
  i_dmax : R;
  i_d2z : R -> R;
  i_box : Z -> boxcat;
  i_factor : R;
  i_randoms : boxcat;
  i_radial : bool -> Z -> list Z -> nat -> R;
  i_thin : Z -> list Z -> nat -> R }.

(** from_box_to_desi_sv3_cutsky.py:199-243, for one catalog of a group. *)
Definition group_catalog (i : inputs) (g : group) (los : vec) (ids : list Z) (region : string) (factor : option R) (u : nat -> R) (c : boxcat) : result pcat :=
  do vectors <- g_vectors g;
  do cat <- place_box vectors (g_angle g) (i_dmax i) los c;
  do cat <- observe factor (i_d2z i) cat;
  cut_rosette (i_in_desi i) (i_tiles i) ids (i_prob i region) u cat.

(** Files written, in order, and the value or error of the computation. *)
Definition files : Type := list (string * pcat).
Definition io (A : Type) : Type := (files * result A)%type.
Definition io_ret {A} (r : result A) : io A := ([], r).
Definition io_bind {A B} (x : io A) (k : A -> io B) : io B :=
  match x with (l, Ok a) => let (l', r) := k a in ((l ++ l')%list, r) | (l, Err e) => (l, Err e) end.
(** catalog.write(catalog_fn(name, rosettes, imock=imock)). *)
Definition write (outdir : option string) (name : string) (rosettes : list Z) (imock : Z) (cat : pcat) : io unit :=
  match catalog_fn outdir name rosettes imock with Ok f => ([(f, cat)], Ok tt) | Err e => ([], Err e) end.

(** Direction of each rosette of a group, line 194. *)
Fixpoint directions_of (directions : list (Z * (R * R))) (rosettes : list Z) : result (list (R * R)) :=
  match rosettes with
  | [] => Ok []
  | r :: rosettes => match zassoc r directions with Some d => do l <- directions_of directions rosettes; Ok (d :: l) | None => Err KeyError end
  end.
(** from_box_to_desi_sv3_cutsky.py:191-248, one pass: the catalog of data of a group, the file of randoms being written. [mpicomm] is only set by line 167,
    when no mock is given. *)
Definition group_step (i : inputs) (mock_fn : bool) (imock : Z) (region : string) (g : group) : io pcat :=
  if mock_fn then io_ret (Err NameError) else
  io_bind (io_ret (tiles_of (i_tiles_rosettes i) (g_rosettes g))) (fun ids =>
  io_bind (io_ret (do d <- directions_of (i_directions i) (g_rosettes g); group_los d)) (fun los =>
  io_bind (io_ret (group_catalog i g los ids region (Some (i_factor i)) (i_radial i true imock (g_rosettes g)) (i_box i imock))) (fun data =>
  if (imock <? nran)%Z then
    io_bind (io_ret (group_catalog i g los ids region None (i_radial i false imock (g_rosettes g)) (i_randoms i))) (fun randoms =>
    io_bind (write (i_outdir i) "randoms" (g_rosettes g) imock randoms) (fun _ => io_ret (Ok data)))
  else io_ret (Ok data)))).
(** from_box_to_desi_sv3_cutsky.py:110: regions. *)
Definition script_regions : list string := ["N"; "S"]%string.
(** Lines 184-248: the loop over groups, with the region of each. *)
Fixpoint group_loop (i : inputs) (mock_fn : bool) (imock : Z) (l : list (group * string)) : io (list (list Z * string * pcat)) :=
  match l with
  | [] => io_ret (Ok [])
  | (g, region) :: l =>
    if mem region script_regions then
      io_bind (group_step i mock_fn imock region g) (fun cat => io_bind (group_loop i mock_fn imock l) (fun r => io_ret (Ok ((g_rosettes g, region, cat) :: r))))
    else group_loop i mock_fn imock l
  end.

(** Number of rows of a catalog, csize. *)
Definition csize (c : pcat) : nat := match pc_data c with [] => 0%nat | (_, x) :: _ => match x with ColV l => List.length l | ColS l => List.length l end end.
(** rng.uniform() < frac, lines 256-257. *)
Definition thin_mask (u : nat -> R) (frac : R) (n : nat) : list bool := map (fun x => Rltb x frac) (numbers u n).
(** from_box_to_desi_sv3_cutsky.py:255-258: files of the data of a region. *)
Fixpoint thin_loop (i : inputs) (imock : Z) (frac : R) (l : list (list Z * string * pcat)) : io unit :=
  match l with
  | [] => io_ret (Ok tt)
  | (rosettes, _, cat) :: l =>
    io_bind (io_ret (select_rows (thin_mask (i_thin i imock rosettes) frac (csize cat)) cat)) (fun cat =>
    io_bind (write (i_outdir i) "data" rosettes imock cat) (fun _ => thin_loop i imock frac l))
  end.
(** from_box_to_desi_sv3_cutsky.py:250-258, one region. numpy divides by zero into inf or NaN, an error here. *)
Definition thin_region (i : inputs) (imock : Z) (mock_data : list (list Z * string * pcat)) (region : string) : io unit :=
  let mine := filter (fun x => String.eqb (snd (fst x)) region) mock_data in
  io_bind (io_ret (fdiv (INR (i_ndata i region)) (INR (fold_right (fun x n => (csize (snd x) + n)%nat) 0%nat mine)))) (fun frac => thin_loop i imock frac mine).
Fixpoint each {A} (f : A -> io unit) (l : list A) : io unit :=
  match l with [] => io_ret (Ok tt) | a :: l => io_bind (f a) (fun _ => each f l) end.
(** from_box_to_desi_sv3_cutsky.py:157-258: one mock. *)
Definition one_mock (i : inputs) (mock_fn : bool) (regions : list (group * string)) (imock : Z) : io unit :=
  io_bind (group_loop i mock_fn imock regions) (fun mock_data => each (thin_region i imock mock_data) script_regions).
(** from_box_to_desi_sv3_cutsky.py:136-258: the whole script, [start] and [stop] being its arguments, and [mock_fn] telling that --mock_fn was given. *)
Definition sv3_script (i : inputs) (mock_fn : bool) (start stop : Z) : io unit :=
  io_bind (io_ret (rosettes_to_region (region_rosettes (i_directions i)) (map g_rosettes (i_groups i)))) (fun regions =>
  each (one_mock i mock_fn (combine (i_groups i) (map snd regions))) (SV3_Model.zrange start stop)).
