(** Model of the steps of desi/from_box_to_desi_cutsky.py:16-198 and 256-269 (the regions, 201-253, are in Region_Model.v). Definitions only. *)
Require Import Reals ZArith String List Bool.
From Verif Require Import Base Vec3 Isometry_Model Sky_Model Cutsky_Model Box_Model Rsd_Model Remap_Model Lattice_Model Mask_Model Sample_Model Spline_Model Region_Model.
Import ListNotations.
Open Scope R_scope.

(** from_box_to_desi_cutsky.py:25-27. In exact arithmetic; the sizes that are the keys are rounded in the code. *)
Definition script_lattice (enum : list ipos -> list ipos) : result dict :=
  generate_lattice_vectors enum 1 (Some 1%nat) (V 5500 5500 5500) (Some [(8000, Some 10000); (4000, Some 5000); (2000, Some 4000)]) false.
(** from_box_to_desi_cutsky.py:16-38 [remap_the_box], for a given dictionary of lattice vectors. *)
Definition remap_the_box (lattice : result dict) (c : boxcat) : result boxcat :=
  do lattice <- lattice;
  match nth_error (map snd lattice) 1 with
  | None | Some [] => Err IndexError
  | Some ((u1, u2, u3) :: _) =>
    do c <- remap c (RVectors [vec_of u1; vec_of u2; vec_of u3]);
    do c <- rotate c 1 (AxStr "y");
    rotate c 1 (AxStr "x")
  end.

(** utils.py:42, the signature of cartesian_to_sky: [kwargs] are the names of the arguments given by name. *)
Definition call_cartesian_to_sky (kwargs : list string) (pos : list vec) : result (list (R * R * R)) :=
  if forallb (fun k => one_of k ["degree"]%string) kwargs then map_result (cartesian_to_sky true) pos else Err TypeError.
Definition with_data (c : pcat) (d : data) : pcat := PCat d (pc_position c) (pc_velocity c) (pc_vectors c) (pc_invariants c).
(** from_box_to_desi_cutsky.py:41-91 [apply_rsd_and_cutsky]. *)
Definition apply_rsd_and_cutsky (c : boxcat) (dmin dmax f center_ra center_dec : R) : result pcat :=
  do r <- box_to_cutsky (boxsize c) dmax dmin;
  let '(drange, rarange, decrange) := r in
  let rarange := (fst rarange + center_ra, snd rarange + center_ra) in
  let decrange := (fst decrange + center_dec, snd decrange + center_dec) in
  do s <- isometry_for_cutsky c drange rarange decrange (Margins None None None) (Margins None None None) (Some 1%nat);
  do l <- cutsky_from_isometry c s None None None;
  match l with
  | [cat] =>
    do rsd <- rsd_position cat (FNum f) None;
    let cat := with_data cat (set_col "RSDPosition" (ColV rsd) (pc_data cat)) in
    do sky <- call_cartesian_to_sky ["wrap"]%string rsd;
    Ok (with_data cat (set_col "DEC" (ColS (map snd sky)) (set_col "RA" (ColS (map (fun x => snd (fst x)) sky)) (set_col "DISTANCE" (ColS (map (fun x => fst (fst x)) sky)) (pc_data cat)))))
  | _ => Err TypeError
  end.

(** from_box_to_desi_cutsky.py:135-142 and 187-194: rows (zmin, zmax, n) of the file. An empty file cannot be unpacked; in a file of one row the columns are
    numbers, that cannot be indexed. *)
Definition nz_mask (make : maker) (fuel : nat) (distance : R -> R) (table : list (R * R * R)) (zmin zmax : R) : result smask :=
  match table with
  | [] => Err ValueError
  | [_] => Err IndexError
  | (z0, _, _) :: _ =>
    let zbin_mid := map (fun x => (fst (fst x) + snd (fst x)) / 2) table in
    let zedges := z0 :: map (fun x => snd (fst x)) table in
    let volume := shells (map distance zedges) in
    do nbar <- zip_result fdiv (map snd table) volume;
    smask_new make fuel zbin_mid nbar (Some (zmin, zmax)) None 2
  end.
(** catalog[name] for a column of numbers. *)
Definition get_num (name : string) (d : data) : result (list R) :=
  match lookup name d with Some (ColS l) => Ok l | Some (ColV _) => Err ValueError | None => Err NameError end.
(** from_box_to_desi_cutsky.py:94-149 [apply_radial_mask]: [smear] gives the errors of redshifts (None if not asked for), [u] are the numbers of the mask. *)
Definition apply_radial_mask (make : maker) (fuel : nat) (distance : R -> R) (table : list (R * R * R)) (zmin zmax : R) (smear : option (list R -> list R)) (u : list R) (c : pcat) : result pcat :=
  do m <- nz_mask make fuel distance table zmin zmax;
  do z <- get_num "Z" (pc_data c);
  let c := match smear with Some f => with_data c (set_col "Z" (ColS (map (fun x => fst x + snd x) (combine z (f z)))) (pc_data c)) | None => c end in
  do z <- get_num "Z" (pc_data c);
  select_rows (mask_call (map (smask_prob m) z) u) c.
(** from_box_to_desi_cutsky.py:152-198 [generate_redshifts]: [draws] are the candidates (redshifts) and numbers of the mask. *)
Definition generate_redshifts (make : maker) (fuel : nat) (distance : R -> R) (table : list (R * R * R)) (zmin zmax : R) (draws : nat -> nat -> list (R * R)) (rounds : nat) (sizes : list nat) : result (list (list R)) :=
  do m <- nz_mask make fuel distance table zmin zmax;
  sample (smask_prob m) draws rounds sizes.
(** from_box_to_desi_cutsky.py:256-269 [apply_photo_desi_footprint]: [desi] is is_in_desi_footprint (Foot_Model.v). The column HPX, which may be NaN, is returned besides. *)
Definition apply_photo_desi_footprint (desi : list (R * R) -> result (list bool)) (installed : option regressis) (region : string) (c : pcat) : result (pcat * list (option nat)) :=
  do ra <- get_num "RA" (pc_data c);
  do dec <- get_num "DEC" (pc_data c);
  let pos := combine ra dec in
  do is_in_desi <- desi pos;
  do r <- is_in_photometric_region installed pos region;
  let '(pixels, is_in_photo) := r in
  do mask <- mask_and is_in_desi is_in_photo;
  do px <- select mask pixels;
  do c <- select_rows mask c;
  Ok (c, px).
