(** What the DESI cut-sky script should do, in words of geometry, rows of catalogs and names of files. *)
Require Import Reals ZArith String List Sorted Bool.
From Verif Require Import Base Vec3 Isometry_Model Sky_Model Cutsky_Model Cutsky_Spec Box_Model Box_Spec Rsd_Model Rsd_Spec Remap_Model Mask_Spec Mask_Model Sample_Model Random_Model Random_Spec Spline_Model FA_Model Foot_Model Region_Model Script_Model SV3_Model Rosette_Spec Desi_Model.
Import ListNotations.
Open Scope R_scope.

(** Rows of the catalog are shared between the files, none lost and none written twice. *)
Definition shares (share : nat -> nat -> list (list nat)) : Prop := forall k n, (1 <= k)%nat -> List.length (share k n) = k /\ List.concat (share k n) = seq 0 n.
(** The DESI footprint is a part of the sky. *)
Definition sky_area (desi : string -> string -> option BinNums.Z -> list (R * R) -> result (list bool)) (inside : string -> string -> option BinNums.Z -> R * R -> bool) : Prop :=
  forall release program npasses l, desi release program npasses l = Ok (map (inside release program npasses) l).
(** Photometric regions: cuts in right ascension and declination, or a map of pixels. *)
Definition photo_area (installed : option regressis) (region : string) (p : R * R) : Prop :=
  match installed with
  | None => region_cut (upper region) (fst p) (snd p) = true
  | Some r => exists name, convert (upper region) convert_dict = Ok name /\ dr9 r name (hpx r p) = true
  end.
(** In both footprints. *)
Definition in_survey (inside : string -> string -> option BinNums.Z -> R * R -> bool) (i : settings) (region : string) (p : R * R) : Prop :=
  inside (i_release i) (i_program i) (i_npasses i) p = true /\ photo_area (i_regressis i) region p.
(** The column HPX: pixel of each position, or NaN. *)
Definition pixel_of (installed : option regressis) (p : R * R) : option nat := match installed with None => None | Some r => Some (hpx r p) end.

(** The remapped box: n objects, inside the box, with velocities; the observer is outside. *)
Definition ready (i : settings) (box : boxcat) (n : nat) : Prop :=
  remap_the_box (i_lattice i) (i_box i) = Ok box /\ wf n (bc_cat box) /\ 0 < vx (boxsize box) < i_distance i (i_zmax i) /\ 0 <= vy (boxsize box) /\ 0 <= vz (boxsize box) /\
  (exists pos, column (bc_cat box) (pc_position (bc_cat box)) = Some (ColV pos) /\ forall p, In p pos -> contained (boxsize box) (boxcenter box) p) /\
  exists vel, column (bc_cat box) (pc_velocity (bc_cat box)) = Some (ColV vel).

(** Columns that the script adds. *)
Definition script_columns : list string := ["RSDPosition"; "DISTANCE"; "RA"; "DEC"; "Z"]%string.
(** Objects of the box seen from the observer when the box is put in front of the direction (ra, dec): where they are after distortions. *)
Definition sees (i : settings) (box : boxcat) (ra dec : R) (placed : pcat) (sky : list (R * R * R)) : Prop :=
  exists obs, moved_by (seen ra dec 0 (i_distance i (i_zmax i)) (boxsize box) (boxcenter box)) (in_frame ra dec 0) (bc_cat box) placed /\
    observed_at (Some (i_factor i)) placed obs /\ on_sky obs sky.
(** Redshifts: those of the distances, plus the errors that are drawn with a seed. *)
Definition redshifts (i : settings) (seed : BinNums.Z) (sky : list (R * R * R)) (z : list R) : Prop :=
  let z0 := map (fun x => i_d2z i (fst (fst x))) sky in
  List.length z = List.length sky /\ forall j, (j < List.length sky)%nat -> nth j z 0 = nth j z0 0 + nth j (i_smear i seed z0) 0.
(** Object j passes the cut on n(z): its number, drawn with a seed, is at most the probability at its redshift. *)
Definition passes (i : settings) (m : smask) (seed : BinNums.Z) (z : list R) (j : nat) : Prop := (j < List.length z)%nat /\ i_mask i seed j <= smask_prob m (nth j z 0).
(** The file of data of a region whose direction is (ra, dec): rows [idx] of the box. [many] is the number of objects that pass the cut on n(z). *)
Definition data_of (inside : string -> string -> option BinNums.Z -> R * R -> bool) (i : settings) (box : boxcat) (region : string) (ra dec : R) (seed : BinNums.Z) (many : nat) (t : table) : Prop :=
  exists placed sky z m idx,
    sees i box ra dec placed sky /\ redshifts i (seed + 13)%Z sky z /\ nz_mask (i_make i) (i_fuel i) (i_distance i) (i_table i) (i_zmin i) (i_zmax i) = Ok m /\
    (exists all, StronglySorted lt all /\ List.length all = many /\ forall j, In j all <-> passes i m seed z j) /\
    StronglySorted lt idx /\
    (forall j, In j idx <-> passes i m seed z j /\ exists d ra dec, nth_error sky j = Some (d, ra, dec) /\ in_survey inside i region (ra, dec)) /\
    (forall name x, ~ In name script_columns -> column placed name = Some x -> lookup name (t_data t) = Some (pick_col idx x)) /\
    lookup "RSDPosition" (t_data t) = None /\
    lookup "DISTANCE" (t_data t) = Some (ColS (pick idx (map (fun x => fst (fst x)) sky))) /\
    lookup "RA" (t_data t) = Some (ColS (pick idx (map (fun x => snd (fst x)) sky))) /\
    lookup "DEC" (t_data t) = Some (ColS (pick idx (map snd sky))) /\
    lookup "Z" (t_data t) = Some (ColS (pick idx z)) /\
    t_hpx t = pick idx (map (fun x => pixel_of (i_regressis i) (snd (fst x), snd x)) sky).

(** Limits in which randoms are drawn: half widths of the box seen from the observer, around (ra, dec). *)
Definition limits (i : settings) (box : boxcat) (a e : R) : Prop :=
  exists drange, box_to_cutsky (boxsize box) (i_distance i (i_zmax i)) (i_distance i (i_zmin i)) = Ok (drange, (- a, a), (- e, e)).
(** All randoms of a region, when [many] data pass the cut on n(z): of ten times as many directions in the limits, those in the survey, at distance 1, each with a redshift. *)
Definition randoms_of (inside : string -> string -> option BinNums.Z -> R * R -> bool) (i : settings) (box : boxcat) (region : string) (ra dec : R) (seed : BinNums.Z) (many : nat) (t : table) : Prop :=
  exists a e drawn kept z, limits i box a e /\ List.length drawn = (10 * many)%nat /\
    (-90 <= dec - e < dec + e -> dec + e <= 90 -> angle_stream (i_angles i seed) ->
     forall p, In p drawn -> 0 <= fst p < 360 /\ on_arc (ra - a) (ra + a) (fst p) /\ dec - e <= snd p <= dec + e) /\
    (exists keep : R * R -> bool, kept = filter keep drawn /\ forall p, keep p = true <-> in_survey inside i region p) /\
    List.length z = List.length kept /\
    ((forall k r x, In x (i_redshifts i (seed * 276)%Z k r) -> 0 < snd x) -> forall x, In x z -> i_zmin i <= x <= i_zmax i) /\
    t_data t = [("RA", ColS (map fst kept)); ("DEC", ColS (map snd kept)); ("Distance", ColS (map (fun _ => 1) kept)); ("Position", ColV (map (fun p => sky_point 1 (fst p) (snd p)) kept)); ("Z", ColS z)]%string /\
    t_hpx t = map (pixel_of (i_regressis i)) kept.
(** Tables hold, one after the other, the rows of another. *)
Definition shared_out (ts : list table) (t : table) : Prop :=
  (forall name l, lookup name (t_data t) = Some (ColS l) -> flat_map (nums name) ts = l) /\
  (forall name l, lookup name (t_data t) = Some (ColV l) -> flat_map (vecs name) ts = l) /\ flat_map t_hpx ts = t_hpx t /\
  forall t', In t' ts -> map fst (t_data t') = map fst (t_data t).

(** Names of files: <outdir>/data-cutsky-<release>-<program>-<passes>-<region>.<fmt>, and ten of randoms with their number; or groups of two files in the format bigfile. *)
Definition program_name (i : settings) : string := match i_npasses i with Some n => i_program i ++ "-" ++ str n | None => i_program i end.
Definition data_file (i : settings) (region : string) : string :=
  path_join (i_outdir i) "data-cutsky" ++
  (if String.eqb (i_fmt i) "bigfile" then "/" ++ i_release i ++ "-" ++ program_name i ++ "-" ++ region ++ "/"
   else "-" ++ i_release i ++ "-" ++ program_name i ++ "-" ++ region ++ "." ++ i_fmt i).
Definition random_files (i : settings) (region : string) : list string :=
  if String.eqb (i_fmt i) "bigfile" then [path_join (i_outdir i) "randoms-cutsky" ++ "/" ++ i_release i ++ "-" ++ program_name i ++ "-" ++ region ++ "/"]%string
  else map (fun k => path_join (i_outdir i) "randoms-cutsky" ++ "-" ++ i_release i ++ "-" ++ program_name i ++ "-" ++ region ++ "-" ++ k ++ "." ++ i_fmt i)%string ["0"; "1"; "2"; "3"; "4"; "5"; "6"; "7"; "8"; "9"]%string.
Definition region_files (i : settings) (region : string) : list string := data_file i region :: if i_generate i then random_files i region else [].

(** What a region leaves behind, its place in the list of regions being k: data, and randoms if they are asked for. *)
Definition region_left (inside : string -> string -> option BinNums.Z -> R * R -> bool) (i : settings) (box : boxcat) (k : BinNums.Z) (region : string) (complete : bool) (fs : files) : Prop :=
  exists ra dec many t ts, photometric_region_center region = Ok (ra, dec) /\ data_of inside i box region ra dec (79 + k)%Z many t /\
    map snd fs = t :: ts /\ (if complete then map fst fs = region_files i region else fs = [(data_file i region, t)]) /\
    (if complete && i_generate i then exists all, randoms_of inside i box region ra dec (792 + k)%Z many all /\ shared_out ts all else ts = []).
(** What a list of regions leaves behind, the first of them having place k; [r] tells whether all went well. *)
Inductive left_behind (inside : string -> string -> option BinNums.Z -> R * R -> bool) (i : settings) (box : boxcat) : BinNums.Z -> list string -> files -> result unit -> Prop :=
  | left_end : forall k, left_behind inside i box k [] [] (Ok tt)
  | left_nothing : forall k region regions e, left_behind inside i box k (region :: regions) [] (Err e)
  | left_data : forall k region regions fs e, region_left inside i box k region false fs -> left_behind inside i box k (region :: regions) fs (Err e)
  | left_all : forall k region regions fs fs' r, region_left inside i box k region true fs -> left_behind inside i box (k + 1)%Z regions fs' r ->
      left_behind inside i box k (region :: regions) (fs ++ fs')%list r.
