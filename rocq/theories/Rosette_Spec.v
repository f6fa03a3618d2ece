(** What the SV3 script should do, in words of geometry and rows of catalogs. *)
Require Import Reals ZArith String List Sorted Permutation.
From Verif Require Import Base Vec3 Isometry_Model Box_Model Box_Spec Cutsky_Spec Rsd_Spec FA_Model Script_Thm SV3_Model Rosette_Model Law_Spec.
Import ListNotations.
Open Scope R_scope.

(** Unit vectors at the direction (ra, dec), in degrees: away from the observer, to the east, to the north. *)
Definition deg : R := PI / 180.
Definition outward (ra dec : R) : vec := sky_point 1 ra dec.
Definition east (ra dec : R) : vec := V (- sin (ra * deg)) (cos (ra * deg)) 0.
Definition north (ra dec : R) : vec := V (- sin (dec * deg) * cos (ra * deg)) (- sin (dec * deg) * sin (ra * deg)) (cos (dec * deg)).
(** East and north turned by an angle about the line of sight. *)
Definition turned_east (ra dec angle : R) : vec := vadd (vscale (cos (angle * deg)) (east ra dec)) (vscale (sin (angle * deg)) (north ra dec)).
Definition turned_north (ra dec angle : R) : vec := vadd (vscale (- sin (angle * deg)) (east ra dec)) (vscale (cos (angle * deg)) (north ra dec)).
(** A displacement whose coordinates are taken along the line of sight, turned east, turned north. *)
Definition in_frame (ra dec angle : R) (v : vec) : vec :=
  vadd (vscale (vx v) (outward ra dec)) (vadd (vscale (vy v) (turned_east ra dec angle)) (vscale (vz v) (turned_north ra dec angle))).
(** Where a point of a box is seen when the middle of its far face (along its first side) is at distance dmax in the direction (ra, dec), and its sides are
    along the line of sight, turned east and turned north. *)
Definition seen (ra dec angle dmax : R) (size center p : vec) : vec :=
  in_frame ra dec angle (vadd (V (dmax - vx size / 2) 0 0) (vsub p center)).

(** The far corners of the widest side, brought closer to the observer by the depth of the box, are within dmax. *)
Definition fits_in (dmax : R) (size : vec) : Prop := sqrt ((dmax - vx size) ^ 2 + (Rmax (vy size) (vz size) / 2) ^ 2) < dmax.

(** Same catalog, positions moved by f and velocities by g. *)
Definition moved_by (f g : vec -> vec) (c c' : pcat) : Prop :=
  names c' = names c /\ pc_position c' = pc_position c /\ pc_velocity c' = pc_velocity c /\
  (forall m l, column c m = Some (ColV l) -> moves c m -> column c' m = Some (ColV (map f l))) /\
  (forall m l, column c m = Some (ColV l) -> In m (pc_vectors c) -> In m (pc_invariants c) -> column c' m = Some (ColV (map g l))) /\
  (forall m x, column c m = Some x -> ~ In m (pc_vectors c) -> column c' m = Some x).

(** Where objects are observed: d, ra, dec of each position. *)
Definition on_sky (pos : list vec) (sky : list (R * R * R)) : Prop :=
  Forall2 (fun p x => 0 < fst (fst x) /\ 0 <= snd (fst x) < 360 /\ -90 <= snd x <= 90 /\ p = sky_point (fst (fst x)) (snd (fst x)) (snd x)) pos sky.

(** Columns added by the script. *)
Definition added : list string := ["RSDPosition"; "RA"; "DEC"; "Z"]%string.
(** desimodel's is_point_in_desi: a point is in when it is near a tile. *)
Definition tile_lookup (near : BinNums.Z * (R * R) -> R * R -> bool) (in_desi : list (BinNums.Z * (R * R)) -> list (R * R) -> list bool) : Prop :=
  forall tiles points, in_desi tiles points = map (fun p => existsb (fun t => near t p) tiles) points.
(** In a tile of a list of identifiers. *)
Definition in_tile_of (near : BinNums.Z * (R * R) -> R * R -> bool) (tiles : list (BinNums.Z * (R * R))) (ids : list BinNums.Z) (p : R * R) : Prop :=
  exists t, In t tiles /\ In (fst t) ids /\ near t p = true.

(** Where the objects of a placed catalog are observed: with their velocity (factor f), or at their position. *)
Definition observed_at (factor : option R) (placed : pcat) (obs : list vec) : Prop :=
  match factor with
  | Some f => exists pos vel, column placed (pc_position placed) = Some (ColV pos) /\ column placed (pc_velocity placed) = Some (ColV vel) /\ row_by_row (moved_radially f) pos vel obs
  | None => column placed "Position" = Some (ColV obs)
  end.
(** [cat] holds the rows [idx] of [placed], with their columns, observed at [obs]: those in a tile whose number is at most the probability at their redshift. *)
Definition recorded (near : BinNums.Z * (R * R) -> R * R -> bool) (tiles : list (BinNums.Z * (R * R))) (ids : list BinNums.Z) (prob d2z : R -> R) (u : nat -> R)
  (placed : pcat) (obs : list vec) (idx : list nat) (cat : pcat) : Prop :=
  exists sky, on_sky obs sky /\ Sorted.StronglySorted lt idx /\
    (forall i, In i idx <-> exists d ra dec, nth_error sky i = Some (d, ra, dec) /\ in_tile_of near tiles ids (ra, dec) /\ u i <= prob (d2z d)) /\
    (forall m x, ~ In m added -> column placed m = Some x -> column cat m = Some (pick_col idx x)) /\
    column cat "RA" = Some (ColS (pick idx (map (fun x => snd (fst x)) sky))) /\ column cat "DEC" = Some (ColS (pick idx (map snd sky))) /\
    column cat "Z" = Some (ColS (pick idx (map (fun x => d2z (fst (fst x))) sky))).

(** The catalog of a group for a mock, before the number of data is matched: data or randoms. *)
Definition made (i : inputs) (imock : BinNums.Z) (is_data : bool) (g : group) (region : string) (cat : pcat) : Prop :=
  exists ids dirs los, tiles_of (i_tiles_rosettes i) (g_rosettes g) = Ok ids /\ directions_of (i_directions i) (g_rosettes g) = Ok dirs /\ group_los dirs = Ok los /\
    group_catalog i g los ids region (if is_data then Some (i_factor i) else None) (i_radial i is_data imock (g_rosettes g)) (if is_data then i_box i imock else i_randoms i) = Ok cat.
(** Objects of a region in all catalogs of a mock. *)
Definition region_total (region : string) (l : list (list BinNums.Z * string * pcat)) : nat :=
  fold_right (fun x n => (csize (snd x) + n)%nat) 0%nat (filter (fun x => String.eqb (snd (fst x)) region) l).
(** The file of data made from a catalog: rows whose number is below the wanted fraction. *)
Definition thinned (i : inputs) (imock : BinNums.Z) (all : list (list BinNums.Z * string * pcat)) (x : list BinNums.Z * string * pcat) (f : string * pcat) : Prop :=
  catalog_fn (i_outdir i) "data" (fst (fst x)) imock = Ok (fst f) /\ (0 < region_total (snd (fst x)) all)%nat /\
  exists idx, rows_kept idx (snd x) (snd f) /\
    forall j, In j idx <-> (j < csize (snd x))%nat /\ i_thin i imock (fst (fst x)) j * INR (region_total (snd (fst x)) all) < INR (i_ndata i (snd (fst x))).
(** What a mock leaves behind. *)
Definition mock_files (i : inputs) (regions : list (group * string)) (imock : BinNums.Z) (fs : files) : Prop :=
  exists data randoms thin,
    Forall2 (fun x y => fst (fst y) = g_rosettes (fst x) /\ snd (fst y) = snd x /\ made i imock true (fst x) (snd x) (snd y)) regions data /\
    (if (imock <? nran)%Z then Forall2 (fun x f => catalog_fn (i_outdir i) "randoms" (g_rosettes (fst x)) imock = Ok (fst f) /\ made i imock false (fst x) (snd x) (snd f)) regions randoms else randoms = []) /\
    Forall2 (thinned i imock data) data thin /\ (forall region, In region script_regions -> (0 < region_total region data)%nat) /\ Permutation (randoms ++ thin) fs.
(** All rosettes of a group are in the given region. *)
Definition in_region (directions : list (BinNums.Z * (R * R))) (g : group) (region : string) : Prop :=
  g_rosettes g <> [] /\ forall r, In r (g_rosettes g) -> exists ra dec, zassoc r directions = Some (ra, dec) /\ region = if Rltb (259 / 8) dec then "N"%string else "S"%string.
(** The script with other numbers for the thinning. *)
Definition with_thin (i : inputs) (t : BinNums.Z -> list BinNums.Z -> nat -> R) : inputs :=
  Inputs (i_outdir i) (i_groups i) (i_tiles_rosettes i) (i_directions i) (i_tiles i) (i_in_desi i) (i_prob i) (i_ndata i) (i_dmax i) (i_d2z i) (i_box i) (i_factor i) (i_randoms i) (i_radial i) t.
(** Numbers of the thinning taken from places: the group has a rank, the object too. *)
Definition from_places (rank : list BinNums.Z -> nat) (s : place -> R) : BinNums.Z -> list BinNums.Z -> nat -> R := fun _ rosettes j => s (0%nat, rank rosettes, j).
Definition places_of (rank : list BinNums.Z -> nat) (l : list (list BinNums.Z * string * pcat)) : list place :=
  flat_map (fun x => map (fun j => (0%nat, rank (fst (fst x)), j)) (seq 0 (csize (snd x)))) l.
(** Objects can be observed: the column of positions is named Position, or no distorted position falls on the observer. *)
Definition watched (factor : option R) (f : vec -> vec) (g : vec -> vec) (c : pcat) (pos : list vec) : Prop :=
  match factor with
  | Some a => exists vel, column c (pc_velocity c) = Some (ColV vel) /\ forall k p v, nth_error pos k = Some p -> nth_error vel k = Some v -> vdot (f p) (f p) + a * vdot (f p) (g v) <> 0
  | None => pc_position c = "Position"%string
  end.
