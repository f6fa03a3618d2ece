(** Model of the main part of desi/from_box_to_desi_cutsky.py (lines 279-439). Definitions only. The cosmology, the box, the footprints and all random
    numbers are arguments. Catalogs of data are whole: arrays scattered over processes are given as their concatenation, every step being row by row;
    randoms are given process by process. Messages and the bricks (lines 385-387 and 419-421, add_brick_quantities being False, line 325) are left out. *)
Require Import Reals ZArith String List Bool.
From Verif Require Import Base Vec3 Isometry_Model Sky_Model Cutsky_Model Box_Model Rsd_Model Remap_Model Lattice_Model Mask_Model Sample_Model Random_Model Spline_Model FA_Model Region_Model Script_Model SV3_Model Rosette_Model.
Import ListNotations.
Open Scope R_scope.

(** from_box_to_desi_cutsky.py:41-91 [apply_rsd_and_cutsky], with the call of cartesian_to_sky of line 88 as an argument. *)
Definition rsd_and_cutsky (call : list vec -> result (list (R * R * R))) (c : boxcat) (dmin dmax f center_ra center_dec : R) : result pcat :=
  do r <- box_to_cutsky (boxsize c) dmax dmin;
  let '(drange, rarange, decrange) := r in
  let rarange := (fst rarange + center_ra, snd rarange + center_ra) in
  let decrange := (fst decrange + center_dec, snd decrange + center_dec) in
  do s <- isometry_for_cutsky c drange rarange decrange (Margins None None None) (Margins None None None) (Some 1%nat);
  do l <- cutsky_from_isometry c s None None None;
  match l with
  | [cat] =>
    do rsd <- rsd_position cat (FNum f) None;
    let cat := with_data cat (set_col "RSDPosition" (ColV rsd) (pc_data cat)) in
    do sky <- call rsd;
    Ok (with_data cat (set_col "DEC" (ColS (map snd sky)) (set_col "RA" (ColS (map (fun x => snd (fst x)) sky)) (set_col "DISTANCE" (ColS (map (fun x => fst (fst x)) sky)) (pc_data cat)))))
  | _ => Err TypeError
  end.
(** The call as it is written, and as it is meant: utils.py:42 has no argument wrap, right ascensions are wrapped anyway. *)
Definition call_written : list vec -> result (list (R * R * R)) := call_cartesian_to_sky ["wrap"]%string.
Definition call_meant : list vec -> result (list (R * R * R)) := call_cartesian_to_sky [].

(** Settings of the script (lines 304-342), what it reads, and numbers that are drawn with each seed. [i_smear seed z] are the errors of redshifts,
    [i_mask seed] the numbers of the radial mask, row by row; [i_angles seed k r] and [i_redshifts seed k r] what process [r] draws in round [k];
    [i_split n] the local sizes for n objects; [i_share k n] the rows of n that mpytools writes in each of k files. *)
Record settings : Type := Settings {
  i_outdir : string; i_release : string; i_program : string; i_npasses : option Z; i_fmt : string; i_generate : bool;
  i_zmin : R; i_zmax : R; i_table : list (R * R * R);
  i_box : boxcat; i_lattice : result dict; i_distance : R -> R; i_d2z : R -> R; i_factor : R;
  i_make : maker; i_fuel : nat; i_rounds : nat;
  i_desi : string -> string -> option Z -> list (R * R) -> result (list bool); i_regressis : option regressis;
  i_smear : Z -> list R -> list R; i_mask : Z -> nat -> R;
  i_angles : Z -> nat -> nat -> list (R * R * R); i_redshifts : Z -> nat -> nat -> list (R * R);
  i_split : nat -> list nat; i_share : nat -> nat -> list (list nat) }.

(** Line 316. *)
Definition programpasses (i : settings) : string := match i_npasses i with Some n => i_program i ++ "-" ++ str n | None => i_program i end.
(** Line 359. *)
Definition desi_regions : list string := ["N"; "DN"; "DS"]%string.
(** Lines 362-364: a dictionary keeps the last value given for a key. *)
Fixpoint last_index (region : string) (l : list string) : option Z :=
  match l with
  | [] => None
  | r :: l => match last_index region l with Some k => Some (k + 1)%Z | None => if String.eqb region r then Some 0%Z else None end
  end.
Definition seed_of (seed : Z) (regions : list string) (region : string) : result Z :=
  match last_index region regions with Some k => Ok (seed + k)%Z | None => Err KeyError end.
Definition seed_mock : Z := 79.
Definition seed_randoms : Z := 792.
(** Lines 336, 340: seeds of the field and of the objects of the box. *)
Definition seed_field : Z := 42.
Definition seed_objects : Z := 792.
(** Line 405. *)
Definition nrand_over_data : nat := 10.

(** What is written in a file: the columns of the catalog, and the column HPX, which may be NaN. *)
Record table : Type := Table { t_data : data; t_hpx : list (option nat) }.
Definition files : Type := list (string * table).
Definition io (A : Type) : Type := (files * result A)%type.
Definition io_ret {A} (r : result A) : io A := ([], r).
Definition io_bind {A B} (x : io A) (k : A -> io B) : io B :=
  match x with (l, Ok a) => let (l', r) := k a in ((l ++ l')%list, r) | (l, Err e) => (l, Err e) end.

(** Lines 374-379: the catalog of data of a region, before the footprint. *)
Definition region_cutsky (call : list vec -> result (list (R * R * R))) (i : settings) (box : boxcat) (center : R * R) (seed : Z) : result pcat :=
  do cat <- rsd_and_cutsky call box (i_distance i (i_zmin i)) (i_distance i (i_zmax i)) (i_factor i) (fst center) (snd center);
  do d <- get_num "DISTANCE" (pc_data cat);
  let cat := with_data cat (set_col "Z" (ColS (map (i_d2z i) d)) (pc_data cat)) in
  apply_radial_mask (i_make i) (i_fuel i) (i_distance i) (i_table i) (i_zmin i) (i_zmax i) (Some (i_smear i (seed + 13)%Z)) (numbers (i_mask i seed) (List.length d)) cat.
(** Lines 384, 418. *)
Definition footprint (i : settings) (region : string) (cat : pcat) : result (pcat * list (option nat)) :=
  apply_photo_desi_footprint (i_desi i (i_release i) (i_program i) (i_npasses i)) (i_regressis i) region cat.
(** Lines 391-397: names of files and the columns that are written. In the format bigfile, columns go to a group of a common file. *)
Definition is_bigfile (i : settings) : bool := String.eqb (i_fmt i) "bigfile".
Definition tag (i : settings) (region : string) : string := (i_release i ++ "-" ++ programpasses i ++ "-" ++ region)%string.
Definition data_name (i : settings) (region : string) : string :=
  let fn := path_join (i_outdir i) "data-cutsky" in
  if is_bigfile i then (fn ++ "/" ++ tag i region ++ "/")%string else (fn ++ "-" ++ tag i region ++ "." ++ i_fmt i)%string.
Definition data_columns (d : data) : data := filter (fun x => negb (String.eqb (fst x) "RSDPosition")) d.

(** make_survey.py:1139-1197: columns of RandomCutskyCatalog on a process. *)
Definition random_catalog (l : list object) : pcat :=
  pcat_new [("RA", ColS (map o_ra l)); ("DEC", ColS (map o_dec l)); ("Distance", ColS (map o_dist l)); ("Position", ColV (map o_pos l))]%string "Position" "Velocity" [] [].
(** Lines 407-427: randoms of a region, process by process. [n] is cutsky.csize. *)
Definition region_randoms (i : settings) (box : boxcat) (region : string) (center : R * R) (seed : Z) (n : nat) : result (list table) :=
  let nbr_randoms := Rtrunc (INR n * INR nrand_over_data + 0.5) in
  do r <- box_to_cutsky (boxsize box) (i_distance i (i_zmax i)) (i_distance i (i_zmin i));
  let '(_, rarange, decrange) := r in
  do out <- random_cutsky (i_split i) (fun x => x) (i_angles i seed) (fun _ _ => []) (i_rounds i)
    (fst center + fst rarange, fst center + snd rarange) (snd center + fst decrange, snd center + snd decrange) None (Some nbr_randoms) None;
  do kept <- map_result (fun l => footprint i region (random_catalog l)) out;
  do z <- generate_redshifts (i_make i) (i_fuel i) (i_distance i) (i_table i) (i_zmin i) (i_zmax i) (i_redshifts i (seed * 276)%Z) (i_rounds i) (map (fun x => csize (fst x)) kept);
  Ok (map (fun x => Table (set_col "Z" (ColS (snd x)) (pc_data (fst (fst x)))) (snd (fst x))) (combine kept z)).

(** Rows of all processes, one after the other. *)
Definition nums (n : string) (t : table) : list R := match lookup n (t_data t) with Some (ColS l) => l | _ => [] end.
Definition vecs (n : string) (t : table) : list vec := match lookup n (t_data t) with Some (ColV l) => l | _ => [] end.
Definition gather (l : list table) : table :=
  Table (match l with
         | [] => []
         | t :: _ => map (fun x => (fst x, match snd x with ColS _ => ColS (flat_map (nums (fst x)) l) | ColV _ => ColV (flat_map (vecs (fst x)) l) end)) (t_data t)
         end) (flat_map t_hpx l).
(** Rows of a table, by number. *)
Definition rows_at {A} (idx : list nat) (l : list A) : list A := flat_map (fun k => match nth_error l k with Some x => [x] | None => [] end) idx.
Definition take_rows (t : table) (idx : list nat) : table :=
  Table (map (fun x => (fst x, match snd x with ColS l => ColS (rows_at idx l) | ColV l => ColV (rows_at idx l) end)) (t_data t)) (rows_at idx (t_hpx t)).
(** Lines 431-435. *)
Definition randoms_name (i : settings) (region : string) (k : nat) : string :=
  (path_join (i_outdir i) "randoms-cutsky" ++ "-" ++ tag i region ++ "-" ++ str (Z.of_nat k) ++ "." ++ i_fmt i)%string.
Definition write_randoms (i : settings) (region : string) (t : table) : io unit :=
  if is_bigfile i then ([((path_join (i_outdir i) "randoms-cutsky" ++ "/" ++ tag i region ++ "/")%string, t)], Ok tt)
  else (combine (map (randoms_name i region) (seq 0 nrand_over_data)) (map (take_rows t) (i_share i nrand_over_data (List.length (t_hpx t)))), Ok tt).

(** Lines 366-435, one region. *)
Definition region_step (call : list vec -> result (list (R * R * R))) (i : settings) (regions : list string) (box : boxcat) (region : string) : io unit :=
  io_bind (io_ret (photometric_region_center region)) (fun center =>
  io_bind (io_ret (do seed <- seed_of seed_mock regions region; region_cutsky call i box center seed)) (fun cutsky =>
  io_bind (io_ret (footprint i region cutsky)) (fun desi_cutsky =>
  io_bind ([(data_name i region, Table (data_columns (pc_data (fst desi_cutsky))) (snd desi_cutsky))], Ok tt) (fun _ =>
  if i_generate i then
    io_bind (io_ret (do seed <- seed_of seed_randoms regions region; region_randoms i box region center seed (csize cutsky))) (fun randoms => write_randoms i region (gather randoms))
  else io_ret (Ok tt))))).
Fixpoint each {A} (f : A -> io unit) (l : list A) : io unit :=
  match l with [] => io_ret (Ok tt) | a :: l => io_bind (f a) (fun _ => each f l) end.
(** Lines 354-435, for any list of regions. *)
Definition desi_script_on (call : list vec -> result (list (R * R * R))) (i : settings) (regions : list string) : io unit :=
  io_bind (io_ret (remap_the_box (i_lattice i) (i_box i))) (fun box => each (region_step call i regions box) regions).
(** The script. *)
Definition desi_script (i : settings) : io unit := desi_script_on call_written i desi_regions.
