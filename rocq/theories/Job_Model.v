(** Model of desi/fiber_assignment.py:53-277 and 385-443: what fiberassign is run with, for each tile. Definitions only. *)
Require Import Reals ZArith String List Bool.
From Verif Require Import Base Box_Model Tile_Model.
Import ListNotations.
Open Scope R_scope.

(** A row of the table of tiles: TILEID, RA, DEC, OBSCONDITIONS, and OBSDATE when there is such a column. *)
Record tile_row : Type := TileRow { tr_id : BinNums.Z; tr_ra : R; tr_dec : R; tr_cond : BinNums.Z; tr_date : string }.
(** The table given to _run_assign_init; [tb_names] is its attribute names, when it has one. *)
Record tile_table : Type := Table { tb_rows : list tile_row; tb_names : option (list string) }.
(** Options of parse_assign that are read here. *)
Record fa_args : Type := Args { ag_obsdate : option string; ag_fieldrot : option R; ag_ha : option R }.
(** Arguments of fiberassign's Tiles (line 134). *)
Record fa_tiles : Type := Tiles { ft_id : list BinNums.Z; ft_ra : list R; ft_dec : list R; ft_cond : list BinNums.Z; ft_date : list string; ft_theta : list R; ft_ha : list R }.
(** What is used from outside: astropy.time.Time gives mjd and isot; field_rotation_angle; RUNDATE in the header of a file; rows of files of sky targets;
    files of fiberassign (Tile_Model.v). *)
Record outside (T : Type) : Type := Outside {
  ou_time : string -> result (R * string); ou_rotation : R -> R -> R -> R; ou_rundate : string -> result string; ou_sky : string -> result (list T); ou_file : string -> result fafile }.
Arguments Outside {T}. Arguments ou_time {T}. Arguments ou_rotation {T}. Arguments ou_rundate {T}. Arguments ou_sky {T}. Arguments ou_file {T}.

(** fiber_assignment.py:97-115: dates. *)
Definition tile_dates {T} (o : outside T) (ag : fa_args) (t : tile_table) : result (list (R * string)) :=
  match ag_obsdate ag with
  | Some date => do x <- ou_time o date; Ok (map (fun _ => x) (tb_rows t))
  | None =>
    match tb_names t with
    | None => Err AttributeError
    | Some names =>
      if existsb (String.eqb "OBSDATE") names then map_result (fun r => ou_time o (tr_date r)) (tb_rows t)
      else do x <- ou_time o "2022-07-01"%string; Ok (map (fun _ => x) (tb_rows t))
    end
  end.
(** fiber_assignment.py:119-127: zip of three arrays. *)
Fixpoint rotations (angle : R -> R -> R -> R) (ra dec mjd : list R) : list R :=
  match ra, dec, mjd with
  | a :: ra, d :: dec, m :: mjd => angle a d m :: rotations angle ra dec mjd
  | _, _, _ => []
  end.
(** fiber_assignment.py:84-134 [convert_tiles_to_fiberassign]. *)
Definition convert_tiles {T} (o : outside T) (ag : fa_args) (t : tile_table) : result fa_tiles :=
  let rows := tb_rows t in
  do dates <- tile_dates o ag t;
  let theta := match ag_fieldrot ag with
               | None => rotations (ou_rotation o) (map tr_ra rows) (map tr_dec rows) (map fst dates)
               | Some th => map (fun _ => th) rows
               end in
  let ha := map (fun _ => match ag_ha ag with Some h => h | None => 0 end) rows in
  Ok (Tiles (map tr_id rows) (map tr_ra rows) (map tr_dec rows) (map tr_cond rows) (map snd dates) theta ha).
(** fiber_assignment.py:53-66 [read_sky_targets]: rows of the files of all tiles given, in turn. *)
Definition read_sky_targets {T} (o : outside T) (t : tile_table) : result (list T) :=
  do parts <- map_result (fun r => ou_sky o (sky_name (tr_id r))) (tb_rows t);
  Ok (List.concat parts).
(** fiber_assignment.py:136-166 [convert_targets_to_fiberassign]: the tables loaded. *)
Definition convert_targets {T} (o : outside T) (t : tile_table) (use_sky_targets : bool) (targets : list T) : result (list (list T)) :=
  if use_sky_targets then do sky <- read_sky_targets o t; Ok [targets; sky] else Ok [targets].
(** What a run is given: date of the hardware, tiles, tables of targets, stuck fibres of each tile. *)
Record job (T : Type) : Type := Job { jb_rundate : string; jb_tiles : fa_tiles; jb_targets : list (list T); jb_stuck : list (BinNums.Z * list (BinNums.Z * bool)) }.
Arguments Job {T}. Arguments jb_rundate {T}. Arguments jb_tiles {T}. Arguments jb_targets {T}. Arguments jb_stuck {T}.
(** fiber_assignment.py:76-185 [_run_assign_init]. *)
Definition run_assign_init {T} (o : outside T) (ag : fa_args) (t : tile_table) (use_sky_targets : bool) (targets : list T) : result (string * fa_tiles * list (list T)) :=
  match tb_rows t with
  | [] => Err IndexError
  | first :: _ =>
    do rundate <- ou_rundate o (fa_name (tr_id first));
    do tgs <- convert_targets o t use_sky_targets targets;
    do tiles <- convert_tiles o ag t;
    Ok (rundate, tiles, tgs)
  end.
(** fiber_assignment.py:385-421 [_run_fiber_assignment_one_tile] up to the run of fiberassign in line 188-277 [_run_assign_full]: files for stuck fibres
    are always given (line 399). *)
Definition one_tile_job {T} (o : outside T) (stuck broken sky : BinNums.Z) (ag : fa_args) (t : tile_table) (use_sky_targets : bool) (targets : list T) : result (job T) :=
  let fafns := fafns_for_tiles (map tr_id (tb_rows t)) in
  do init <- run_assign_init o ag t use_sky_targets targets;
  let '(rundate, tiles, tgs) := init in
  do stucksky <- stuck_on_sky_from_fafns stuck broken sky (ou_file o) fafns;
  Ok (Job rundate tiles tgs stucksky).
(** fiber_assignment.py:424-442 [_run_fiber_assignment_one_pass]: rows are taken one at a time. The targets change between runs (C47 to C49): [step] is what a run
    does to them. *)
Fixpoint pass_loop {T} (o : outside T) (stuck broken sky : BinNums.Z) (ag : fa_args) (names : option (list string)) (use_sky_targets : bool) (step : job T -> list T -> list T) (rows : list tile_row) (targets : list T) : result (list (job T) * list T) :=
  match rows with
  | [] => Ok ([], targets)
  | r :: rows =>
    do j <- one_tile_job o stuck broken sky ag (Table [r] names) use_sky_targets targets;
    do rest <- pass_loop o stuck broken sky ag names use_sky_targets step rows (step j targets);
    Ok (j :: fst rest, snd rest)
  end.
