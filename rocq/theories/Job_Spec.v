(** What a run of fiberassign for a tile should be given. *)
Require Import Reals ZArith String List Bool.
From Verif Require Import Base Box_Model Tile_Model Job_Model.
Import ListNotations.
Open Scope R_scope.

(** The date of a tile: the one asked for, else the one of its row when the table has dates, else the middle of the survey. *)
Inductive date_of (ag : fa_args) (names : list string) (r : tile_row) : string -> Prop :=
  | Asked : forall d, ag_obsdate ag = Some d -> date_of ag names r d
  | OfRow : ag_obsdate ag = None -> In "OBSDATE"%string names -> date_of ag names r (tr_date r)
  | Middle : ag_obsdate ag = None -> ~ In "OBSDATE"%string names -> date_of ag names r "2022-07-01".
Definition asked {A} (o : option A) (default : A) (a : A) : Prop := match o with Some x => a = x | None => a = default end.
(** A run is for the tile of row [r]. *)
Definition job_for {T} (o : outside T) (stuck broken sky : BinNums.Z) (ag : fa_args) (names : list string) (use_sky_targets : bool) (r : tile_row) (targets : list T) (j : job T) : Prop :=
  ou_rundate o (fa_name (tr_id r)) = Ok (jb_rundate j) /\
  (exists date mjd isot theta ha, date_of ag names r date /\ ou_time o date = Ok (mjd, isot) /\ asked (ag_fieldrot ag) (ou_rotation o (tr_ra r) (tr_dec r) mjd) theta /\ asked (ag_ha ag) 0 ha /\
    jb_tiles j = Tiles [tr_id r] [tr_ra r] [tr_dec r] [tr_cond r] [isot] [theta] [ha]) /\
  (if use_sky_targets then exists rows, ou_sky o (sky_name (tr_id r)) = Ok rows /\ jb_targets j = [targets; rows] else jb_targets j = [targets]) /\
  exists f, ou_file o (fa_name (tr_id r)) = Ok f /\ jb_stuck j = [(ff_tile f, stuck_of_file stuck broken sky f)].
(** The runs of a pass: one per row, each with the targets as the previous ones left them. *)
Inductive runs {T} (ok : tile_row -> list T -> job T -> Prop) (step : job T -> list T -> list T) : list tile_row -> list T -> list (job T) -> list T -> Prop :=
  | NoTile : forall targets, runs ok step [] targets [] targets
  | OneTile : forall r rows targets j jobs final, ok r targets j -> runs ok step rows (step j targets) jobs final -> runs ok step (r :: rows) targets (j :: jobs) final.
(** Everything that is needed for a tile can be read. *)
Definition readable {T} (o : outside T) (ag : fa_args) (names : list string) (use_sky_targets : bool) (r : tile_row) : Prop :=
  (exists d, ou_rundate o (fa_name (tr_id r)) = Ok d) /\ (exists d x, date_of ag names r d /\ ou_time o d = Ok x) /\ (use_sky_targets = true -> exists rows, ou_sky o (sky_name (tr_id r)) = Ok rows) /\ exists f, ou_file o (fa_name (tr_id r)) = Ok f.
