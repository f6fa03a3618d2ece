(** Model of desi/fiber_assignment_v0.py: the sky targets given to the assignment. desimodel, desitarget and fiberassign are arguments. *)
Require Import Reals ZArith String List Bool.
From Verif Require Import Base Box_Model Blind_Model FA_Model.
Import ListNotations.
Open Scope Z_scope.

(** np.unique: values once, in increasing order. *)
Fixpoint insert_once (x : Z) (l : list Z) : list Z :=
  match l with
  | [] => [x]
  | y :: l => if x =? y then y :: l else if x <? y then x :: y :: l else y :: insert_once x l
  end.
Definition unique (l : list Z) : list Z := fold_right insert_once [] l.
(** fiber_assignment_v0.py:543: tiles of targets on all processes ([gathered]: the tiles of the targets of each process). *)
Definition target_tiles (gathered : list (list Z)) : list Z := unique (concat (map unique gathered)).
(** fiber_assignment_v0.py:548-549: the tile of a sky target, or -1; [find] is desimodel's find_tiles_over_point. *)
Definition sky_tile {P} (find : list tile -> P -> list nat) (tiles_in_pass : list tile) (ids : list Z) (pos : P) : result Z :=
  match find (filter (fun t => existsb (Z.eqb (tile_id t)) ids) tiles_in_pass) pos with
  | [] => Ok (-1)
  | i :: _ => match nth_error ids i with Some t => Ok t | None => Err IndexError end
  end.
(** fiber_assignment_v0.py:543-554: sky targets of a pass with their tile. [pos] are their positions, [A] what they carry. *)
Definition sky_in_pass {P A} (find : list tile -> P -> list nat) (tiles_in_pass : list tile) (gathered : list (list Z)) (sky : list (P * A)) : result (list (P * A * Z)) :=
  do ids <- map_result (fun s => sky_tile find tiles_in_pass (target_tiles gathered) (fst s)) sky;
  Ok (filter (fun x => 0 <=? snd x) (combine sky ids)).
(** fiber_assignment_v0.py:90 and 134 [read_sky_targets], once files are read. [inside] is desimodel's is_point_in_desi. *)
Definition read_sky_targets {P A} (inside : list tile -> P -> bool) (tiles : list tile) (sky : list (P * A)) : list (P * A) := filter (fun s => inside tiles (fst s)) sky.
(** Keywords of read_sky_targets (line 90), and those of the call in the script (line 738); a keyword that is not there is a TypeError. *)
Definition read_sky_keywords : list string := ["dirname"; "filetype"; "tiles"; "mpicomm"]%string.
Definition script_keywords : list string := ["dirname"; "tiles"; "program"; "mpicomm"]%string.
Definition call_with {X} (accepted given : list string) (f : result X) : result X := if forallb (fun k => existsb (String.eqb k) accepted) given then f else Err TypeError.

(** fiber_assignment_v0.py:207-245 [convert_targets_to_fiberassign]: what is loaded in fiberassign's Targets, in order. [read_disk] is
    read_targets_in_tiles on the directories of sky targets. *)
Definition convert_targets {X} (read_disk : list tile -> list X) (targets : list X) (tiles : list tile) (use_sky_targets : bool) (sky_targets : option (list X)) : list X :=
  targets ++ (if use_sky_targets then match sky_targets with None => read_disk tiles | Some sky => sky end else []).
(** fiber_assignment_v0.py:142-257 [_run_assign_init]: the targets given to fiberassign. [sky_targets] is not given to the function above (line 252). *)
Definition run_assign_init {X} (read_disk : list tile -> list X) (tiles : list tile) (targets : list X) (use_sky_targets : bool) (sky_targets : option (list X)) : list X :=
  convert_targets read_disk targets tiles use_sky_targets None.

(** fiber_assignment_v0.py:335-389 [_extract_info_assignment], all the tiles of a process at once; columns TARGETID and FIBER of the two tables. The rows are those of
    the process; fiberassign is taken to treat tiles one by one ([w_assign]). *)
Definition extract_all (w : world) (tiles : list Z) (rows : list prow) : result (list (Z * Z) * list (Z * Z)) :=
  do infos <- map_result (fun t => extract_info (w_fiber w t) (w_science w) (w_assign w t rows)) tiles;
  Ok (List.concat (map fst infos), List.concat (map snd infos)).
(** fiber_assignment_v0.py:392-412 [_apply_mtl_one_pass]; match is a lookup by identifier as in [apply_mtl]. *)
Definition apply_mtl_one_pass (assigned avail : list (Z * Z)) (rows : list prow) : list prow := map (fun r => mark_assigned assigned (mark_available avail r)) rows.
(** fiber_assignment_v0.py:415-457 [_run_fiber_assignment_one_pass] and 565-568. [_run_assign_full], lines 260-332, only calls fiberassign, in a fixed order: it is in [w]. *)
Definition on_process_v0 (w : world) (tiles : list Z) (rows : list prow) : result (list prow) :=
  do info <- extract_all w (filter (fun t => existsb (Z.eqb t) (map p_tile rows)) tiles) rows;
  Ok (apply_mtl_one_pass (fst info) (snd info) rows).
(** fiber_assignment_v0.py:508-584: one pass, without sky targets. *)
Definition run_pass_v0 (w : world) (find : list tile -> R * R -> list nat) (exchange : list prow -> list (list prow)) (tiles : list tile) (pass : nat) (targets : list target) : result (list target) :=
  let tiles := tiles_in tiles pass in
  do tids <- map_result (fun t => tile_over find tiles (t_pos t)) targets;
  let rows := pass_rows 0 tids targets in
  do out <- map_result (on_process_v0 w (map tile_id tiles)) (exchange rows);
  let back := sort_by p_index (List.concat out) in
  if negb (list_eqb Nat.eqb (map p_index back) (map p_index rows)) then Err AssertionError else
  assign (update_target pass) (map (fun x : Z * target => in_pass (fst x) (snd x)) (combine tids targets)) back targets.
(** fiber_assignment_v0.py:460-587 [apply_fiber_assignment]. *)
Fixpoint run_passes_v0 (w : nat -> world) (find : list tile -> R * R -> list nat) (exchange : nat -> list prow -> list (list prow)) (tiles : list tile) (passes : list nat) (targets : list target) : result (list target) :=
  match passes with
  | [] => Ok targets
  | pass :: passes => do targets <- run_pass_v0 (w pass) find (exchange pass) tiles pass targets; run_passes_v0 w find exchange tiles passes targets
  end.
Definition apply_fiber_assignment_v0 (w : nat -> world) (find : list tile -> R * R -> list nat) (exchange : nat -> list prow -> list (list prow)) (tiles : list tile) (npasses : nat) (targets : list target) : result (list target) :=
  run_passes_v0 w find exchange tiles (seq 0 npasses) (map (start npasses) targets).
