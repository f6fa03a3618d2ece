(** Model of desi/footprint.py. desimodel's functions and the files are arguments; logging is left out. *)
Require Import Reals ZArith List Bool String Ascii.
From Verif Require Import Base Box_Model Blind_Model Brick_Model.
Import ListNotations.
Open Scope string_scope.

(** footprint.py:10-23, run at import: the reduction directory, and the environment left. As written, the second try is inside the handler of the first. *)
Definition default_redux : string := "/global/cfs/cdirs/desi/spectro/redux".
Definition default_surveyops : string := "/global/cfs/cdirs/desi/survey/ops/surveyops/trunk".
Definition import_paths (env : list (string * string)) : string * list (string * string) :=
  match assoc "DESI_SPECTRO_REDUX" env with
  | Some path => (path, env)
  | None =>
    let path := default_redux in
    match assoc "DESI_SURVEYOPS" env with
    | Some path => (path, env)
    | None => (path, set_item "DESI_SURVEYOPS" default_surveyops env)
    end
  end.
(** os.path.join with a relative second part. *)
Fixpoint ends_with_slash (s : string) : bool :=
  match s with
  | EmptyString => false
  | String c EmptyString => Ascii.eqb c "/"
  | String _ s => ends_with_slash s
  end.
Definition join (a b : string) : string := if a =? "" then b else if ends_with_slash a then a ++ b else a ++ "/" ++ b.
(** footprint.py:26: the default of tiles_fn, once formatted (line 91). Braces in the directory are not modelled. *)
Definition tiles_fn (redux_path redux : string) : string := join redux_path (redux ++ "/tiles-" ++ redux ++ ".csv").

(** Rows of tables of tiles. *)
Record tile : Type := Tile { t_survey : string; t_program : string; t_lastnight : Z; t_ra : R; t_dec : R }.
(** str.upper on ASCII. *)
Fixpoint upper (s : string) : string :=
  match s with
  | EmptyString => EmptyString
  | String c s => String (let n := nat_of_ascii c in if Nat.leb 97 n && Nat.leb n 122 then ascii_of_nat (n - 32) else c) (upper s)
  end.
(** footprint.py:68-83: reduction (None for desimodel's tiles) and last night. *)
Definition release_of (release : string) : result (option string * option Z) :=
  let release := lower release in
  if (release =? "sv3") || (release =? "onepercent") then Ok (Some "fuji", None)
  else if (release =? "da02") || (release =? "m3") then Ok (Some "guadalupe", None)
  else if release =? "y1" then Ok (Some "daily", Some 20220613%Z)
  else if release =? "y3" then Ok (Some "loa", None)
  else if release =? "y5" then Ok (None, None)
  else Err ValueError.
(** footprint.py:85-96. [read_csv]: None if there is no such file (FileNotFoundError). *)
Definition select_tiles (read_csv : string -> option (list tile)) (load_tiles : list tile) (fn : string -> string) (release program survey : string) : result (list tile) :=
  do rl <- release_of release;
  match fst rl with
  | None => Ok (filter (fun t => t_program t =? upper program) load_tiles)
  | Some redux =>
    match read_csv (fn redux) with
    | None => Err ExternalError
    | Some tiles =>
      let tiles := filter (fun t => (t_survey t =? survey) && (t_program t =? program)) tiles in
      Ok (match snd rl with None => tiles | Some night => filter (fun t => (t_lastnight t <=? night)%Z) tiles end)
    end
  end.
(** footprint.py:25-105 [is_in_desi_footprint]. [find]: indices of the tiles over a point; [inside]: whether a point is in a tile, and the index of its nearest tile. *)
Inductive answer : Type := Mask (mask : list bool) | Indices (mask : list bool) (i : list (list nat)) | Nearest (mask : list bool) (i : list nat).
Definition is_in_desi_footprint (find : list tile -> R * R -> list nat) (inside : list tile -> R * R -> bool * nat) (read_csv : string -> option (list tile)) (load_tiles : list tile) (fn : string -> string)
    (positions : list (R * R)) (release : string) (npasses : option Z) (program survey : string) (return_tile_index : bool) : result answer :=
  do tiles <- select_tiles read_csv load_tiles fn release program survey;
  match npasses with
  | Some n =>
    let tile_id := map (find tiles) positions in
    let mask := map (fun tt : list nat => (n <=? Z.of_nat (List.length tt))%Z) tile_id in
    Ok (if return_tile_index then Indices mask tile_id else Mask mask)
  | None =>
    let l := map (inside tiles) positions in
    Ok (if return_tile_index then Nearest (map fst l) (map snd l) else Mask (map fst l))
  end.
Definition mask_of (a : answer) : list bool := match a with Mask m => m | Indices m _ => m | Nearest m _ => m end.
