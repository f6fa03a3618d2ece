(** Model of desi/fiber_assignment.py:32-75 and 202-240: table of tiles, names of files, stuck fibres on sky. Definitions only. *)
Require Import ZArith String Ascii List Bool DecimalString Decimal.
From Verif Require Import Base FA_Model.
Import ListNotations.
Open Scope string_scope.
Open Scope list_scope.

(** str.upper on letters a-z (other characters are left as they are; accented letters are not considered). *)
Definition upper_ascii (c : ascii) : ascii := let n := nat_of_ascii c in if Nat.leb 97 n && Nat.leb n 122 then ascii_of_nat (n - 32) else c.
Fixpoint upper (s : string) : string := match s with "" => "" | String c s => String (upper_ascii c) (upper s) end.
(** fiber_assignment.py:32-50 [build_tiles_for_fa], with the same lines in fiber_assignment_v0.py:30-48: rows of the survey table, with their other columns [A]; [observed]
    are the identifiers in the file of the release; [obsconditions] is the mask of desitarget; reading the two files is left out. *)
Definition build_tiles_for_fa {A} (obsconditions : string -> result Z) (tiles : list (tile * A)) (observed : list Z) (program : string) (npasses : Z) : result (list (tile * A * Z)) :=
  let tiles := filter (fun t => existsb (Z.eqb (tile_id (fst t))) observed && String.eqb (tile_program (fst t)) (upper program) && (tile_pass (fst t) <? npasses)%Z) tiles in
  do mask <- obsconditions (upper program);
  Ok (map (fun t => (t, mask)) tiles).

(** f"{tileid:06d}": decimal digits, with zeros in front (after the sign) up to 6 characters. *)
Fixpoint zeros (n : nat) : string := match n with O => "" | S n => String "0" (zeros n) end.
Definition decimal (n : N) : string := NilZero.string_of_uint (N.to_uint n).
Definition padded (width : nat) (z : Z) : string :=
  let digits := decimal (Z.abs_N z) in
  match z with
  | Zneg _ => "-" ++ zeros (width - 1 - String.length digits) ++ digits
  | _ => zeros (width - String.length digits) ++ digits
  end%string.
(** s[:3]. *)
Definition prefix3 (s : string) : string := substring 0 3 s.
(** fiber_assignment.py:69-73 [fafns_for_tiles] and 57-58 [read_sky_targets]: names of the files of tiles. *)
Definition fa_name (tileid : Z) : string :=
  ("/dvs_ro/cfs/cdirs/desi/target/fiberassign/tiles/trunk/" ++ prefix3 (padded 6 tileid) ++ "/fiberassign-" ++ padded 6 tileid ++ ".fits.gz")%string.
Definition sky_name (tileid : Z) : string :=
  ("/dvs_ro/cfs/cdirs/desi/survey/fiberassign/main/" ++ prefix3 (padded 6 tileid) ++ "/" ++ padded 6 tileid ++ "-sky.fits")%string.
Fixpoint join (sep : string) (l : list string) : string :=
  match l with
  | [] => ""
  | [a] => a
  | a :: l => (a ++ sep ++ join sep l)%string
  end.
Definition fafns_for_tiles (ids : list Z) : string := join "," (map fa_name ids).
(** str.split(","). *)
Fixpoint split_commas (s : string) : list string :=
  match s with
  | "" => [""]
  | String c s => if Ascii.eqb c "," then "" :: split_commas s else match split_commas s with [] => [] | a :: l => String c a :: l end
  end.

(** What is read of a file of fiberassign: TILEID; rows (LOCATION, FIBERSTATUS, OBJTYPE) of FIBERASSIGN; rows (LOCATION, FA_TYPE) of SKY_MONITOR. *)
Record fafile : Type := FaFile { ff_tile : Z; ff_fibers : list (Z * Z * string); ff_monitors : list (Z * Z) }.
(** d[k] = v for a dictionary. *)
Fixpoint dict_set {A} (k : Z) (v : A) (d : list (Z * A)) : list (Z * A) :=
  match d with
  | [] => [(k, v)]
  | (n, x) :: d => if Z.eqb n k then (n, v) :: d else (n, x) :: dict_set k v d
  end.
(** sorted(d.items()); keys are different, values are not compared. *)
Fixpoint insert_loc {A} (x : Z * A) (d : list (Z * A)) : list (Z * A) :=
  match d with
  | [] => [x]
  | y :: d => if (fst x <=? fst y)%Z then x :: y :: d else y :: insert_loc x d
  end.
Definition sort_locs {A} (d : list (Z * A)) : list (Z * A) := fold_right insert_loc [] d.
(** fiber_assignment.py:217-231, one file. [stuck], [broken] and [sky] are FIBER_STATE_STUCK, FIBER_STATE_BROKEN and TARGET_TYPE_SKY. *)
Definition stuck_of_file (stuck broken sky : Z) (f : fafile) : list (Z * bool) :=
  let sel := filter (fun x : Z * Z * string => (Z.land (snd (fst x)) (Z.lor stuck broken) =? stuck)%Z) (ff_fibers f) in
  let d := fold_left (fun d (x : Z * Z * string) => dict_set (fst (fst x)) (String.eqb (snd x) "SKY") d) sel [] in
  let d := fold_left (fun d (x : Z * Z) => dict_set (fst x) (0 <? Z.land (snd x) sky)%Z d) (ff_monitors f) d in
  sort_locs d.
(** fiber_assignment.py:199-233 [stuck_on_sky_from_fafns]; [read] gives what is in a file. *)
Fixpoint stuck_loop (stuck broken sky : Z) (read : string -> result fafile) (names : list string) (d : list (Z * list (Z * bool))) : result (list (Z * list (Z * bool))) :=
  match names with
  | [] => Ok d
  | name :: names => do f <- read name; stuck_loop stuck broken sky read names (dict_set (ff_tile f) (stuck_of_file stuck broken sky f) d)
  end.
Definition stuck_on_sky_from_fafns (stuck broken sky : Z) (read : string -> result fafile) (fafns : string) : result (list (Z * list (Z * bool))) :=
  stuck_loop stuck broken sky read (split_commas fafns) [].
