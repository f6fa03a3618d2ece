(** Model of desi/fiber_assignment_v0.py:51-139: the archive of sky targets. Definitions only. *)
Require Import ZArith String Ascii List Bool.
From Verif Require Import Base Tile_Model SV3_Model.
Import ListNotations.
Open Scope string_scope.
Open Scope list_scope.

(** A file: rows in FITS or in the format bigfile. A directory: names and files. Columns read and written are part of the type of rows; missing
    columns are left out. *)
Inductive file (T : Type) : Type := Fits (rows : list T) | Big (rows : list T).
Arguments Fits {T}. Arguments Big {T}.
Definition directory (T : Type) : Type := list (string * file T).
(** Patterns of glob: names that start with a dot are not matched by a star. *)
Definition visible (name : string) : bool := match name with String "." _ => false | _ => true end.
Definition ends_with (suffix s : string) : bool := Nat.leb (String.length suffix) (String.length s) && String.eqb (substring (String.length s - String.length suffix) (String.length suffix) s) suffix.
(** str.split with one character. *)
Fixpoint split_on (sep : ascii) (s : string) : list string :=
  match s with
  | "" => [""]
  | String c s => if Ascii.eqb c sep then "" :: split_on sep s else match split_on sep s with [] => [] | a :: l => String c a :: l end
  end.
(** Line 76: '-'.join(name.split('-')[:-2]). *)
Definition base_of (name : string) : string := let l := split_on "-" name in join "-" (firstn (List.length l - 2) l).
(** open(name, 'w') and alike: the file is replaced, or made. *)
Fixpoint set_file {T} (name : string) (f : file T) (d : directory T) : directory T :=
  match d with
  | [] => [(name, f)]
  | (n, g) :: d => if String.eqb n name then (n, f) :: d else (n, g) :: set_file name f d
  end.
Fixpoint get_file {T} (name : string) (d : directory T) : option (file T) :=
  match d with
  | [] => None
  | (n, g) :: d => if String.eqb n name then Some g else get_file name d
  end.
(** State of the directory after writes, in order. *)
Definition apply_writes {T} (w : list (string * file T)) (d : directory T) : directory T := fold_left (fun d x => set_file (fst x) (snd x) d) w d.
(** mpytools' Catalog.read of several files of a type, rows of all processes. *)
Fixpoint read_files {T} (fits : bool) (d : directory T) (names : list string) : result (list T) :=
  match names with
  | [] => Ok []
  | n :: names =>
    do rows <- match get_file n d, fits with Some (Fits rows), true => Ok rows | Some (Big rows), false => Ok rows | _, _ => Err ExternalError end;
    do rest <- read_files fits d names;
    Ok (rows ++ rest)
  end.

(** Lines 63-87, one turn of the loop: what is written, in order, and whether the turn ends well. [listing]: order in which names are listed; [share n]:
    rows of each of n files (mpytools). Names of files are those inside the directory: os.path.basename of a listed path is the name. *)
Definition save_directory {T} (listing : list string -> list string) (share : nat -> list T -> list (list T)) (nfiles : nat) (hpdir : directory T) : list (string * file T) * result unit :=
  let fns := listing (filter (fun n => visible n && ends_with "fits" n) (map fst hpdir)) in
  match fns with
  | [] => ([], Err IndexError)
  | first :: _ =>
    match read_files true hpdir fns with
    | Err e => ([], Err e)
    | Ok targets =>
      let basename := base_of first in
      let fns_to_save := map (fun i => basename ++ "-" ++ str (Z.of_nat i) ++ ".fits")%string (seq 0 nfiles) in
      (combine fns_to_save (map Fits (share nfiles targets)) ++ [(basename, Big targets)], Ok tt)
    end
  end.
(** Lines 51-87 [_write_all_skytargets]: [sky] and [skysupp] are the directories of the survey, the second one when it exists. [comm]: a communicator is given
    (the default is None). *)
Definition write_all_skytargets {T} (comm : bool) (listing : list string -> list string) (share : nat -> list T -> list (list T)) (sky : directory T) (skysupp : option (directory T)) (nfiles : nat) :
    list (string * file T) * result unit :=
  if comm then
    match save_directory listing share nfiles sky with
    | (w, Err e) => (w, Err e)
    | (w, Ok tt) =>
      match skysupp with
      | None => (w, Ok tt)
      | Some dir => let (w', r) := save_directory listing share nfiles dir in (w ++ w', r)
      end
    end
  else ([], Err AttributeError).
(** Lines 90-139 [read_sky_targets]: [none] is what reading no file at all gives; [in_tiles] is desimodel's is_point_in_desi, row by row. An unknown type of
    files is reported only, and the names of files are not set. *)
Definition read_sky_targets {T} (comm : bool) (listing : list string -> list string) (none : result (list T)) (in_tiles : T -> bool) (dirname filetype : string) (d : directory T) : result (list T) :=
  if comm then
    do fns <- (if String.eqb filetype "fits" then Ok (listing (filter (fun n => visible n && ends_with ".fits" n) (map fst d)))
               else if String.eqb filetype "bigfile" then
                 Ok (filter (fun n => Nat.eqb (List.length (split_on "." (path_join dirname n))) 1) (listing (filter visible (map fst d))))
               else Err NameError);
    do rows <- match fns with [] => none | _ => read_files (String.eqb filetype "fits") d fns end;
    Ok (filter in_tiles rows)
  else Err AttributeError.
