(** Words used for the archive of sky targets (C90). *)
Require Import String Ascii List Bool Permutation.
From Verif Require Import Base Arch_Model.
Import ListNotations.
Open Scope string_scope.
Open Scope list_scope.

(** Name of a file that a listing of files ending in [suffix] gives. *)
Definition named (suffix name : string) : Prop := (forall s, name <> String "." s) /\ exists p, name = (p ++ suffix)%string.
Definition dotless (s : string) : Prop := ~ In "."%char (list_ascii_of_string s).
Definition rows {T} (f : file T) : list T := match f with Fits l => l | Big l => l end.
Definition lists (listing : list string -> list string) : Prop := forall l, Permutation (listing l) l.
(** Rows are shared between the files asked for, in order. *)
Definition shares {T} (share : nat -> list T -> list (list T)) : Prop := forall n l, (1 <= n)%nat -> List.length (share n l) = n /\ concat (share n l) = l.
(** A catalog of the survey: at least one file; names made of [base], a dash, anything without a dash, a dash and anything without a dash. *)
Definition survey {T} (base : string) (dir : directory T) : Prop :=
  base <> "" /\ (forall s, base <> String "." s) /\ (forall p, base <> (p ++ ".fits")%string) /\ NoDup (map fst dir) /\ (exists x, In x dir /\ named "fits" (fst x)) /\
  forall x, In x dir -> named "fits" (fst x) -> (exists l, snd x = Fits l) /\ exists a b, ~ In "-"%char (list_ascii_of_string a) /\ ~ In "-"%char (list_ascii_of_string b) /\ fst x = (base ++ "-" ++ a ++ "-" ++ b)%string.
(** [all] are the rows, in some order, of the files of [dir] that satisfy [P]. *)
Definition holds {T} (P : string -> Prop) (dir : directory T) (all : list T) : Prop := exists l, NoDup (map fst l) /\ (forall x, In x l <-> In x dir /\ P (fst x)) /\ Permutation all (flat_map (fun x => rows (snd x)) l).
(** Rows of the survey. *)
Definition survey_rows {T} (sky : directory T) (skysupp : option (directory T)) (all : list T) : Prop :=
  exists a b, holds (named "fits") sky a /\ match skysupp with None => b = [] | Some dir => holds (named "fits") dir b end /\ all = a ++ b.
(** The two catalogs of the survey. *)
Definition catalogs {T} (b1 b2 : string) (sky : directory T) (skysupp : option (directory T)) : Prop :=
  survey b1 sky /\ match skysupp with None => True | Some dir => survey b2 dir /\ b1 <> b2 end.
(** Directories left by runs, complete or interrupted at any point, with at most [most] files; the order of listings may change from run to run. *)
Inductive left_by {T} (share : nat -> list T -> list (list T)) (sky : directory T) (skysupp : option (directory T)) (most : nat) : directory T -> Prop :=
  | left_nothing : left_by share sky skysupp most []
  | left_run : forall d listing n k w r, left_by share sky skysupp most d -> lists listing -> (1 <= n <= most)%nat -> write_all_skytargets true listing share sky skysupp n = (w, r) ->
      left_by share sky skysupp most (apply_writes (firstn k w) d).
