(** Model of mockfactory/desi/redshift_smearing.py (lines 14-107), on top of the model of RVS2DRedshiftSmearing (Smear_Model). *)
Require Import Reals ZArith List Bool String.
From Verif Require Import Base Cutsky_Model Box_Model Mask_Model Sample_Model Smear_Model.
Import ListNotations.
Open Scope R_scope.

(** A row of a table: columns mean_z and val_fit, the latter with five numbers. *)
Record row : Type := Row { r_z : R; r_fit : R * R * R * R * R }.

(** redshift_smearing.py:22-33: default names of files; [dirname] is the directory data of the package. An unknown uncertainty_type
    leaves fn = None for quasars, and line 33 iterates over None. *)
Definition name_of (tracer suffix : string) : string := (tracer ++ "_redshift_smearing_" ++ suffix ++ ".ecsv")%string.
Definition default_files (tracer uncertainty : string) : result (list string) :=
  if String.eqb tracer "QSO" then
    if String.eqb uncertainty "statistical" then Ok (map (name_of tracer) ["sv1"; "sv3"]%string)
    else if String.eqb uncertainty "clustering" then Ok [name_of tracer "clustering"]
    else Err TypeError
  else if String.eqb uncertainty "clustering" then Err ValueError
  else Ok [name_of tracer "sv1"].

(** Table.sort('mean_z'). *)
Fixpoint insert_row (r : row) (l : list row) : list row :=
  match l with
  | [] => [r]
  | s :: l => if Rleb (r_z r) (r_z s) then r :: s :: l else s :: insert_row r l
  end.
Definition sort_rows (l : list row) : list row := fold_right insert_row [] l.

(** redshift_smearing.py:37-45: tables in turn; line 43 looks at the first row of the new table. Without any file the table has no
    column mean_z, line 48. *)
Definition stack (table new : list row) : result (list row) :=
  let new := sort_rows new in
  match table with
  | [] => Ok new
  | _ => match new with
         | [] => Err IndexError
         | first :: _ => Ok (filter (fun r => Rltb (r_z r) (r_z first)) table ++ new)
         end
  end.
Fixpoint merge_from (table : list row) (files : list (list row)) : result (list row) :=
  match files with
  | [] => Ok table
  | new :: files => do table <- stack table new; merge_from table files
  end.
Definition merge (files : list (list row)) : result (list row) := match files with [] => Err KeyError | _ => merge_from [] files end.

(** Constructors of distributions: scipy.stats.laplace(loc, scale), scipy.stats.norm(loc, scale), utils.trunccauchy and
    utils.truncnorm (a, b, loc, scale). *)
Record laws : Type := Laws { law_laplace : R -> R -> rv; law_norm : R -> R -> rv; law_cauchy : R -> R -> R -> R -> rv; law_truncnorm : R -> R -> R -> R -> rv }.

(** redshift_smearing.py:49-73, one row: non-Gaussian and Gaussian distributions, weight la. When no branch is taken la is not
    defined, line 73. *)
Definition truncated (w : laws) (trunc : R) (r : row) : rv * rv * R :=
  let '(sigma, x0, p, mu, la) := r_fit r in
  (law_cauchy w (- trunc) trunc mu (p / 2), law_truncnorm w (- trunc) trunc x0 sigma, la).
Definition row_laws (w : laws) (tracer uncertainty : string) (r : row) : result (rv * rv * R) :=
  if String.eqb tracer "QSO" then
    if String.eqb uncertainty "statistical" then
      let '(_, x0, s0, sg, la) := r_fit r in
      Ok (law_laplace w x0 (s0 / sqrt 2), law_norm w x0 (sg / sqrt 2), la)
    else if String.eqb uncertainty "clustering" then Ok (truncated w 2000 r)
    else Err NameError
  else if String.eqb tracer "LRG" then Ok (truncated w 400 r)
  else if String.eqb tracer "ELG" || String.eqb tracer "BGS" then Ok (truncated w 150 r)
  else Err NameError.

(** redshift_smearing.py:76-81 [dztransform]. scipy.constants.c is 299792458 (m / s). A redshift of -1 would divide by zero: the
    model, as everywhere in Coq, takes the inverse of zero to be zero; theorems are about redshifts above -1. *)
Definition light_speed : R := 299792458.
Definition dztransform (tracer uncertainty : string) (z : R) (dz : ext) : ext :=
  if String.eqb tracer "QSO" && String.eqb uncertainty "statistical" then scale_ext (/ (light_speed / 1000) / (1 + z)) dz
  else scale_ext (/ (light_speed / 1000) * (1 + z)) dz.

(** redshift_smearing.py:14-83 [TracerRedshiftSmearingRVS]. [read] is Table.read; default files are in the data directory of the package, and
    so are given by their names. [fn]: None, or the names (a single name is made a list). *)
Definition tracer_rvs (read : string -> result (list row)) (w : laws) (tracer : string) (fn : option (list string)) (uncertainty : string) :
  result (list R * (list rv * list rv) * (list R * list R) * (R -> ext -> ext)) :=
  do fn <- match fn with None => default_files tracer uncertainty | Some fn => Ok fn end;
  do files <- map_result read fn;
  do table <- merge files;
  do fits <- map_result (row_laws w tracer uncertainty) table;
  let laz := map snd fits in
  Ok (map r_z table, (map (fun f => fst (fst f)) fits, map (fun f => snd (fst f)) fits), (laz, map (fun la => 1 - la) laz), dztransform tracer uncertainty).

(** redshift_smearing.py:92-103: scale of the tabulated velocities. *)
Definition dzscale (tracer uncertainty : string) : result R :=
  if String.eqb tracer "QSO" then
    if String.eqb uncertainty "statistical" then Ok 5000
    else if String.eqb uncertainty "clustering" then Ok 2000
    else Err NameError
  else if String.eqb tracer "ELG" || String.eqb tracer "BGS" then Ok 150
  else if String.eqb tracer "LRG" then Ok 400
  else Err ValueError.

(** make_survey.py:2026: np.allclose(dzranges, dzranges[0]). *)
Definition same_ranges (rvs : list rv) : bool :=
  match rvs with
  | [] => true
  | r0 :: _ => forallb (fun r => close_ext (rv_low r) (rv_low r0) && close_ext (rv_high r) (rv_high r0)) rvs
  end.

(** redshift_smearing.py:105, dzsize. *)
Definition dzsize : nat := Z.to_nat 10000.

(** redshift_smearing.py:86-105 [TracerRedshiftSmearing]. *)
Definition tracer_smearing (spline3 : list R -> list R -> result (R -> R)) (read : string -> result (list row)) (w : laws) (tracer : string)
  (fn : option (list string)) (uncertainty : string) : result smear :=
  do t <- tracer_rvs read w tracer fn uncertainty;
  let '(z, (rvs1, rvs2), (w1, w2), transform) := t in
  do s <- dzscale tracer uncertainty;
  do m1 <- rvs_smear spline3 z rvs1 dzsize (ByScale s) (same_ranges rvs1) transform;
  do m2 <- rvs_smear spline3 z rvs2 dzsize (ByScale s) (same_ranges rvs2) transform;
  average spline3 [m1; m2] (Some [w1; w2]).
