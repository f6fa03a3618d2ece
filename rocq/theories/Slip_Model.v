(** make_survey.py:706-748 [BoxCatalog.translate], [recenter] and [rotate] in floating-point numbers: [rnd] rounds the result of every
    operation. Box_Model.v has the version with real numbers. Overflow, infinities, NaN and signed zeros are left out. Definitions only. *)
Require Import Reals ZArith String List Bool.
From Verif Require Import Base Vec3 Isometry_Model Box_Model Round_Model Drift_Model.
Import ListNotations.
Open Scope R_scope.

Section Rounded.
(** As in Drift_Model.v: rounding, the sums of products inside numpy's dot and tensordot, numpy's cos and sin. *)
Variable rnd : R -> R.
Variable dot3 : vec -> vec -> R.
Variables fcos fsin : R -> R.

(** isometry.transform(column, ...), make_survey.py:93-112; needs 3-vectors. *)
Definition fl_transform_col (s : iso) (ti : bool) (c : col) : result col :=
  match c with ColV l => Ok (ColV (map (fl_transform rnd dot3 s ti) l)) | ColS _ => Err ValueError end.
(** The loop of make_survey.py:722-723, 747-748 over the property [vectors] (make_survey.py:581-584). *)
Definition fl_transform_vectors (s : iso) (c : pcat) : result pcat :=
  do d <- map_cols (fun n x => if mem n (pc_vectors c) then fl_transform_col s (mem n (pc_invariants c)) x else Ok x) (pc_data c);
  Ok (PCat d (pc_position c) (pc_velocity c) (pc_vectors c) (pc_invariants c)).

(** make_survey.py:706-723 [translate]. *)
Definition fl_translate (c : boxcat) (shift : shift_arg) (axis : axis_arg) : result boxcat :=
  do operation <- iso_ok (fl_iso_translation rnd dot3 iso_new shift axis "origin");
  let center := fl_transform rnd dot3 operation false (boxcenter c) in
  do cat <- fl_transform_vectors operation (bc_cat c);
  Ok (BoxCat cat (boxsize c) center).

(** make_survey.py:725-727 [recenter]; the opposite of a number is exact. *)
Definition fl_recenter (c : boxcat) : result boxcat := fl_translate c (ShVec (vopp (boxcenter c))) AxNone.

(** make_survey.py:742, angle_over_halfpi * np.pi / 2.; the integer is turned into a float first. *)
Definition fl_quarter_angle (angle_over_halfpi : Z) : R := rnd (rnd (rnd (IZR angle_over_halfpi) * fl_pi rnd) / 2).
(** make_survey.py:729-748 [rotate]; absolute values are exact. *)
Definition fl_rotate (c : boxcat) (angle_over_halfpi : Z) (axis : axis_arg) : result boxcat :=
  do operation <- iso_ok (fl_iso_rotation rnd dot3 fcos fsin iso_new (fl_quarter_angle angle_over_halfpi) axis false "origin");
  let center := fl_transform rnd dot3 operation false (boxcenter c) in
  let size := vabs (fl_transform rnd dot3 operation true (boxsize c)) in
  do cat <- fl_transform_vectors operation (bc_cat c);
  Ok (BoxCat cat size center).
End Rounded.
