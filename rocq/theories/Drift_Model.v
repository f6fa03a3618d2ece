(** Floating-point version of the rotation matrices and of EuclideanIsometry, mockfactory/make_survey.py:40-248 (the version with real
    numbers is Isometry_Model.v). Overflow, infinities and NaN are left out. Definitions only. *)
Require Import Reals ZArith List Bool String.
From Verif Require Import Base Vec3 Isometry_Model Round_Model.
Import ListNotations.
Open Scope R_scope.

Section Rounded.
(** [rnd] rounds the exact result of every operation. [dot3] is the sum of three products inside numpy's dot and tensordot: the
    library may take them in any order and round some steps only. [fcos] and [fsin] are numpy's cos and sin. *)
Variable rnd : R -> R.
Variable dot3 : vec -> vec -> R.
Variables fcos fsin : R -> R.

(** Products from left to right, one of the orders [dot3] stands for. *)
Definition dot3_left (a b : vec) : R := rnd (rnd (rnd (vx a * vx b) + rnd (vy a * vy b)) + rnd (vz a * vz b)).

(** Matrix times vector, matrix times matrix, sum of vectors. *)
Definition fl_apply (m : mat) (v : vec) : vec := V (dot3 (row0 m) v) (dot3 (row1 m) v) (dot3 (row2 m) v).
Definition fl_mul (a b : mat) : mat :=
  M (V (dot3 (row0 a) (col0 b)) (dot3 (row0 a) (col1 b)) (dot3 (row0 a) (col2 b)))
    (V (dot3 (row1 a) (col0 b)) (dot3 (row1 a) (col1 b)) (dot3 (row1 a) (col2 b)))
    (V (dot3 (row2 a) (col0 b)) (dot3 (row2 a) (col1 b)) (dot3 (row2 a) (col2 b))).
Definition fl_vadd (a b : vec) : vec := V (rnd (vx a + vx b)) (rnd (vy a + vy b)) (rnd (vz a + vz b)).

(** make_survey.py:68: in-place division by the norm (utils.py:14-16). *)
Definition fl_normalize (v : vec) : result vec :=
  let d := fl_distance rnd v in
  if Req_EM_T d 0 then Err ZeroDivision else Ok (V (rnd (vx v / d)) (rnd (vy v / d)) (rnd (vz v / d))).
(** make_survey.py:59-69 [_get_los]. *)
Definition fl_get_los (los : axis_arg) : result vec :=
  let one_hot (i : Z) := do n <- np_index3 i; fl_normalize (vset vzero n 1) in
  match los with
  | AxStr s => do i <- xyz_index s; one_hot i
  | AxIdx i => one_hot i
  | AxNone => fl_normalize (V 1 1 1)
  | AxVec v => fl_normalize v
  end.
(** make_survey.py:40-49 [rotation_matrix_from_vector_angle]: one entry p + cos * (eye - p) + sin * q. *)
Definition fl_entry (c s vi vj eye q : R) : R :=
  let p := rnd (vi * vj) in rnd (rnd (p + rnd (c * rnd (eye - p))) + rnd (s * q)).
Definition fl_rotation_matrix (axis : axis_arg) (angle : R) : result mat :=
  do v <- fl_get_los axis;
  let angle := rnd (rnd (angle * fl_pi rnd) / 180) in
  if Req_EM_T angle 0 then Ok mid
  else let c := fcos angle in
       let s := fsin angle in
       Ok (M (V (fl_entry c s (vx v) (vx v) 1 0) (fl_entry c s (vx v) (vy v) 0 (- vz v)) (fl_entry c s (vx v) (vz v) 0 (vy v)))
             (V (fl_entry c s (vy v) (vx v) 0 (vz v)) (fl_entry c s (vy v) (vy v) 1 0) (fl_entry c s (vy v) (vz v) 0 (- vx v)))
             (V (fl_entry c s (vz v) (vx v) 0 (- vy v)) (fl_entry c s (vz v) (vy v) 0 (vx v)) (fl_entry c s (vz v) (vz v) 1 0))).

(** make_survey.py:93-112 [transform], on one row. *)
Definition fl_transform (s : iso) (ti : bool) (v : vec) : vec :=
  let r := fl_apply (rot s) v in
  if ti then r else fl_vadd r (tra s).
(** make_survey.py:115-134 [dot]: state after the call, also when it raises. *)
Definition fl_iso_dot (s : iso) (matrix : mat) (frame : string) : iso * result unit :=
  let s1 := Iso (fl_mul matrix (rot s)) (tra s) in
  if String.eqb frame "origin" then (Iso (rot s1) (fl_apply matrix (tra s1)), Ok tt)
  else if String.eqb frame "current" then (s1, Ok tt)
  else (s1, Err IsometryError).
(** make_survey.py:136-159 [rotation]. *)
Definition fl_iso_rotation (s : iso) (angle : R) (axis : axis_arg) (degree : bool) (frame : string) : iso * result unit :=
  let angle := if degree then angle else rnd (rnd (angle * 180) / fl_pi rnd) in
  match fl_get_los axis with
  | Err e => (s, Err e)
  | Ok v =>
    match fl_rotation_matrix (AxVec v) angle with
    | Err e => (s, Err e)
    | Ok m => fl_iso_dot s m "origin"
    end
  end.
(** make_survey.py:161-193 [translation]. *)
Definition fl_iso_translation (s : iso) (shift : shift_arg) (axis : axis_arg) (frame : string) : iso * result unit :=
  match shift_vector shift axis with
  | Err e => (s, Err e)
  | Ok v =>
    if String.eqb frame "current" then (Iso (rot s) (fl_vadd (tra s) (fl_apply (rot s) v)), Ok tt)
    else if String.eqb frame "origin" then (Iso (rot s) (fl_vadd (tra s) v), Ok tt)
    else (s, Err IsometryError)
  end.
(** make_survey.py:195-210 [reset_rotation]. *)
Definition fl_iso_reset_rotation (s : iso) (frame : string) : iso * result unit :=
  if String.eqb frame "origin" then (Iso mid (fl_apply (mtrans (rot s)) (tra s)), Ok tt)
  else if String.eqb frame "current" then (Iso mid (tra s), Ok tt)
  else (s, Err IsometryError).
(** make_survey.py:217-228 [concatenate], and 246-248 [__add__]. *)
Definition fl_iso_concat_step (new other : iso) : iso :=
  Iso (fl_mul (rot other) (rot new)) (fl_vadd (fl_apply (rot other) (tra new)) (tra other)).
Definition fl_iso_concatenate (others : list iso) : iso := fold_left fl_iso_concat_step others iso_new.
Definition fl_iso_add (a b : iso) : iso := fl_iso_concatenate [a; b].
End Rounded.
