(** Model of mockfactory/utils.py: angles, sky coordinates, areas, projections, truncated Cauchy law.
    Definitions only. *)
Require Import Reals ZArith List Bool.
From Verif Require Import Base Vec3 Isometry_Model.
Import ListNotations.
Open Scope R_scope.

(** np.arctan2(y, x), written out from arctan (signed zeros not modelled). *)
Definition arctan2 (y x : R) : R :=
  if Rlt_dec 0 x then atan (y / x)
  else if Rlt_dec x 0 then
    (if Rlt_dec y 0 then atan (y / x) - PI else atan (y / x) + PI)
  else if Rlt_dec 0 y then PI / 2
  else if Rlt_dec y 0 then - (PI / 2) else 0.

(** The factor [conversion], utils.py:35, 69, 98. *)
Definition conversion (degree : bool) : R := if degree then PI / 180 else 1.

(** utils.py:19-39 [wrap_angle]. *)
Definition wrap_angle (degree : bool) (angle : R) : R :=
  let angle := angle * conversion degree in
  let angle := Rmod angle (2 * PI) in
  angle / conversion degree.

(** utils.py:42-70 [cartesian_to_sky], on one row. numpy gives NaN at the origin; modelled as an error. *)
Definition cartesian_to_sky (degree : bool) (p : vec) : result (R * R * R) :=
  let dist := distance p in
  let ra := arctan2 (vy p) (vx p) in
  let ra := wrap_angle false ra in
  if Req_EM_T dist 0 then Err ZeroDivision else
  let dec := asin (vz p / dist) in
  Ok (dist, ra / conversion degree, dec / conversion degree).

(** A number as numpy sees it: its dtype matters in [sky_to_cartesian]. *)
Inductive num : Type := NInt (z : Z) | NFloat (r : R).
Definition num_val (n : num) : R := match n with NInt z => IZR z | NFloat r => r end.
Inductive dtype : Type := DInt | DFloat.

(** np.result_type of three arrays. *)
Definition num_dtype (n : num) : dtype := match n with NInt _ => DInt | NFloat _ => DFloat end.
Definition result_type3 (a b c : num) : dtype :=
  match num_dtype a, num_dtype b, num_dtype c with DInt, DInt, DInt => DInt | _, _, _ => DFloat end.

(** Storing a float in an array of given dtype: integer arrays truncate towards zero. *)
Definition store_as (d : dtype) (x : R) : R := match d with DFloat => x | DInt => IZR (Rtrunc x) end.

(** utils.py:73-109 [sky_to_cartesian], on one row; [dt] is the argument dtype (None by default). *)
Definition sky_to_cartesian (degree : bool) (dt : option dtype) (dist ra dec : num) : vec :=
  let conv := conversion degree in
  let d := match dt with Some d => d | None => result_type3 dist ra dec end in
  let cos_dec := cos (num_val dec * conv) in
  let p := V (store_as d (cos_dec * cos (num_val ra * conv)))
             (store_as d (cos_dec * sin (num_val ra * conv)))
             (store_as d (sin (num_val dec * conv))) in
  vscale (num_val dist) p.

(** utils.py:112-134 [radecbox_area], for scalar limits. np.rad2deg(x) = x * 180 / pi, np.deg2rad(x) = x * pi / 180. *)
Definition rad2deg (x : R) : R := x * 180 / PI.
Definition deg2rad (x : R) : R := x * PI / 180.
Definition radecbox_area (rarange decrange : R * R) : R :=
  let decfrac := rad2deg (sin (deg2rad (snd decrange))) - rad2deg (sin (deg2rad (fst decrange))) in
  let rafrac := snd rarange - fst rarange in
  decfrac * rafrac.

(** utils.py:162-166 [vector_projection] on one vector and one direction. *)
Definition vector_projection1 (v d : vec) : result vec :=
  let n := sqrt (vx d ^ 2 + vy d ^ 2 + vz d ^ 2) in
  if Req_EM_T n 0 then Err ZeroDivision else
  let d := V (vx d / n) (vy d / n) (vz d / n) in
  let projection := vx v * vx d + vy v * vy d + vz v * vz d in
  Ok (V (projection * vx d) (projection * vy d) (projection * vz d)).

Fixpoint map2_result {A B C} (f : A -> B -> result C) (la : list A) (lb : list B) : result (list C) :=
  match la, lb with
  | a :: la, b :: lb => do c <- f a b; do l <- map2_result f la lb; Ok (c :: l)
  | [], [] => Ok []
  | _, _ => Err ValueError
  end.

(** utils.py:137-166 [vector_projection] on an (N, 3) array; [direction] has one row (then used for all) or N rows.
    numpy broadcasting: otherwise a shape error. *)
Definition vector_projection (vs ds : list vec) : result (list vec) :=
  match ds with
  | [d] => map2_result vector_projection1 vs (repeat d (length vs))
  | _ => match vs with
         | [v] => map2_result vector_projection1 (repeat v (length ds)) ds
         | _ => map2_result vector_projection1 vs ds
         end
  end.

(** scipy.stats.cauchy(loc=0, scale=1). *)
Definition cauchy_pdf (x : R) : R := 1 / (PI * (1 + x ^ 2)).
Definition cauchy_cdf (x : R) : R := 1 / 2 + atan x / PI.
Definition cauchy_ppf (q : R) : R := tan (PI * q - PI / 2).

(** utils.py:216-233 [trunccauchy_gen._pdf, _cdf, _ppf] (standardised variables). *)
Definition tc_pdf (x a b : R) : R := cauchy_pdf x / (cauchy_cdf b - cauchy_cdf a).
Definition tc_cdf (x a b : R) : R := (cauchy_cdf x - cauchy_cdf a) / (cauchy_cdf b - cauchy_cdf a).
Definition tc_ppf (q a b : R) : R := cauchy_ppf (q * (cauchy_cdf b - cauchy_cdf a) + cauchy_cdf a).

(** scipy's public methods rv.pdf / rv.cdf / rv.ppf around the private ones: arguments are parsed by
    [_rescaling_parser] (utils.py:169-177), checked by [_argcheck] (utils.py:210-211), standardised, and the values outside the support
    ([_get_support], utils.py:213-214) are filled in by scipy. Invalid parameters give NaN: an error here. *)
Definition tc_args_ok (a b loc scale : R) : bool :=
  Rltb 0 scale && Rltb ((a - loc) / scale) ((b - loc) / scale).
Definition trunccauchy_cdf (a b loc scale x : R) : result R :=
  let a' := (a - loc) / scale in let b' := (b - loc) / scale in let x' := (x - loc) / scale in
  if negb (tc_args_ok a b loc scale) then Err ValueError
  else if Rle_dec x' a' then Ok 0 else if Rle_dec b' x' then Ok 1 else Ok (tc_cdf x' a' b').
Definition trunccauchy_pdf (a b loc scale x : R) : result R :=
  let a' := (a - loc) / scale in let b' := (b - loc) / scale in let x' := (x - loc) / scale in
  if negb (tc_args_ok a b loc scale) then Err ValueError
  else if Rltb x' a' || Rltb b' x' then Ok 0 else Ok (tc_pdf x' a' b' / scale).
Definition trunccauchy_ppf (a b loc scale q : R) : result R :=
  let a' := (a - loc) / scale in let b' := (b - loc) / scale in
  if negb (tc_args_ok a b loc scale) then Err ValueError
  else if Rltb q 0 || Rltb 1 q then Err ValueError
  else if Reqb q 0 then Ok (a' * scale + loc) else if Reqb q 1 then Ok (b' * scale + loc)
  else Ok (tc_ppf q a' b' * scale + loc).
