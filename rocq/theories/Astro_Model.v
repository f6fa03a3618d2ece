(** utils.py:42-109 [cartesian_to_sky] and [sky_to_cartesian] in floating-point numbers: [rnd] rounds the result of every operation.
    Sky_Model.v has the version with real numbers. Overflow, infinities, signed zeros and integer arguments are left out. Definitions only. *)
Require Import Reals List Bool.
From Verif Require Import Base Vec3 Round_Model.
Open Scope R_scope.

Section Rounded.
Variable rnd : R -> R.
(** numpy's cos, sin, arcsin and arctan2. *)
Variables fcos fsin farcsin : R -> R.
Variable farctan2 : R -> R -> R.

(** utils.py:69, 98: np.pi / 180. or 1. *)
Definition fl_conversion (degree : bool) : R := if degree then rnd (fl_pi rnd / 180) else 1.

(** utils.py:42-70 [cartesian_to_sky], on one row. Where numpy gives NaN (no distance, or a sine above one) the model returns an error. *)
Definition fl_cartesian_to_sky (degree : bool) (p : vec) : result (R * R * R) :=
  let dist := fl_distance rnd p in
  let ra := farctan2 (vy p) (vx p) in
  let ra := fl_wrap_angle rnd false ra in
  match fl_sine rnd p with
  | None => Err ZeroDivision
  | Some s =>
    if Rle_dec (Rabs s) 1 then
      let dec := farcsin s in
      Ok (dist, rnd (ra / fl_conversion degree), rnd (dec / fl_conversion degree))
    else Err ValueError
  end.

(** utils.py:73-109 [sky_to_cartesian], on one row of floats. *)
Definition fl_sky_to_cartesian (degree : bool) (dist ra dec : R) : vec :=
  let conversion := fl_conversion degree in
  let cos_dec := fcos (rnd (dec * conversion)) in
  let x := rnd (cos_dec * fcos (rnd (ra * conversion))) in
  let y := rnd (cos_dec * fsin (rnd (ra * conversion))) in
  let z := fsin (rnd (dec * conversion)) in
  V (rnd (dist * x)) (rnd (dist * y)) (rnd (dist * z)).
End Rounded.
