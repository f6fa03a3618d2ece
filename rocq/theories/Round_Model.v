(** Floating-point versions of the functions whose guarantees hang on rounding: [rnd] rounds the exact result of every operation. Overflow, infinities and NaN are left out.
    The other model files compute with real numbers. Definitions only. *)
Require Import Reals ZArith List Bool.
From Verif Require Import Base Vec3.
Import ListNotations.
Open Scope R_scope.

Section Rounded.
Variable rnd : R -> R.
(** numpy's float remainder, used by utils.py:38, lagrangian_mock.py:125 and remap.py:319: C's fmod, which is exact and has the sign of [a]; [b] is added when signs differ. *)
Definition fl_mod (a b : R) : R :=
  let m := a - b * IZR (Rtrunc (a / b)) in
  if Req_EM_T m 0 then 0 else if xorb (Rltb b 0) (Rltb m 0) then rnd (m + b) else m.
(** np.pi, and 2. * np.pi. *)
Definition fl_pi : R := rnd PI.
Definition fl_turn : R := rnd (2 * fl_pi).
(** utils.py:19-39 [wrap_angle]. *)
Definition fl_wrap_angle (degree : bool) (angle : R) : R :=
  let conversion := if degree then rnd (fl_pi / 180) else 1 in
  rnd (fl_mod (rnd (angle * conversion)) fl_turn / conversion).
(** utils.py:14-16 [distance]: squares, sums from left to right, square root. *)
Definition fl_distance (p : vec) : R := rnd (sqrt (rnd (rnd (rnd (vx p * vx p) + rnd (vy p * vy p)) + rnd (vz p * vz p)))).
(** utils.py:68 [cartesian_to_sky], the argument of arcsin; None for a division by zero (inf or NaN in numpy). *)
Definition fl_sine (p : vec) : option R := if Req_EM_T (fl_distance p) 0 then None else Some (rnd (vz p / fl_distance p)).
(** make_survey.py:1136 [RandomBoxCatalog], along one axis; [u] is the random number. *)
Definition fl_random_position (boxsize boxcenter u : R) : R := rnd (rnd (boxsize * u) + boxcenter).
(** lagrangian_mock.py:124-125, along one axis. *)
Definition fl_offset (boxsize boxcenter : R) : R := rnd (boxcenter - rnd (boxsize / 2)).
Definition fl_periodic (boxsize boxcenter x : R) : R :=
  let offset := fl_offset boxsize boxcenter in
  rnd (fl_mod (rnd (x - offset)) boxsize + offset).
(** remap.py:319 [Cuboid.inverse_transform], along one axis. *)
Definition fl_unit (boxsize x : R) : R := rnd (fl_mod x 1 * boxsize).
End Rounded.
