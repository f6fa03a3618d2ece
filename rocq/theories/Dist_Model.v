(** Model of DistanceToRedshift (make_survey.py:386-420). *)
Require Import Reals ZArith List Bool.
From Verif Require Import Base Mask_Model Sample_Model Smear_Model.
Import ListNotations.
Open Scope R_scope.

(** np.logspace(a, b, n): powers of 10 of np.linspace(a, b, n). *)
Definition logspace (a b : R) (n : nat) : list R := map (Rpower 10) (linspace a b n).
(** np.log10. *)
Definition log10 (x : R) : R := ln x / ln 10.

(** The object: redshifts and distances of the table, interpolator. *)
Record d2z : Type := D2Z { d_zgrid : list R; d_rgrid : list R; d_interp : R -> result R }.

(** scipy UnivariateSpline(x, y, k, s=0, ext='raise'): [spline k x y] is the spline itself (or the error for arguments scipy refuses);
    calls outside of the table are a ValueError. *)
Definition raising_spline (spline : nat -> list R -> list R -> result (R -> R)) (k : nat) (x y : list R) : result (R -> result R) :=
  do f <- spline k x y;
  Ok (fun t => if Rltb t (hd 0 x) || Rltb (last x 0) t then Err ValueError else Ok (f t)).

(** make_survey.py:390-415 [__init__]. [distance] is the callable, applied to each redshift. For zmax <= 0 the logarithm is not a
    number, and the spline refuses a table that does not increase: a ValueError. A negative nz is a ValueError of np.logspace; here nz is a
    natural number. *)
Definition distance_to_redshift (spline : nat -> list R -> list R -> result (R -> R)) (distance : R -> R) (zmax : R) (nz order : nat) : result d2z :=
  if Rltb 0 zmax then
    let zgrid := 0 :: logspace (-8) (log10 zmax) nz in
    let rgrid := map distance zgrid in
    do interp <- raising_spline spline order rgrid zgrid;
    Ok (D2Z zgrid rgrid interp)
  else Err ValueError.

(** make_survey.py:417-419 [__call__], on one distance. *)
Definition d2z_call (o : d2z) (distance : R) : result R := d_interp o distance.
