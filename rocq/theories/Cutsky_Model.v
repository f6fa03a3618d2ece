(** Model of box_to_cutsky and cutsky_to_box (mockfactory/make_survey.py:251-383). Definitions only. *)
Require Import Reals ZArith List Bool String.
From Verif Require Import Base Vec3 Isometry_Model Sky_Model.
Import ListNotations.
Open Scope R_scope.

(** np.arcsin, np.arccos: NaN outside [-1, 1], modelled as an error. *)
Definition np_arcsin (x : R) : result R := if Rle_dec (Rabs x) 1 then Ok (asin x) else Err ZeroDivision.
Definition np_arccos (x : R) : result R := if Rle_dec (Rabs x) 1 then Ok (acos x) else Err ZeroDivision.
(** Float division. *)
Definition fdiv (x y : R) : result R := if Req_EM_T y 0 then Err ZeroDivision else Ok (x / y).

(** make_survey.py:290-309: the observer is inside the box; [b1] is the larger of the transverse sides. *)
Definition btc_inside (b1 b2 dx dmax : R) : result (R * R * R) :=
  do q1 <- fdiv (b1 / 2) dmax;
  do q2 <- fdiv (b2 / 2) dmax;
  if Rlt_dec q1 1 then
    do d0 <- np_arcsin q1; do d1 <- np_arcsin q2; Ok (0, d0, d1)
  else
    do q <- fdiv (Rabs dx) dmax;
    do d0 <- (if Rlt_dec q 1 then do a <- np_arcsin q; Ok (a + PI / 2) else Ok PI);
    do d1 <- (if Rlt_dec q2 1 then np_arcsin q2 else Ok (PI / 2));
    Ok (0, d0, d1).

(** make_survey.py:311-327: the observer is outside the box. *)
Definition btc_outside (b1 b2 dx dmax dmin : R) : result (R * R * R) :=
  do r <- (if Rlt_dec (sqrt (dx ^ 2 + (b1 / 2) ^ 2)) dmax then
             do q <- fdiv (b1 / 2) dmax;
             do a <- np_arcsin q;
             do m <- fdiv dx (cos a);
             Ok (m, a)
           else if Rlt_dec dmin dx then Err ValueError
           else do q <- fdiv dx dmin; do a <- np_arccos q; Ok (dmin, a));
  let (dmin, d0) := r in
  do q <- fdiv (b2 / 2) dmax;
  do theta_dmax <- np_arcsin q;
  do q <- fdiv dx dmin;
  do theta_dmin <- np_arccos q;
  Ok (dmin, d0, Rmin theta_dmax theta_dmin).

(** make_survey.py:251-336 [box_to_cutsky]. [boxsize] is the 3-vector of line 279. Returns (drange, rarange, decrange). *)
Definition box_to_cutsky (boxsize : vec) (dmax dmin : R) : result ((R * R) * (R * R) * (R * R)) :=
  let dx := dmax - vx boxsize in
  let flip_yz := Rltb (vy boxsize) (vz boxsize) in
  let b1 := if flip_yz then vz boxsize else vy boxsize in
  let b2 := if flip_yz then vy boxsize else vz boxsize in
  do r <- (if Rle_dec dx 0 then btc_inside b1 b2 dx dmax else btc_outside b1 b2 dx dmax dmin);
  let '(dmin, d0, d1) := r in
  let (e0, e1) := if flip_yz then (d1, d0) else (d0, d1) in
  Ok ((dmin, dmax), (- rad2deg e0, rad2deg e0), (- rad2deg e1, rad2deg e1)).

(** make_survey.py:368-370: RA range with its lower edge below its upper edge. *)
Definition ctb_rarange (rarange : R * R) : R * R :=
  let lo := wrap_angle true (fst rarange) in
  let hi := wrap_angle true (snd rarange) in
  (if Rlt_dec hi lo then lo - 360 else lo, hi).

(** make_survey.py:371-376 of [cutsky_to_box]: the box size. *)
Definition ctb_boxsize (drange rarange decrange : R * R) : vec :=
  let rarange := ctb_rarange rarange in
  let deltara := Rabs (snd rarange - fst rarange) / 2 * PI / 180 in
  let deltadec := Rabs (snd decrange - fst decrange) / 2 * PI / 180 in
  V (snd drange - fst drange * Rmin (cos deltara) (cos deltadec))
    (2 * snd drange * sin deltara) (2 * snd drange * sin deltadec).

(** Chain of isometry method calls; each raises or goes on. *)
Definition iso_then (r : iso * result unit) (k : iso -> iso * result unit) : iso * result unit :=
  match r with (s, Ok _) => k s | (s, Err e) => (s, Err e) end.

(** make_survey.py:339-383 [cutsky_to_box] with return_isometry=True; the first component is what is returned otherwise. *)
Definition cutsky_to_box (drange rarange decrange : R * R) : result (vec * iso) :=
  let boxsize := ctb_boxsize drange rarange decrange in
  let rarange := ctb_rarange rarange in
  match iso_then (iso_then (iso_translation iso_new (ShScalar (snd drange - vx boxsize / 2)) (AxStr "x") "origin")
                           (fun s => iso_rotation s (- (fst decrange + snd decrange) / 2) (AxStr "y") true "origin"))
                 (fun s => iso_rotation s ((fst rarange + snd rarange) / 2) (AxStr "z") true "origin") with
  | (s, Ok _) => Ok (boxsize, s)
  | (_, Err e) => Err e
  end.
