(** make_survey.py:811-850 [BoxCatalog.subbox] in floating-point numbers: [rnd] rounds the result of every operation. Box_Model.v has the version with real numbers. Definitions only. *)
Require Import Reals ZArith String List Bool.
From Verif Require Import Base Vec3 Isometry_Model Box_Model.
Import ListNotations.
Open Scope R_scope.

Section Rounded.
Variable rnd : R -> R.
(** make_survey.py:837-838, self.boxcenter -/+ self.boxsize / 2., along one axis. *)
Definition fl_low (size center : R) : R := rnd (center - rnd (size / 2)).
Definition fl_high (size center : R) : R := rnd (center + rnd (size / 2)).
(** make_survey.py:841-842, [self.boxsize[ii] * bb + offset[ii] for bb in brange]; [r] as given without boxsize_unit. *)
Definition fl_limit (boxsize_unit : bool) (size center bb : R) : R := if boxsize_unit then rnd (rnd (size * bb) + fl_low size center) else bb.
Definition fl_range (boxsize_unit : bool) (size center : R) (r : R * R) : R * R := (fl_limit boxsize_unit size center (fst r), fl_limit boxsize_unit size center (snd r)).
(** make_survey.py:843-844, box[0][ii] and box[1][ii]. *)
Definition fl_cut (size center : R) (r : R * R) : R * R := (Rmax (fl_low size center) (fst r), Rmin (fl_high size center) (snd r)).
(** make_survey.py:811-850 [subbox]. Comparisons of numbers are exact. *)
Definition fl_subbox (c : boxcat) (ranges : ranges_arg) (boxsize_unit : bool) : result boxcat :=
  do ranges <- match ranges with
               | ROne lo hi => Ok [(lo, hi); (lo, hi); (lo, hi)]
               | RList [] => Err IndexError
               | RList l => Ok l
               end;
  match ranges with
  | [r0; r1; r2] =>
    let s := boxsize c in let o := boxcenter c in
    let r0 := fl_range boxsize_unit (vx s) (vx o) r0 in
    let r1 := fl_range boxsize_unit (vy s) (vy o) r1 in
    let r2 := fl_range boxsize_unit (vz s) (vz o) r2 in
    let b0 := fl_cut (vx s) (vx o) r0 in
    let b1 := fl_cut (vy s) (vy o) r1 in
    let b2 := fl_cut (vz s) (vz o) r2 in
    do pos <- position (bc_cat c);
    let mask := map (fun p =>
      Rleb (fst r0) (vx p) && Rltb (vx p) (snd r0) &&
      (Rleb (fst r1) (vy p) && Rltb (vy p) (snd r1)) &&
      (Rleb (fst r2) (vz p) && Rltb (vz p) (snd r2))) pos in
    do cat <- select_rows mask (bc_cat c);
    let size b := rnd (snd b - fst b) in
    let center b := rnd (rnd (snd b + fst b) / 2) in
    Ok (BoxCat cat (V (size b0) (size b1) (size b2)) (V (center b0) (center b1) (center b2)))
  | _ => Err ValueError
  end.
End Rounded.
