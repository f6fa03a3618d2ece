(** Model of RandomBoxCatalog (make_survey.py:1092-1136) and RandomCutskyCatalog (1139-1197). The random numbers are arguments, and
    so is the way mpytools.core.local_size splits a number of objects over processes. *)
Require Import Reals ZArith List Bool.
From Verif Require Import Base Vec3 Sky_Model Mask_Model Sample_Model.
Import ListNotations.
Open Scope R_scope.

(** make_survey.py:1129-1130 and 1179-1180: [measure] is the volume of the box, or the area on the sky. int() truncates; None * float
    is a TypeError. *)
Definition collective_size (csize : option Z) (nbar : option R) (measure : R) : result Z :=
  match csize, nbar with
  | Some n, _ => Ok n
  | None, Some nbar => Ok (Rtrunc (nbar * measure + 0.5))
  | None, None => Err TypeError
  end.

(** make_survey.py:1129-1136: positions of all processes. [rng n] is the stream of mpytools' MPIRandomState for n objects in total,
    numbers in [0, 1) for the three axes. A negative size is an error of numpy. *)
Definition box_position (boxsize boxcenter t : vec) : vec :=
  let u := V (uniform (-0.5) 0.5 (vx t)) (uniform (-0.5) 0.5 (vy t)) (uniform (-0.5) 0.5 (vz t)) in
  vadd (V (vx boxsize * vx u) (vy boxsize * vy u) (vz boxsize * vz u)) boxcenter.
Definition random_box (rng : nat -> list vec) (boxsize boxcenter : vec) (csize : option Z) (nbar : option R) : result (list vec) :=
  do n <- collective_size csize nbar (vx boxsize * vy boxsize * vz boxsize);
  if (n <? 0)%Z then Err ValueError else Ok (map (box_position boxsize boxcenter) (rng (Z.to_nat n))).

(** One object of the catalog: columns RA, DEC, Distance and Position. *)
Record object : Type := Object { o_ra : R; o_dec : R; o_dist : R; o_pos : vec }.

(** make_survey.py:1188-1189: sampling from UniformAngularMask (nbar = 1). [draws k r]: what process [r] draws in round [k]: the two
    numbers of the candidate and the one of the mask. *)
Definition sample_angles (draws : nat -> nat -> list (R * R * R)) (fuel : nat) (rarange decrange : R * R) (sizes : list nat) : result (list (list (R * R))) :=
  sample (fun a => uniform_angular_prob 1 (Some rarange) (Some decrange) (fst a) (snd a))
    (fun k r => map (fun '(t, v, u) => (angular_candidate (angular_rarange (Some rarange)) (angular_decrange (Some decrange)) t v, u)) (draws k r)) fuel sizes.
(** make_survey.py:1190-1194: sampling from UniformRadialMask with distance = identity. [inverse] is the spline of
    DistanceToRedshift(identity, zmax = drange[1] + 0.1). *)
Definition sample_distances (inverse : R -> R) (draws : nat -> nat -> list (R * R)) (fuel : nat) (drange : R * R) (sizes : list nat) : result (list (list R)) :=
  sample (uniform_radial_prob 1 (fst drange, Some (snd drange)))
    (fun k r => map (fun '(t, u) => (inverse (radial_candidate (fun z => z) (fst drange) (snd drange) t), u)) (draws k r)) fuel sizes.

(** make_survey.py:1177-1197, catalogs of all processes. [split n] are the local sizes for n objects. With a negative size the loops
    of sample do not run, and the concatenation of no arrays is an error. *)
Definition random_cutsky (split : nat -> list nat) (inverse : R -> R) (adraws : nat -> nat -> list (R * R * R)) (ddraws : nat -> nat -> list (R * R))
    (fuel : nat) (rarange decrange : R * R) (drange : option (R * R)) (csize : option Z) (nbar : option R) : result (list (list object)) :=
  let area := radecbox_area rarange decrange in
  do n <- collective_size csize nbar area;
  if (n <? 0)%Z then Err ValueError else
  let sizes := split (Z.to_nat n) in
  do angles <- sample_angles adraws fuel rarange decrange sizes;
  do dist <- match drange with
             | None => Ok (map (map (fun _ => 1)) angles)
             | Some drange => sample_distances inverse ddraws fuel drange sizes
             end;
  Ok (zip_with (zip_with (fun a d => Object (fst a) (snd a) d (sky_to_cartesian true None (NFloat d) (NFloat (fst a)) (NFloat (snd a))))) angles dist).
