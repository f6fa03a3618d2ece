(** What the blinding procedure is for. *)
Require Import Reals ZArith String List Bool.
From Verif Require Import Base Vec3 Isometry_Model Isometry_Spec Sky_Model Mock_Model Blind_Model Blind_Spec Proc_Model.
Import ListNotations.
Open Scope R_scope.

(** The cosmology that an argument stands for: an instance stands for itself, a name for the fiducial cosmology of that name, with
    other parameters when they are given, parameters for the cosmology that has them. *)
Inductive means (cp : cosmoprimo) : cosmo_arg -> cosmology -> Prop :=
  | MeansItself : forall c, means cp (CInstance c) c
  | MeansName : forall name make c, cp_fiducial cp name = Some make -> make [] = Ok c -> means cp (CName name) c
  | MeansTuple : forall name params make c, cp_fiducial cp name = Some make -> make params = Ok c -> means cp (CTuple name params) c
  | MeansParams : forall params c, cp_cosmology cp params = Ok c -> means cp (CDict params) c.
(** A cosmology in which no growth rate was stored, like those of cosmoprimo. *)
Definition plain (c : cosmology) : Prop := assoc "f" (c_derived c) = None /\ assoc "fsigma8" (c_derived c) = None.
(** Contract of cosmoprimo's clone: given the values that the cosmology has (today), it gives the same distances. *)
Definition clone_same (clone : cosmology -> list (string * R) -> cosmology) (fid : cosmology) : Prop :=
  forall upd, (forall name v, In (name, v) upd -> get_from_cosmo fid name None = Ok v) -> forall z, c_distance (clone fid upd) z = c_distance fid z.
(** Names that do not depend on redshift, or that are meant at the redshift of the catalog. *)
Definition steady (name : string) : Prop := density_name name = false /\ name <> "sigma8"%string /\ name <> "fsigma8"%string.
(** Contract of the reconstructions: they use the growth rate given, give one shift per object, and their meshes are read linearly. *)
Definition sound (rc : reconstructions) : Prop := forall bias f dpos dw rpos rw,
  r_f (rc_rsd rc bias f dpos dw rpos rw) = f /\ List.length (r_shifts (rc_rsd rc bias f dpos dw rpos rw) dpos) = List.length dpos /\
  linear_readout (pg_readout (rc_png rc bias f dpos dw rpos rw)) /\ pg_bias (rc_png rc bias f dpos dw rpos rw) = bias.
(** The point of the unit sphere at right ascension and declination in degrees. *)
Definition direction (s : R * R * R) : vec := let '(ra, dec, _) := s in
  V (cos (dec * PI / 180) * cos (ra * PI / 180)) (cos (dec * PI / 180) * sin (ra * PI / 180)) (sin (dec * PI / 180)).
(** Positions in a cosmology of objects with redshifts. *)
Definition place (c : cosmology) (l : list (R * R * R)) : list vec := map (fun s => vscale (c_distance c (snd s)) (direction s)) l.
(** The shifts of the objects are along the line of sight, of amplitude [k]. *)
Definition along_sight (l : list (R * R * R)) (k : R * R * R -> R) (shifts : list vec) : Prop := shifts = map (fun s => vscale (k s) (direction s)) l.
(** Weights of a catalog of [n] objects: one per object when they are given. *)
Definition weights_fit (w : option (list R)) (n : nat) : Prop := match w with Some w => List.length w = n | None => True end.
