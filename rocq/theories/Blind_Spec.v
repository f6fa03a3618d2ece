(** What blinding is for. *)
Require Import Reals ZArith List Bool String Permutation.
From Verif Require Import Base Vec3 Mock_Model Isometry_Model Isometry_Spec Sky_Model Blind_Model.
Import ListNotations.
Open Scope R_scope.

(** Numbers drawn by a generator. *)
Definition in_unit (u : nat -> R) : Prop := forall i, 0 <= u i < 1.
(** Names of density parameters, that change with redshift. *)
Definition density_name (name : string) : bool := (String.prefix "omega" name || String.prefix "Omega" name)%bool.
(** Contract of cosmoprimo's clone: it sets the parameters given (f and fnl are not parameters of cosmoprimo). *)
Definition clone_sets (clone : cosmology -> list (string * R) -> cosmology) (fid : cosmology) (names : list string) : Prop :=
  forall upd name v, In name names -> name <> "f"%string -> name <> "fnl"%string -> assoc name upd = Some v -> get_from_cosmo (clone fid upd) name None = Ok v.
(** It keeps a parameter that is not given, when it is independent of the ones that are. *)
Definition clone_keeps (clone : cosmology -> list (string * R) -> cosmology) (fid : cosmology) (name : string) : Prop :=
  forall upd, assoc name upd = None -> get_from_cosmo (clone fid upd) name None = get_from_cosmo fid name None.
(** What the name of a parameter stands for, at a redshift when there is one: [Omega_x] is a density parameter, [omega_x] the same times
    [h^2], [f] the growth rate, i.e. the ratio of [fsigma8] and [sigma8] (unless it has been set), [fnl] is zero (unless it has been set). *)
Definition density (c : cosmology) (suffix : string) (z : option R) (o : R) : Prop :=
  match z with None => c_omega0 c suffix = Ok o | Some z => exists g, c_omega c suffix = Ok g /\ o = g z end.
Definition amplitude (c : cosmology) (name : string) (at_z : R -> R) (z : option R) (s : R) : Prop :=
  assoc name (c_derived c) = Some s \/ assoc name (c_derived c) = None /\ exists z0, z = Some z0 /\ s = at_z z0.
Inductive parameter (c : cosmology) (z : option R) : string -> R -> Prop :=
  | Reduced : forall suffix o, density c suffix z o -> parameter c z ("omega" ++ suffix)%string (o * (c_h c * c_h c))
  | Density : forall suffix o, density c suffix z o -> parameter c z ("Omega" ++ suffix)%string o
  | Recorded : forall name v, density_name name = false -> assoc name (c_derived c) = Some v -> parameter c z name v
  | Sigma8 : forall s, amplitude c "sigma8" (c_sigma8 c) z s -> parameter c z "sigma8" s
  | Fsigma8 : forall s, amplitude c "fsigma8" (c_fsigma8 c) z s -> parameter c z "fsigma8" s
  | Growth : forall s fs, assoc "f" (c_derived c) = None -> amplitude c "sigma8" (c_sigma8 c) z s -> amplitude c "fsigma8" (c_fsigma8 c) z fs -> s <> 0 -> parameter c z "f" (fs / s)
  | NonGaussian : assoc "fnl" (c_derived c) = None -> parameter c z "fnl" 0
  | Attribute : forall name v, density_name name = false -> ~ In name ["sigma8"; "fsigma8"; "f"; "fnl"]%string -> assoc name (c_derived c) = None -> c_attr c name = Ok v -> parameter c z name v.
(** The values of named parameters, for a redshift when there is one. *)
Definition values (c : cosmology) (names : list string) : list (result R) := map (fun n => get_from_cosmo c n None) names.

(** Catalogs in the formats of the package: an array of shape (N, 3); one of shape (3, N), as three arrays; three arrays of right
    ascension, declination and distance or redshift. *)
Definition as_pos (d : ftype) (l : list vec) : parray := Rows d 3 (map (fun p => [vx p; vy p; vz p]) l).
Definition as_xyz (d : ftype) (l : list vec) : parray := Rows d (List.length l) [map vx l; map vy l; map vz l].
Definition as_sky (d : ftype) (l : list (R * R * R)) : parray :=
  Cols [(d, map (fun s => fst (fst s)) l); (d, map (fun s => snd (fst s)) l); (d, map (fun s => snd s) l)].
(** A point of the sky (right ascension, declination, distance or redshift), away from the poles. *)
Definition on_sky (s : R * R * R) : Prop := let '(ra, dec, r) := s in 0 <= ra < 360 /\ -90 < dec < 90 /\ 0 < r.
(** The same rank in two catalogs. *)
Definition each {A B} (rel : A -> B -> Prop) (a : list A) (b : list B) : Prop := Forall2 rel a b.
(** [z] is the redshift at the distance [d]. *)
Definition inverse_at (d2z : R -> result R) (distance : R -> R) (z : R) : Prop := d2z (distance z) = Ok z.
(** The growth rate that is used as the blinded one. *)
Definition growth_rate (c : cosmology) (z : option R) (f : R) : Prop := get_from_cosmo c "f" z = Ok f.
(** Contract of the reading of meshes at positions: one value per position, proportional to the mesh. *)
Definition linear_readout {M} (readout : (M -> R) -> list vec -> list R) : Prop :=
  (forall f pos, List.length (readout f pos) = List.length pos) /\
  (forall t f g pos, (forall x, g x = t * f x) -> readout g pos = map (Rmult t) (readout f pos)).
(** A catalog of [n] objects given as [position_type]: an array with one row of 3 coordinates per object, or 3 arrays with one item per object. *)
Definition shaped (position_type : string) (n : nat) (p : parray) : Prop :=
  if String.eqb position_type "pos" then exists d rows, p = Rows d 3 rows /\ List.length rows = n /\ Forall (fun r => List.length r = 3%nat) rows
  else exists d1 d2 d3 c1 c2 c3, as_columns p = [(d1, c1); (d2, c2); (d3, c3)] /\ List.length c1 = n /\ List.length c2 = n /\ List.length c3 = n.
(** A field, given by its Fourier modes, with wavenumbers of norm [kappa] only. *)
Definition only_scale (freq : nat -> nat -> BinNums.Z) (box : vec) (n : idx) (kappa : R) (delta : idx -> cplx) : Prop :=
  forall k, In k (cells n) -> sqrt (vdot (wave freq box n k) (wave freq box n k)) = kappa \/ delta k = Cx 0 0.
(** The reconstruction uses the growth rate [f]: the fiducial one when it is run by the code; and gives one shift per object. *)
Definition uses_growth (fid : cosmology) (z : option R) (recon : recon_arg) (f : R) : Prop :=
  match recon with
  | ByName run => growth_rate fid z f /\ forall pos, r_f (run f pos) = f /\ List.length (r_shifts (run f pos) pos) = List.length pos
  | Instance r => r_f r = f /\ forall pos, List.length (r_shifts r pos) = List.length pos
  end.
