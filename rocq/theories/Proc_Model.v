(** Model of blinding/catalog.py: the ways to give a cosmology, the constructor of CutskyCatalogBlinding, and the procedure of its documentation. *)
Require Import Reals ZArith String List Bool.
From Verif Require Import Base Vec3 Isometry_Model Sky_Model Cutsky_Model Box_Model Rsd_Model Mock_Model Blind_Model.
Import ListNotations.
Open Scope R_scope.

(** Argument cosmo of get_cosmo. Parameters are real numbers. *)
Inductive cosmo_arg : Type :=
  | CNone | CInstance (c : cosmology) | CName (name : string) | CTuple (name : string) (params : list (string * R)) | CDict (params : list (string * R)).
(** What is used of cosmoprimo: the functions of cosmoprimo.fiducial by name, and the constructor Cosmology. *)
Record cosmoprimo : Type := Cosmoprimo {
  cp_fiducial : string -> option (list (string * R) -> result cosmology); cp_cosmology : list (string * R) -> result cosmology }.
(** catalog.py:12-26 [get_cosmo]. *)
Definition get_cosmo (cp : cosmoprimo) (a : cosmo_arg) : result (option cosmology) :=
  match a with
  | CNone => Ok None
  | CInstance c => Ok (Some c)
  | _ =>
    let a := match a with CName name => CTuple name [] | a => a end in
    match a with
    | CTuple name params =>
      match cp_fiducial cp name with
      | Some make => do c <- make params; Ok (Some c)
      | None => Err AttributeError
      end
    | CDict params => do c <- cp_cosmology cp params; Ok (Some c)
    | _ => Err TypeError
    end
  end.
(** An attribute of None. *)
Definition given (c : option cosmology) : result cosmology := match c with Some c => Ok c | None => Err AttributeError end.
(** catalog.py:59-97 [get_cosmo_blind], with any of the ways to give the fiducial cosmology (line 86). *)
Definition get_cosmo_blind_of (cp : cosmoprimo) (clone : cosmology -> list (string * R) -> cosmology) (a : cosmo_arg) (u : nat -> R) (params : option (list (string * R))) (z : option R) : result cosmology :=
  do fid <- get_cosmo cp a;
  do fid <- given fid;
  get_cosmo_blind clone fid u params z.

(** catalog.py:275-319 [CutskyCatalogBlinding.__init__]: what is kept. *)
Record blinding : Type := Blinding { b_fid : option cosmology; b_blind : option cosmology; b_bias : R; b_z : option R; b_type : string; b_dtype : option ftype }.
Definition blinding_new (cp : cosmoprimo) (fid blind : cosmo_arg) (bias : R) (z : option R) (position_type : string) (dtype : option ftype) : result blinding :=
  do fid <- get_cosmo cp fid;
  do blind <- get_cosmo cp blind;
  Ok (Blinding fid blind bias z position_type dtype).

(** What the reconstructions give: [rc_png] is the one of png, up to line 548, with everything that is read of it; [rc_rsd] is the one of rsd. Their
    arguments are the bias, the growth rate, and the positions and weights of data and randoms. *)
Record reconstructions : Type := Reconstructions {
  rc_png : R -> R -> list vec -> option (list R) -> list vec -> option (list R) -> png_input;
  rc_rsd : R -> R -> list vec -> option (list R) -> list vec -> option (list R) -> reconstruction }.
(** catalog.py:460-635 [png], with its default arguments: reconstruction run by the code, weights of randoms, no shot-noise correction. *)
Definition png_call (b : blinding) (rc : reconstructions) (data : parray) (data_weights : option (list R)) (randoms : parray) (randoms_weights : option (list R)) : result (list R) :=
  do fid <- given (b_fid b);
  do blind <- given (b_blind b);
  do dpos <- format_positions (b_type b) (b_dtype b) (c_distance fid) data;
  do rpos <- format_positions (b_type b) (b_dtype b) (c_distance fid) randoms;
  do f <- get_from_cosmo fid "f" (b_z b);
  png_weights false (rc_png rc (b_bias b) f dpos data_weights rpos randoms_weights) fid blind (b_z b) true false rpos randoms_weights.
(** catalog.py:403-458 [rsd], with the reconstruction run by the code: randoms are formatted before it is run (line 447). Which of several errors comes
    first is left out. *)
Definition rsd_call (b : blinding) (rc : reconstructions) (d2z : (R -> R) -> R -> result R) (data : parray) (data_weights : option (list R)) (randoms : parray) (randoms_weights : option (list R)) : result parray :=
  do fid <- given (b_fid b);
  do blind <- given (b_blind b);
  do rpos <- format_positions (b_type b) (b_dtype b) (c_distance fid) randoms;
  rsd fid blind (b_z b) d2z (b_type b) (b_dtype b) (ByName (fun f pos => rc_rsd rc (b_bias b) f pos data_weights rpos randoms_weights)) data.
(** catalog.py:321-352 [ap]. *)
Definition ap_call (b : blinding) (d2z : (R -> R) -> R -> result R) (positions : parray) : result parray :=
  do fid <- given (b_fid b);
  do blind <- given (b_blind b);
  ap fid blind d2z (b_type b) (b_dtype b) positions.
(** catalog.py:254-270: the procedure of the documentation; [z_blind] is the redshift given to get_cosmo_blind: none there. Data positions and
    weights, randoms positions and weights are returned. *)
Definition procedure (cp : cosmoprimo) (clone : cosmology -> list (string * R) -> cosmology) (rc : reconstructions) (d2z : (R -> R) -> R -> result R) (fid : cosmo_arg) (u : nat -> R) (params : option (list (string * R))) (z_blind : option R)
    (bias z : R) (position_type : string) (dtype : option ftype) (data : parray) (data_weights : option (list R)) (randoms : parray) (randoms_weights : option (list R)) : result (parray * option (list R) * (parray * list R)) :=
  do blind <- get_cosmo_blind_of cp clone fid u params z_blind;
  do b <- blinding_new cp fid (CInstance blind) bias (Some z) position_type dtype;
  do png_weights <- png_call b rc data data_weights randoms randoms_weights;
  do data <- rsd_call b rc d2z data data_weights randoms randoms_weights;
  do data <- ap_call b d2z data;
  do randoms <- ap_call b d2z randoms;
  Ok (data, data_weights, (randoms, png_weights)).
