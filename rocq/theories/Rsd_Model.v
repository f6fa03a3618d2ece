(** Model of redshift space distortions of a catalog, mockfactory/make_survey.py:612-640. *)
Require Import Reals ZArith List Bool String.
From Verif Require Import Base Vec3 Isometry_Model Sky_Model Cutsky_Model Box_Model.
Import ListNotations.
Open Scope R_scope.

(** Argument [f] of rsd_position: a float or a callable of the distance. *)
Inductive factor : Type := FNum (f : R) | FFun (f : R -> R).

(** make_survey.py:631, one row: position / distance, NaN at the observer (modelled as an error). *)
Definition local_los (p : vec) : result vec :=
  let d := distance p in
  if Req_EM_T d 0 then Err ZeroDivision else Ok (V (vx p / d) (vy p / d) (vz p / d)).

(** In-place product of an (N, 3) array by an (N,) array (make_survey.py:637): numpy aligns the (N,) array with the
    last axis, so it must have one entry or three; the (N, 3) array cannot be enlarged in place. *)
Definition scale_inplace (rsd : list vec) (a : list R) : result (list vec) :=
  match a with
  | [x] => Ok (map (vscale x) rsd)
  | [x; y; z] => Ok (map (vmul (V x y z)) rsd)
  | _ => Err ValueError
  end.

(** make_survey.py:616-640 [rsd_position]; [los] = None is the local line of sight. *)
Definition rsd_position (c : pcat) (f : factor) (los : option axis_arg) : result (list vec) :=
  do pos <- position c;
  do los <- match los with
            | None => map_result local_los pos
            | Some a => do v <- get_los a; Ok [v]
            end;
  do vel <- velocity c;
  do rsd <- vector_projection vel los;
  do rsd <- match f with
            | FFun f => scale_inplace rsd (map f (map distance pos))
            | FNum f => Ok (map (vscale f) rsd)
            end;
  map2_result (fun p r => Ok (vadd p r)) pos rsd.
