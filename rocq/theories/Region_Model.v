(** Model of the regions of desi/from_box_to_desi_cutsky.py. Definitions only. *)
Require Import Reals ZArith String List Bool.
From Verif Require Import Base Box_Model Foot_Model.
Import ListNotations.
Open Scope R_scope.

Definition one_of (s : string) (l : list string) : bool := existsb (String.eqb s) l.
(** from_box_to_desi_cutsky.py:201-212 [photometric_region_center]. The exception of the last branch (line 211) is built but not raised, so that line 212 raises
    UnboundLocalError, a NameError. *)
Definition photometric_region_center (region : string) : result (R * R) :=
  if String.eqb region "N" then Ok (192.3, 56)
  else if one_of region ["N+DN"; "N+SNGC"]%string then Ok (192, 35)
  else if one_of region ["DN"; "SNGC"]%string then Ok (192, 13)
  else if one_of region ["DS"; "SSGC"]%string then Ok (6.4, 5.3)
  else Err NameError.
(** regressis: pixel of a position and pixels of a footprint, if the package is installed. *)
Record regressis : Type := Regressis { hpx : R * R -> nat; dr9 : string -> nat -> bool }.
(** from_box_to_desi_cutsky.py:252, [convert_dict]. *)
Definition convert_dict : list (string * string) :=
  [("N", "north"); ("DN", "south_mid_ngc"); ("N+SNGC", "ngc"); ("SNGC", "south_mid_ngc"); ("DS", "south_mid_sgc"); ("SSGC", "south_mid_sgc"); ("DES", "des")]%string.
Fixpoint convert (region : string) (d : list (string * string)) : result string :=
  match d with [] => Err KeyError | (k, v) :: d => if String.eqb region k then Ok v else convert region d end.
(** from_box_to_desi_cutsky.py:229-242, the cuts on one row. *)
Definition region_cut (region : string) (ra dec : R) : bool :=
  let dec_cut := 32.375 in
  let mask := if String.eqb region "N" then Rltb dec_cut dec else Rltb dec dec_cut in
  if one_of region ["DN"; "DS"; "SNGC"; "SSGC"]%string then
    let mask_ra := Rltb (100 - dec) ra && Rltb ra (280 + dec) in
    if one_of region ["DN"; "SNGC"]%string then mask && mask_ra else mask && Rltb (-25) dec && negb mask_ra
  else mask.
(** from_box_to_desi_cutsky.py:215-253 [is_in_photometric_region]: the pixels (None for NaN) and the mask. *)
Definition is_in_photometric_region (installed : option regressis) (pos : list (R * R)) (region : string) : result (list (option nat) * list bool) :=
  let region := upper region in
  if one_of region ["N"; "DN"; "DS"; "N+SNGC"; "SNGC"; "SSGC"; "DES"]%string then
    match installed with
    | None =>
      if String.eqb region "DES" then Err ValueError
      else Ok (map (fun _ => None) pos, map (fun p => region_cut region (fst p) (snd p)) pos)
    | Some r =>
      let pixels := map (hpx r) pos in
      do name <- convert region convert_dict;
      Ok (map Some pixels, map (dr9 r name) pixels)
    end
  else Err AssertionError.
