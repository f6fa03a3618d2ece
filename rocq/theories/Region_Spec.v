(** Photometric regions: what they are meant to be. Independent of the model, but for the type of answers. *)
Require Import Reals String List Bool.
From Verif Require Import Base Region_Model.
Import ListNotations.
Open Scope R_scope.

(** The northern survey (BASS/MzLS) is above a declination, the southern one (DECaLS) below. The south is split in its part in the
    northern galactic cap and in the southern one by two lines. *)
Definition north (p : R * R) : Prop := 32.375 < snd p.
Definition south (p : R * R) : Prop := snd p < 32.375.
Definition ngc_side (p : R * R) : Prop := 100 - snd p < fst p < 280 + snd p.
Inductive region : Type := North | SouthNGC | SouthSGC | NorthAndSouthNGC | DES.
(** Names of regions, in capitals. *)
Inductive named : string -> region -> Prop :=
  | n_n : named "N" North
  | n_dn : named "DN" SouthNGC
  | n_sngc : named "SNGC" SouthNGC
  | n_ds : named "DS" SouthSGC
  | n_ssgc : named "SSGC" SouthSGC
  | n_ngc : named "N+SNGC" NorthAndSouthNGC
  | n_ndn : named "N+DN" NorthAndSouthNGC
  | n_des : named "DES" DES.
(** Points of the regions given by cuts on the sky. *)
Definition belongs (r : region) (p : R * R) : Prop :=
  match r with
  | North => north p
  | SouthNGC => south p /\ ngc_side p
  | SouthSGC => south p /\ -25 < snd p /\ ~ ngc_side p
  | NorthAndSouthNGC => north p \/ (south p /\ ngc_side p)
  | DES => False
  end.
(** A mask tells for each point whether it has the property. *)
Definition tells {A} (pos : list A) (mask : list bool) (prop : A -> Prop) : Prop := Forall2 (fun p b => b = true <-> prop p) pos mask.
(** Names of the regions in the DR9 footprint of regressis. *)
Inductive dr9_name : region -> string -> Prop :=
  | d_n : dr9_name North "north"
  | d_dn : dr9_name SouthNGC "south_mid_ngc"
  | d_ds : dr9_name SouthSGC "south_mid_sgc"
  | d_ngc : dr9_name NorthAndSouthNGC "ngc"
  | d_des : dr9_name DES "des".
