(** Averages over seeds: what random fields and random numbers of objects should be on average. *)
Require Import Reals ZArith List Bool.
From Verif Require Import Base Vec3 Rsd_Model Mock_Model Mock_Spec Mesh_Model.
Import ListNotations.
Open Scope R_scope.

(** The average over seeds, of whatever law: it is linear, and the average of 1 is 1. *)
Definition expectation {S : Type} (E : (S -> R) -> R) : Prop :=
  E (fun _ => 1) = 1 /\ (forall f g, E (fun s => f s + g s) = E f + E g) /\ (forall a f, E (fun s => a * f s) = a * E f) /\
  (forall f g, (forall s, f s = g s) -> E f = E g).
(** Product of a complex number and the conjugate of another. *)
Definition cross (a b : cplx) : cplx := Cx (re a * re b + im a * im b) (im a * re b - re a * im b).

Definition idx_dec (a b : idx) : {a = b} + {a <> b}.
Proof. repeat decide equality. Defined.
Definition same (a b : idx) : R := if idx_dec a b then 1 else 0.

(** Contract of pmesh's white noise: modes of mean zero and variance one, different modes uncorrelated, the transform of a real field. *)
Definition white {S : Type} (E : (S -> R) -> R) (n : idx) (noise : S -> idx -> cplx) : Prop :=
  (forall s, hermitian n (noise s)) /\
  (forall k, within n k -> E (fun s => re (noise s k)) = 0 /\ E (fun s => im (noise s k)) = 0) /\
  (forall k k', within n k -> within n k' -> E (fun s => re (cross (noise s k) (noise s k'))) = same k k' /\ E (fun s => im (cross (noise s k) (noise s k'))) = 0).
(** The same for its real white noise: cells of mean zero and variance one, uncorrelated. *)
Definition white_cells {S : Type} (E : (S -> R) -> R) (n : idx) (noise : S -> idx -> R) : Prop :=
  (forall x, within n x -> E (fun s => noise s x) = 0) /\ (forall x y, within n x -> within n y -> E (fun s => noise s x * noise s y) = same x y).
(** Contract of numpy's Poisson generator for a list of means: mean and variance of each number are the mean asked for, and different
    numbers are uncorrelated. *)
Definition poisson_law {S : Type} (E : (S -> R) -> R) (poisson : S -> list R -> list nat) (means : list R) : Prop :=
  (forall s l, length (poisson s l) = length l) /\
  (forall i, (i < length means)%nat -> E (fun s => INR (nth i (poisson s means) 0%nat)) = nth i means 0) /\
  (forall i j, (i < length means)%nat -> (j < length means)%nat ->
     E (fun s => INR (nth i (poisson s means) 0%nat) * INR (nth j (poisson s means) 0%nat)) = nth i means 0 * nth j means 0 + (if Nat.eq_dec i j then nth i means 0 else 0)).

Definition volume (box : vec) : R := vx box * vy box * vz box.
(** The power spectrum asked for at a wave vector, as a function of its length and of the cosine of its angle with the line of sight;
    none at zero. *)
Definition asked (power : R -> option R -> R) (los : option vec) (w : vec) : R :=
  if Req_EM_T (vdot w w) 0 then 0 else power (sqrt (vdot w w)) (match los with Some l => Some (vdot w l / sqrt (vdot w w)) | None => None end).
(** Opposite modes are asked the same power. *)
Definition even_power (freq : nat -> nat -> BinNums.Z) (box : vec) (n : idx) (power : R -> option R -> R) (los : option vec) : Prop :=
  forall k, within n k -> asked power los (wave freq box n (opposite n k)) = asked power los (wave freq box n k).
(** A mode whose opposite is another mode of the mesh, or itself when zero: not on a face of the cube of modes. *)
Definition resolved_mode (freq : nat -> nat -> BinNums.Z) (n k : idx) : Prop :=
  resolved n (freq (ix n) (ix k), freq (iy n) (iy k), freq (iz n) (iz k)).
(** Number of objects of a catalog in a cell; the lower faces of a cell belong to it, the upper ones do not. *)
Definition in_range (low width x : R) : bool := (Rleb low x && Rltb x (low + width))%bool.
Definition in_cell (box center : vec) (n x : idx) (p : vec) : bool :=
  let low := node box center n x in let c := diagonal box n in
  (in_range (vx low) (vx c) (vx p) && (in_range (vy low) (vy c) (vy p) && in_range (vz low) (vz c) (vz p)))%bool.
Definition number_in (box center : vec) (n x : idx) (catalog : list vec) : R := INR (length (filter (in_cell box center n x) catalog)).
(** A bias that is a number, 1 when not given. *)
Definition bias_is (bias : option bias_arg) (b : R) : Prop := (bias = None /\ b = 1) \/ bias = Some (BNum b).
(** Value of a density given as a number or on a mesh, and the mean of its inverse over the box. *)
Definition value (b : field) (x : idx) : R := match b with Number a => a | Mesh g => g x end.
Definition mean_inverse (n : idx) (b : field) : R := Rsum (map (fun x => / value b x) (cells n)) / size n.
(** Volume of a cell, and mean over the cells of the box. *)
Definition cell_volume (box : vec) (n : idx) : R := volume box / size n.
Definition box_mean (n : idx) (f : idx -> R) : R := Rsum (map f (cells n)) / size n.
