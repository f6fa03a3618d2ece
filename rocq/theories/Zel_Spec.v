(** What catalogs of displaced objects should be on average, to first order in the density. *)
Require Import Reals ZArith List.
From Verif Require Import Base Vec3 Rsd_Model Mock_Model Mock_Spec Ens_Spec.
Import ListNotations.
Open Scope R_scope.

(** Averages of non-negative quantities are not negative. *)
Definition average {S : Type} (E : (S -> R) -> R) : Prop := expectation E /\ forall f, (forall s, 0 <= f s) -> 0 <= E f.
(** Plane wave exp(- i t), and Fourier mode of a catalog: sum of plane waves over its objects, counted from a corner. *)
Definition turn (t : R) : cplx := Cx (cos t) (- sin t).
Definition catalog_mode (w origin : vec) (catalog : list vec) : cplx :=
  Cx (Rsum (map (fun p => re (turn (vdot w (vsub p origin)))) catalog)) (Rsum (map (fun p => im (turn (vdot w (vsub p origin)))) catalog)).
(** Average of a complex number. *)
Definition cmean {S : Type} (E : (S -> R) -> R) (f : S -> cplx) : cplx := Cx (E (fun s => re (f s))) (E (fun s => im (f s))).
(** Every number of a stream has the same law, however many are drawn. *)
Definition same_law {T : Type} (E : (T -> R) -> R) (uniform : T -> nat -> list vec) : Prop :=
  forall m i (g : vec -> R), (i < m)%nat -> E (fun t => g (nth i (uniform t m) vzero)) = E (fun t => g (nth 0 (uniform t 1%nat) vzero)).
(** The mean of each of the numbers drawn is the one asked for. *)
Definition mean_numbers {S : Type} (E : (S -> R) -> R) (poisson : S -> list R -> list nat) (means : list R) : Prop :=
  forall i, (i < length means)%nat -> E (fun s => INR (nth i (poisson s means) 0%nat)) = nth i means 0.
(** Distance covered by [z] cells, and the cell [z] cells before another one, on a periodic mesh. *)
Definition step (box : vec) (n z : idx) : vec := V (INR (ix z) * (vx box / INR (ix n))) (INR (iy z) * (vy box / INR (iy n))) (INR (iz z) * (vz box / INR (iz n))).
Definition before (n x z : idx) : idx := I ((ix x + ix n - ix z) mod ix n) ((iy x + iy n - iy z) mod iy n) ((iz x + iz n - iz z) mod iz n).
(** Weights of an interpolation: for a position [u] in a cell, in units of the cell, that of the node [z] cells before the one of the cell. *)
Definition interpolation (n : idx) (weight : vec -> idx -> R) : Prop :=
  forall u, between (V 0 0 0) (V 1 1 1) u -> (forall z, within n z -> 0 <= weight u z) /\ Rsum (map (weight u) (cells n)) = 1.
(** Contract of pmesh's readout of a field. *)
Definition reads (box center : vec) (n : idx) (weight : vec -> idx -> R) (field : idx -> R) (readout : vec -> R) : Prop :=
  forall x u, within n x -> between (V 0 0 0) (V 1 1 1) u ->
    readout (vadd (node box center n x) (vmul u (diagonal box n))) = Rsum (map (fun z => weight u z * field (before n x z)) (cells n)).
(** Mean over positions in a cell of a plane wave, relative to the node of the cell, and relative to the nodes that an interpolation takes
    values from. *)
Definition position_window {T : Type} (E : (T -> R) -> R) (uniform : T -> nat -> list vec) (box : vec) (n : idx) (w : vec) : cplx :=
  cmean E (fun t => turn (vdot w (vmul (nth 0 (uniform t 1%nat) vzero) (diagonal box n)))).
Definition reading_window {T : Type} (E : (T -> R) -> R) (uniform : T -> nat -> list vec) (weight : vec -> idx -> R) (box : vec) (n : idx) (w : vec) : cplx :=
  cmean E (fun t => let u := nth 0 (uniform t 1%nat) vzero in
    Cx (Rsum (map (fun z => weight u z * re (turn (vdot w (vadd (vmul u (diagonal box n)) (step box n z))))) (cells n)))
       (Rsum (map (fun z => weight u z * im (turn (vdot w (vadd (vmul u (diagonal box n)) (step box n z))))) (cells n)))).
(** A quantity is zero for no amplitude, and linear in the amplitude up to a multiple of its square. *)
Definition first_order (limit : R) (quantity : R -> cplx) (slope : cplx) : Prop :=
  exists bound, forall e, Rabs e <= limit -> Rabs (re (quantity e) - e * re slope) <= bound * e ^ 2 /\ Rabs (im (quantity e) - e * im slope) <= bound * e ^ 2.
(** A mode and its opposite are not on the planes taken for the Nyquist ones. *)
Definition clear (n k : idx) : Prop := below_half n k /\ below_half n (opposite n k).
(** Interpolations with the same weights on both sides: [mirror n z] is the node as far from a position [1 - u] as [z] is from [u], on the
    other side. Laws of positions that are the same seen from both ends of the cell. *)
Definition mirror (n z : idx) : idx := I (ix n - 1 - ix z) (iy n - 1 - iy z) (iz n - 1 - iz z).
Definition flipped (u : vec) : vec := vsub (V 1 1 1) u.
Definition even_weights (n : idx) (weight : vec -> idx -> R) : Prop := forall u z, within n z -> weight (flipped u) (mirror n z) = weight u z.
Definition even_law {T : Type} (E : (T -> R) -> R) (uniform : T -> nat -> list vec) : Prop :=
  forall g : vec -> R, E (fun t => g (flipped (nth 0 (uniform t 1%nat) vzero))) = E (fun t => g (nth 0 (uniform t 1%nat) vzero)).
(** Weights of nodes further than [reach] cells along an axis are zero. *)
Definition near (n : nat) (reach u : R) (z : nat) : Prop := exists q : BinNums.Z, Rabs (u + INR z - IZR q * INR n) <= reach.
Definition local (n : idx) (reach : R) (weight : vec -> idx -> R) : Prop :=
  forall u z, between (V 0 0 0) (V 1 1 1) u -> within n z -> weight u z <> 0 -> near (ix n) reach (vx u) (ix z) /\ near (iy n) reach (vy u) (iy z) /\ near (iz n) reach (vz u) (iz z).
(** Sum over axes of the phase of a wave across a cell. *)
Definition cell_phase (box : vec) (n : idx) (w : vec) : R := Rabs (vx w * vx (diagonal box n)) + Rabs (vy w * vy (diagonal box n)) + Rabs (vz w * vz (diagonal box n)).
(** Linear interpolation along each axis (cloud in cell). *)
Definition linear1 (n : nat) (u : R) (z : nat) : R := if Nat.eqb z 0 then 1 - u else if Nat.eqb z (n - 1) then u else 0.
Definition linear (n : idx) (u : vec) (z : idx) : R := linear1 (ix n) (vx u) (ix z) * (linear1 (iy n) (vy u) (iy z) * linear1 (iz n) (vz u) (iz z)).
