(** What Gaussian mocks are for. *)
Require Import Reals ZArith List Lra.
From Verif Require Import Base Vec3 Rsd_Model Mock_Model.
Import ListNotations.
Open Scope R_scope.

(** An index of a mesh. *)
Definition within (n x : idx) : Prop := (ix x < ix n)%nat /\ (iy x < iy n)%nat /\ (iz x < iz n)%nat.
(** A mesh with cells; a box with a volume. *)
Definition nonempty (n : idx) : Prop := (0 < ix n)%nat /\ (0 < iy n)%nat /\ (0 < iz n)%nat.
Definition solid (box : vec) : Prop := 0 < vx box /\ 0 < vy box /\ 0 < vz box.
(** Contract of pmesh's wavenumbers: the signed frequency of an index differs from it by a multiple of the number of cells, and is not
    larger than half of it. *)
Definition proper_freq (freq : nat -> nat -> BinNums.Z) : Prop :=
  forall n i, (i < n)%nat -> (exists q, freq n i = Z.of_nat i + q * Z.of_nat n)%Z /\ (2 * Z.abs (freq n i) <= Z.of_nat n)%Z.
(** The node of the mesh with an index: the first one is at the lower corner of the box. *)
Definition node (box center : vec) (n x : idx) : vec :=
  V (vx center - vx box / 2 + INR (ix x) * (vx box / INR (ix n))) (vy center - vy box / 2 + INR (iy x) * (vy box / INR (iy n)))
    (vz center - vz box / 2 + INR (iz x) * (vz box / INR (iz n))).
(** Cosine squared of the angle between two vectors. *)
Definition mu2 (k r : vec) : R := vdot k r ^ 2 / (vdot k k * vdot r r).
(** Squared modulus. *)
Definition modulus2 (z : cplx) : R := re z ^ 2 + im z ^ 2.
(** The index of the opposite wavenumber. *)
Definition opposite (n k : idx) : idx := I ((ix n - ix k) mod ix n) ((iy n - iy k) mod iy n) ((iz n - iz k) mod iz n).
(** A field whose transform is real. *)
Definition hermitian (n : idx) (c : idx -> cplx) : Prop := forall k, within n k -> c (opposite n k) = Cx (re (c k)) (- im (c k)).
(** No index is the one the code takes for the Nyquist frequency. *)
Definition below_half (n k : idx) : Prop := ix k <> Nat.div (ix n) 2 /\ iy k <> Nat.div (iy n) 2 /\ iz k <> Nat.div (iz n) 2.
(** A sum of plane waves of a box: amplitudes and whole numbers of periods per side, counted from a corner. *)
Definition plane_wave (box origin : vec) (w : cplx * (BinNums.Z * BinNums.Z * BinNums.Z)) (p : vec) : R :=
  let '(a, (q1, q2, q3)) := w in
  let t := 2 * PI * (IZR q1 * (vx p - vx origin) / vx box + IZR q2 * (vy p - vy origin) / vy box + IZR q3 * (vz p - vz origin) / vz box) in
  re a * cos t - im a * sin t.
Definition waves (box origin : vec) (l : list (cplx * (BinNums.Z * BinNums.Z * BinNums.Z))) (p : vec) : R := Rsum (map (fun w => plane_wave box origin w p) l).
(** Frequencies that the mesh resolves. *)
Definition resolved (n : idx) (q : BinNums.Z * BinNums.Z * BinNums.Z) : Prop :=
  let '(q1, q2, q3) := q in (2 * Z.abs q1 < Z.of_nat (ix n) /\ 2 * Z.abs q2 < Z.of_nat (iy n) /\ 2 * Z.abs q3 < Z.of_nat (iz n))%Z.
(** The lower faces belong to the box (or cell), the upper ones do not. *)
Definition between (low high p : vec) : Prop := (vx low <= vx p < vx high) /\ (vy low <= vy p < vy high) /\ (vz low <= vz p < vz high).
(** The same place in a periodic box. *)
Definition same_place (box p q : vec) : Prop :=
  exists a b c : BinNums.Z, vx q = vx p + IZR a * vx box /\ vy q = vy p + IZR b * vy box /\ vz q = vz p + IZR c * vz box.
(** A density that is nowhere negative. *)
Definition density_ok (n : idx) (delta nbar : idx -> R) : Prop := forall x, within n x -> 0 <= (1 + delta x) * nbar x.
(** The mean of the numbers drawn: mean density times the volume of a cell. *)
Definition means (box : vec) (n : idx) (delta nbar : idx -> R) : list R :=
  map (fun x => (1 + delta x) * nbar x * (vx box / INR (ix n) * (vy box / INR (iy n)) * (vz box / INR (iz n)))) (cells n).
(** Triples of numbers in [0, 1), as many as asked for. *)
Definition stream (uniform : nat -> list vec) : Prop := forall m, length (uniform m) = m /\ forall u, In u (uniform m) -> between (V 0 0 0) (V 1 1 1) u.
(** Objects of one cell: a list of positions shared between the cells, in order. *)
Inductive in_cells (box center : vec) (n : idx) : list (idx * nat) -> list vec -> Prop :=
| no_cell : in_cells box center n [] []
| next_cell : forall x k l here rest, length here = k ->
    Forall (between (node box center n x) (vadd (node box center n x) (V (vx box / INR (ix n)) (vy box / INR (iy n)) (vz box / INR (iz n))))) here ->
    in_cells box center n l rest -> in_cells box center n ((x, k) :: l) (here ++ rest).
(** Sum over the modes of a field of their values at a cell, each with a weight that depends on its wave vector. *)
Definition weighted (freq : nat -> nat -> BinNums.Z) (box : vec) (n : idx) (weight : vec -> R) (delta_k : idx -> cplx) (x : idx) : R :=
  Rsum (map (fun k => weight (wave freq box n k) * re (cmul (delta_k k) (expi (phase n k x)))) (cells n)).
(** The growth factor at a point: a number, or a function of the distance to the observer. *)
Definition growth (f : factor) (p : vec) : R := match f with FNum f => f | FFun f => f (sqrt (vdot p p)) end.
(** Lower and upper corners of a box. *)
Definition lower (box center : vec) : vec := V (vx center - vx box / 2) (vy center - vy box / 2) (vz center - vz box / 2).
Definition upper (box center : vec) : vec := V (vx center + vx box / 2) (vy center + vy box / 2) (vz center + vz box / 2).
(** Divergence in Fourier space of the vector field with components [psi 0], [psi 1], [psi 2]: i times the scalar product with the wave vector. *)
Definition divergence (w : vec) (psi : nat -> cplx) : cplx :=
  cmul (Cx 0 1) (cadd (cscale (vx w) (psi 0%nat)) (cadd (cscale (vy w) (psi 1%nat)) (cscale (vz w) (psi 2%nat)))).
(** A node moved by [t] times the diagonal of a cell. *)
Definition diagonal (box : vec) (n : idx) : vec := V (vx box / INR (ix n)) (vy box / INR (iy n)) (vz box / INR (iz n)).
Definition moved (box center : vec) (n x : idx) (t : R) : vec := vadd (node box center n x) (vscale t (diagonal box n)).
