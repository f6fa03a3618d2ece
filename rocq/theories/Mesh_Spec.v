(** What meshes of mocks are read and exported for. Meshes, boxes and waves are those of Mock_Spec.v. *)
Require Import Reals ZArith String List Permutation.
From Verif Require Import Base Vec3 Box_Model Rsd_Model Mock_Model Mock_Spec Mesh_Model.
Import ListNotations.
Open Scope R_scope.

(** [s] is the integral of [f] from [a] to [b]. *)
Definition integral (f : R -> R) (a b s : R) : Prop := exists F, (forall t, derivable_pt_lim F t (f t)) /\ s = F b - F a.
(** [s] is the mean over one cell, of size [c] and centered, of a wave of wavenumber [k]: what is left of this wave when it is averaged over cells
    (the odd part averages to zero). *)
Definition cell_mean (k c s : R) : Prop := integral (fun t => cos (k * t)) (- c / 2) (c / 2) (c * s).
(** What a resampler leaves of the wave [k]: assignment to the nearest point averages over a cell, in each dimension; the others of the
    family do it several times. *)
Definition times_averaged (resampler : string) (p : nat) : Prop :=
  In (resampler, p) [("nnb", 1); ("ngp", 1); ("cic", 2); ("tsc", 3); ("pcs", 4)]%string%nat.
Definition left_of_wave (box : vec) (n : idx) (p : nat) (k : vec) (w : R) : Prop :=
  exists s1 s2 s3, cell_mean (vx k) (vx box / INR (ix n)) s1 /\ cell_mean (vy k) (vy box / INR (iy n)) s2 /\ cell_mean (vz k) (vz box / INR (iz n)) s3 /\ w = (s1 * s2 * s3) ^ p.
(** [g] is [f] smoothed: each of its Fourier modes is the one of [f] times what the resampler leaves of it. *)
Definition smoothed (freq : nat -> nat -> BinNums.Z) (box : vec) (n : idx) (p : nat) (f g : idx -> R) : Prop :=
  forall k, within n k -> exists w, left_of_wave box n p (wave freq box n k) w /\ r2c n g k = cscale w (r2c n f k).
(** Equal on the mesh. *)
Definition same_mesh (n : idx) (f g : idx -> R) : Prop := forall x, within n x -> f x = g x.

(** Contract of pmesh's readout: every cell is on one process, and a position is sent to all processes that have cells with some weight for it. *)
Definition distributed (pm : pmesh) (n : idx) : Prop :=
  Permutation (List.concat (parts pm)) (cells n) /\
  forall r p j part x, nth_error (parts pm) j = Some part -> sent pm r p j = false -> In x part -> weight pm r n p x = 0.
(** Value of a field at a position of the box (from its lower corner): sum over the cells of the mesh, with the weights of the resampler. *)
Definition value_at (pm : pmesh) (m : mock) (r : string) (f : idx -> R) (p : vec) : R :=
  Rsum (map (fun x => weight pm r (m_n m) (vsub p (lower (m_box m) (m_center m))) x * f x) (cells (m_n m))).
(** Fields of a mock, by name. *)
Definition density_at (b : field) (x : idx) : R := match b with Number a => a | Mesh g => g x end.
Inductive has_field (m : mock) : string -> (idx -> R) -> Prop :=
| has_delta : forall d, m_delta_r m = Some d -> has_field m "delta" d
| has_weighted : forall d b, m_delta_r m = Some d -> m_nbar m = Some b -> has_field m "nbar*delta" (fun x => density_at b x * d x)
| has_density : forall d b, m_delta_r m = Some d -> m_nbar m = Some b -> has_field m "nbar*(1+delta)" (fun x => density_at b x * (1 + d x))
| has_nbar : forall b, m_nbar m = Some (Mesh b) -> has_field m "nbar" b.
(** Case of letters. *)
Definition capitals : list Ascii.ascii := list_ascii_of_string "ABCDEFGHIJKLMNOPQRSTUVWXYZ".
Definition smalls : list Ascii.ascii := list_ascii_of_string "abcdefghijklmnopqrstuvwxyz".
Definition small_of (c c' : Ascii.ascii) : Prop := In (c, c') (combine capitals smalls) \/ ~ In c capitals /\ c' = c.
Definition small_letters (s s' : string) : Prop := Forall2 small_of (list_ascii_of_string s) (list_ascii_of_string s').
(** The resampler of pmesh for a name: in small letters, and nnb for ngp. *)
Definition resampler_of (s r : string) : Prop := exists s', small_letters s s' /\ (s' = "ngp"%string /\ r = "nnb"%string \/ s' <> "ngp"%string /\ r = s').
(** Weights that are those of a mean. *)
Definition averaging (pm : pmesh) (n : idx) (r : string) : Prop :=
  (forall p x, 0 <= weight pm r n p x) /\ forall p, Rsum (map (weight pm r n p) (cells n)) = 1.

(** A mock on which no method has been called yet. *)
Definition untouched (m : mock) : Prop := m_delta_r m = None /\ m_nbar m = None /\ m_disp m = None /\ m_position m = None /\ m_disps m = None.
(** Calls of a kind. *)
Definition is_real (o : op) : Prop := match o with SetReal _ _ => True | _ => False end.
Definition is_selection (o : op) : Prop := match o with SetSelection _ _ => True | _ => False end.
Definition is_poisson (o : op) : Prop := match o with Poisson _ _ _ _ => True | _ => False end.
Definition is_complex (o : op) : Prop := match o with SetComplex => True | _ => False end.
(** Calls that move objects, or the box. *)
Definition moves (c : class) (o : op) : Prop := match o, c with Poisson _ _ _ _, _ => True | SetCenter _, _ => True | SetRsd _ _, Lagrangian => True | _, _ => False end.
(** The mock after calls, and what one more call answers. *)
Definition after freq neg pm c m l : mock := fst (run freq neg pm c m l).
Definition answer freq neg pm c m l (o : op) : result unit := snd (step freq neg pm c (after freq neg pm c m l) o).
(** Contract of the generators of random numbers given to poisson_sample. *)
Definition proper_draws (o : op) : Prop := match o with Poisson poisson uniform _ _ => (forall l, List.length (poisson l) = List.length l) /\ stream uniform | _ => True end.
