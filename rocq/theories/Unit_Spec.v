(** The same quantities in another unit of length (C91). There are [s] new units in an old one: a length [a] becomes [s * a], a wavenumber
    [k] becomes [k / s], a volume is multiplied and a density divided by [s ^ 3]. Nothing is taken from the code here but the types of its arguments and of
    its results. *)
Require Import Reals ZArith String List Bool.
From Verif Require Import Base Vec3 Isometry_Model Sky_Model Cutsky_Model Box_Model Rsd_Model Mock_Model Mesh_Model Remap_Model Random_Model.
Import ListNotations.
Open Scope R_scope.

(** A result, and one converted. *)
Definition result_map {A B} (f : A -> B) (r : result A) : result B := match r with Ok a => Ok (f a) | Err e => Err e end.

Section Units.
  Variable s : R.

  (** Lengths: of scalars, of vectors, of arguments that are one number or three. *)
  Definition arg_u (a : arg R) : arg R := match a with Scalar x => Scalar (s * x) | Triple x y z => Triple (s * x) (s * y) (s * z) end.
  Definition shift_u (a : shift_arg) : shift_arg := match a with ShScalar x => ShScalar (s * x) | ShVec v => ShVec (vscale s v) end.
  Definition range_u (r : R * R) : R * R := (s * fst r, s * snd r).
  (** A power spectrum is a volume, a function of a wavenumber and of an angle. *)
  Definition power_u (p : R -> option R -> R) : R -> option R -> R := fun k mu => s ^ 3 * p (s * k) mu.
  (** A density: a number, or a function of a distance and of angles. *)
  Definition nbar_u (n : R + (R -> R -> R -> R)) : R + (R -> R -> R -> R) :=
    match n with inl a => inl (a / s ^ 3) | inr f => inr (fun d ra dec => f (d / s) ra dec / s ^ 3) end.
  (** Numbers that may depend on the distance: growth rates, biases. *)
  Definition factor_u (f : factor) : factor := match f with FNum a => FNum a | FFun f => FFun (fun d => f (d / s)) end.
  Definition bias_u (b : bias_arg) : bias_arg := match b with BNum b => BNum b | BFun b => BFun (fun delta d => b delta (d / s)) end.

  (** Calls of methods of a mock: random numbers are the same. *)
  Definition op_u (o : op) : op :=
    match o with
    | SetComplex => SetComplex
    | SetReal bias lognormal => SetReal (option_map bias_u bias) lognormal
    | SetSelection nbar interlacing => SetSelection (nbar_u nbar) interlacing
    | SetWhiteNoise noise => SetWhiteNoise noise
    | SetRsd f los => SetRsd (factor_u f) los
    | Poisson poisson uniform resampler compensate => Poisson poisson uniform resampler compensate
    | SetCenter v => SetCenter (arg_u v)
    end.

  (** Densities on the mesh. *)
  Definition field_u (f : field) : field := match f with Number a => Number (a / s ^ 3) | Mesh f => Mesh (fun x => f x / s ^ 3) end.
  (** A mock: the box, its center, displacements and positions are lengths, the density contrast has no unit, attrs['norm'] is the integral of the squared
      density. *)
  Definition mock_u (m : mock) : mock :=
    Mock (vscale s (m_box m)) (m_n m) (vscale s (m_center m))
      (option_map (fun x => match x with (p, los, noise, inverted) => (power_u p, los, noise, inverted) end) (m_seed m))
      (m_delta_k m) (m_delta_r m) (option_map field_u (m_nbar m)) (option_map (fun a => a / s ^ 3) (m_norm m))
      (option_map (fun d i x => s * d i x) (m_disp m)) (option_map (map (vscale s)) (m_position m)) (option_map (map (vscale s)) (m_disps m)).
  (** What a readout gives: the density contrast has no unit, displacements are lengths, the rest are densities. *)
  Definition unit_read (a : field_arg) : R :=
    match a with Given _ => 1 | Named name => if String.prefix "disp_" name then s else if String.eqb name "delta" then 1 else / s ^ 3 end.
  (** pmesh knows the box: the same cells hold the same share of a point. *)
  Definition same_pmesh (pm pm' : pmesh) : Prop :=
    (forall r, known pm' r = known pm r) /\ parts pm' = parts pm /\
    (forall r n p x, weight pm' r n (vscale s p) x = weight pm r n p x) /\ (forall r p j, sent pm' r (vscale s p) j = sent pm r p j).

  (** Catalogs: [length_col] tells which columns are lengths. *)
  Definition col_u (c : col) : col := match c with ColV l => ColV (map (vscale s) l) | ColS l => ColS (map (fun x => s * x) l) end.
  Definition data_u (length_col : string -> bool) (d : data) : data := map (fun x => (fst x, if length_col (fst x) then col_u (snd x) else snd x)) d.
  Definition pcat_u (length_col : string -> bool) (c : pcat) : pcat :=
    PCat (data_u length_col (pc_data c)) (pc_position c) (pc_velocity c) (pc_vectors c) (pc_invariants c).
  Definition boxcat_u (length_col : string -> bool) (c : boxcat) : boxcat := BoxCat (pcat_u length_col (bc_cat c)) (vscale s (boxsize c)) (vscale s (boxcenter c)).
  (** The position, and other vectors that move with it, are lengths; velocities and the like may be in any unit. *)
  Definition lengths_ok (length_col : string -> bool) (c : pcat) : Prop :=
    length_col (pc_position c) = true /\ forall n, mem n (pc_vectors c) = true -> mem n (pc_invariants c) = false -> length_col n = true.

  (** Isometries, and the calls that make them. *)
  Definition iso_u (i : iso) : iso := Iso (rot i) (vscale s (tra i)).
  Definition cmd_u (c : cmd) : cmd := match c with CTranslation i shift axis frame => CTranslation i (shift_u shift) axis frame | c => c end.

  (** Cuboids: cells and lattice vectors are in units of the box. *)
  Definition cuboid_u (c : cuboid) : cuboid :=
    Cuboid (vscale s (cu_boxsize c)) (cu_n1 c) (cu_n2 c) (cu_n3 c) (vscale s (cu_resize c)) (vscale s (cu_size c)) (cu_cells c).
  Definition remap_u (a : remap_arg) : remap_arg := match a with RCuboid c => RCuboid (cuboid_u c) | RVectors l => RVectors l end.
  (** Ranges of positions, in units of the box or not. *)
  Definition ranges_u (boxsize_unit : bool) (r : ranges_arg) : ranges_arg :=
    if boxsize_unit then r else match r with ROne lo hi => ROne (s * lo) (s * hi) | RList l => RList (map range_u l) end.
  Definition margins_u (m : margins) : margins := Margins (option_map (Rmult s) (mg0 m)) (option_map (Rmult s) (mg1 m)) (option_map (Rmult s) (mg2 m)).
  Definition isos_u (i : isos) : isos := match i with IsoOne a => IsoOne (iso_u a) | IsoList l => IsoList (map iso_u l) end.
  (** Masks of distances. *)
  Definition rmask_u (m : rmask) : rmask := fun l => m (map (fun d => d / s) l).
End Units.

(** Calls of methods of a catalog in a box, the first error being raised. *)
Inductive box_call : Type :=
| Translate (shift : shift_arg) (axis : axis_arg) | Recenter | Rotate (angle_over_halfpi : BinNums.Z) (axis : axis_arg)
| Subbox (ranges : ranges_arg) (boxsize_unit : bool) | Pad (factors : vec) | Remap (a : remap_arg).
Definition box_call_u (s : R) (c : box_call) : box_call :=
  match c with
  | Translate shift axis => Translate (shift_u s shift) axis
  | Subbox ranges boxsize_unit => Subbox (ranges_u s boxsize_unit ranges) boxsize_unit
  | Remap a => Remap (remap_u s a)
  | c => c
  end.
Definition box_step (c : boxcat) (o : box_call) : result boxcat :=
  match o with
  | Translate shift axis => translate c shift axis
  | Recenter => recenter c
  | Rotate a axis => rotate c a axis
  | Subbox r u => subbox c r u
  | Pad f => pad c f
  | Remap a => remap c a
  end.
Fixpoint box_run (c : boxcat) (l : list box_call) : result boxcat := match l with [] => Ok c | o :: l => do c <- box_step c o; box_run c l end.

(** Of the columns that a cut sky adds, the distance is a length. *)
Definition rdd_lengths (length_col : string -> bool) (rdd : option (string * string * string)) : Prop :=
  match rdd with Some (nra, ndec, ndist) => length_col nra = false /\ length_col ndec = false /\ length_col ndist = true | None => True end.
(** Objects of a random catalog on the sky. *)
Definition object_u (s : R) (o : object) : object := Object (o_ra o) (o_dec o) (s * o_dist o) (vscale s (o_pos o)).
