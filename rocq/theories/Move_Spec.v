(** A box somewhere else (C92): what moves with a box when it is moved by the vector [t], and what does not. Nothing is taken from the code here but the types of
    its arguments and results, and the rotation made by a call of rotate (what it is: C05). *)
Require Import Reals ZArith String List Bool.
From Verif Require Import Base Vec3 Isometry_Model Sky_Model Cutsky_Model Box_Model Rsd_Model Mock_Model Mesh_Model Remap_Model Unit_Spec.
Import ListNotations.
Open Scope R_scope.

Section Move.
  Variable t : vec.
  Definition moved (p : vec) : vec := vadd p t.

  (** A mock: its center and the objects. Fields, densities and displacements do not move. *)
  Definition mock_m (m : mock) : mock :=
    Mock (m_box m) (m_n m) (moved (m_center m)) (m_seed m) (m_delta_k m) (m_delta_r m) (m_nbar m) (m_norm m) (m_disp m) (option_map (map moved) (m_position m)) (m_disps m).
  Definition center_m (a : arg R) : arg R := Triple (first a + vx t) (second a + vy t) (third a + vz t).
  Definition op_m (o : op) : op := match o with SetCenter c => SetCenter (center_m c) | o => o end.

  (** A catalog: vectors that are not invariant by translation. *)
  Definition moves (c : pcat) (name : string) : bool := mem name (pc_vectors c) && negb (mem name (pc_invariants c)).
  Definition col_m (c : col) : col := match c with ColV l => ColV (map moved l) | ColS l => ColS l end.
  Definition data_m (moves : string -> bool) (d : data) : data := map (fun x => (fst x, if moves (fst x) then col_m (snd x) else snd x)) d.
  Definition pcat_m (c : pcat) : pcat := PCat (data_m (moves c) (pc_data c)) (pc_position c) (pc_velocity c) (pc_vectors c) (pc_invariants c).
  Definition boxcat_m (c : boxcat) : boxcat := BoxCat (pcat_m (bc_cat c)) (boxsize c) (moved (boxcenter c)).

  (** Limits of cuts, except in units of the box. *)
  Definition limits_m (a : R) (r : R * R) : R * R := (fst r + a, snd r + a).
  Definition ranges_m (boxsize_unit : bool) (r : ranges_arg) : ranges_arg :=
    if boxsize_unit then r else
    match r with
    | ROne lo hi => RList [limits_m (vx t) (lo, hi); limits_m (vy t) (lo, hi); limits_m (vz t) (lo, hi)]
    | RList [r0; r1; r2] => RList [limits_m (vx t) r0; limits_m (vy t) r1; limits_m (vz t) r2]
    | r => r
    end.
  Definition box_call_m (o : box_call) : box_call := match o with Subbox r u => Subbox (ranges_m u r) u | o => o end.
End Move.

(** Calls on a mock that look at places: functions of the distance and local lines of sight. *)
Definition place_free (o : op) : Prop :=
  match o with
  | SetReal (Some (BFun _)) _ | SetSelection (inr _) _ | SetRsd (FFun _) _ | SetRsd _ None => False
  | _ => True
  end.
(** poisson_sample of a Lagrangian mock does not raise. *)
Definition draws_return (c : class) (calls : list op) (outcomes : list (result unit)) : Prop :=
  c = Lagrangian -> Forall2 (fun o r => match o with Poisson _ _ _ _ => r = Ok tt | _ => True end) calls outcomes.

(** The catalog has a position that moves, and a velocity that does not: this is what the constructor makes. *)
Definition moves_ok (c : pcat) : Prop :=
  mem (pc_position c) (pc_vectors c) = true /\ mem (pc_position c) (pc_invariants c) = false /\ mem (pc_velocity c) (pc_invariants c) = true.

(** Where a catalog that was moved by [t] is after a call: a rotation about the origin turns the vector, recentring forgets it. *)
Definition turned (angle_over_halfpi : BinNums.Z) (axis : axis_arg) (t : vec) : vec :=
  match iso_rotation iso_new (IZR angle_over_halfpi * PI / 2) axis false "origin" with (op, Ok _) => transform op true t | _ => t end.
Definition move_after (t : vec) (o : box_call) : vec := match o with Recenter => vzero | Rotate a axis => turned a axis t | _ => t end.
Fixpoint calls_m (t : vec) (l : list box_call) : list box_call := match l with [] => [] | o :: l => box_call_m t o :: calls_m (move_after t o) l end.
Fixpoint move_end (t : vec) (l : list box_call) : vec := match l with [] => t | o :: l => move_end (move_after t o) l end.

(** A cut sky: isometries made for the box, then used on it. *)
Definition cutsky (c : boxcat) (drange rarange decrange : R * R) (em im : margins) (noutput : option nat) (mr : option rmask) (ma : option amask) (rdd : option (string * string * string)) : result (list pcat) :=
  do s <- isometry_for_cutsky c drange rarange decrange em im noutput; cutsky_from_isometry c s mr ma rdd.
