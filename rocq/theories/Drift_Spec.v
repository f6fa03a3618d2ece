(** C83: what accuracy means, and programs that build an isometry. *)
Require Import Reals ZArith List String.
From Verif Require Import Base Vec3 Isometry_Model Drift_Model.
Import ListNotations.
Open Scope R_scope.

(** Roundings of relative accuracy [u] (no underflow). *)
Definition accurate (u : R) (rnd : R -> R) : Prop := forall x, Rabs (rnd x - x) <= u * Rabs x.
(** Sums of products of relative accuracy [g] with respect to the lengths of the vectors. *)
Definition accurate_dot (g : R) (dot3 : vec -> vec -> R) : Prop := forall a b, Rabs (dot3 a b - vdot a b) <= g * (vnorm a * vnorm b).
(** Functions of the mathematical library within [d] of the exact ones. *)
Definition accurate_fun (d : R) (f exact : R -> R) : Prop := forall x, Rabs (f x - exact x) <= d.

(** The matrix [a] moves every vector within the fraction [eps] of its length from where [b] does. *)
Definition near (eps : R) (a b : mat) : Prop := forall v, vnorm (vsub (mapply a v) (mapply b v)) <= eps * vnorm v.

(** Programs: all the ways to build an isometry. [PDot p ideal given frame] calls dot with the matrix [given], an approximation of the
    rotation [ideal]. Calls that raise leave the state they leave, and the program goes on. *)
Inductive prog : Type :=
| PNew
| PDot (p : prog) (ideal given : mat) (frame : string)
| PRotation (p : prog) (angle : R) (axis : axis_arg) (degree : bool) (frame : string)
| PTranslation (p : prog) (shift : shift_arg) (axis : axis_arg) (frame : string)
| PResetRotation (p : prog) (frame : string)
| PResetTranslate (p : prog)
| PAdd (p q : prog).

(** The isometry in exact arithmetic. *)
Fixpoint exact (p : prog) : iso :=
  match p with
  | PNew => iso_new
  | PDot p ideal _ frame => fst (iso_dot (exact p) ideal frame)
  | PRotation p angle axis degree frame => fst (iso_rotation (exact p) angle axis degree frame)
  | PTranslation p shift axis frame => fst (iso_translation (exact p) shift axis frame)
  | PResetRotation p frame => fst (iso_reset_rotation (exact p) frame)
  | PResetTranslate p => fst (iso_reset_translate (exact p))
  | PAdd p q => iso_add (exact p) (exact q)
  end.
(** The isometry computed. *)
Fixpoint computed rnd dot3 fcos fsin (p : prog) : iso :=
  match p with
  | PNew => iso_new
  | PDot p _ given frame => fst (fl_iso_dot dot3 (computed rnd dot3 fcos fsin p) given frame)
  | PRotation p angle axis degree frame => fst (fl_iso_rotation rnd dot3 fcos fsin (computed rnd dot3 fcos fsin p) angle axis degree frame)
  | PTranslation p shift axis frame => fst (fl_iso_translation rnd dot3 (computed rnd dot3 fcos fsin p) shift axis frame)
  | PResetRotation p frame => fst (fl_iso_reset_rotation dot3 (computed rnd dot3 fcos fsin p) frame)
  | PResetTranslate p => fst (iso_reset_translate (computed rnd dot3 fcos fsin p))
  | PAdd p q => fl_iso_add rnd dot3 (computed rnd dot3 fcos fsin p) (computed rnd dot3 fcos fsin q)
  end.
(** Number of calls; an addition counts for two. *)
Fixpoint calls (p : prog) : nat :=
  match p with
  | PNew => 0
  | PDot p _ _ _ | PRotation p _ _ _ _ | PTranslation p _ _ _ | PResetRotation p _ | PResetTranslate p => S (calls p)
  | PAdd p q => S (S (calls p + calls q))
  end.
(** Total length of the translations. *)
Fixpoint travel (p : prog) : R :=
  match p with
  | PNew => 0
  | PDot p _ _ _ | PRotation p _ _ _ _ | PResetRotation p _ | PResetTranslate p => travel p
  | PTranslation p shift axis _ => travel p + match shift_vector shift axis with Ok v => vnorm v | Err _ => 0 end
  | PAdd p q => travel p + travel q
  end.
(** Angle of a call of rotation(), in radians. *)
Definition radians (angle : R) (degree : bool) : R := if degree then angle * PI / 180 else angle.
(** Matrices given are within [eps] of a rotation; angles are not so large that their rounding matters more than [eps]. *)
Fixpoint fine (u eps : R) (p : prog) : Prop :=
  match p with
  | PNew => True
  | PDot p ideal given _ => fine u eps p /\ is_rotation ideal /\ near eps given ideal
  | PRotation p angle _ degree _ => fine u eps p /\ 4000 * u * (1 + Rabs (radians angle degree)) <= eps
  | PTranslation p _ _ _ | PResetRotation p _ | PResetTranslate p => fine u eps p
  | PAdd p q => fine u eps p /\ fine u eps q
  end.
