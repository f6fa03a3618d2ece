(** Which isometries share their translation. *)
Require Import Reals String List Bool Arith.
From Verif Require Import Base Isometry_Model Isometry_Proof.
Import ListNotations.

(** ** Objects sharing a translation *)
(** Calls that give new arrays to the object they are made on (or bind). *)
Definition is_bound (st : store) (i : nat) : bool := match view st i with Some _ => true | None => false end.
Definition makes (st : store) (c : cmd) : bool :=
  match c with
  | CNew _ => true
  | CDot i _ frame | CResetRotation i frame => is_bound st i && String.eqb frame "origin"%string
  | CRotation i angle axis degree frame => match view st i with Some s => match iso_rotation s angle axis degree frame with (_, Ok _) => true | _ => false end | None => false end
  | CConcat _ js => match views st js with Some _ => true | None => false end
  | CExtend i j | CAdd _ i j => match views st [i; j] with Some _ => true | None => false end
  | CTranslation _ _ _ _ | CResetTranslate _ | CRadd0 _ _ => false
  end.
(** Number of the call that made the arrays of each variable: a copy [k = 0 + i] takes those of [i]. *)
Definition track (st : store) (n : nat) (lab : nat -> nat) (c : cmd) : nat -> nat :=
  if makes st c then upd lab (target c) n else match c with CRadd0 k i => if is_bound st i then upd lab k (lab i) else lab | _ => lab end.
Fixpoint born (st : store) (n : nat) (lab : nat -> nat) (cs : list cmd) : nat -> nat :=
  match cs with [] => lab | c :: cs => born (exec st c) (S n) (track st n lab c) cs end.
Definition creator (cs : list cmd) : nat -> nat := born store_init 0 (fun _ => 0%nat) cs.
(** Calls that write into the translation. *)
Definition in_place (c : cmd) : bool := match c with CTranslation _ _ _ _ | CResetTranslate _ => true | _ => false end.
