(** The fibre whose flag decides whether a target counts as available. *)
Require Import Reals ZArith List Bool.
From Verif Require Import Base FA_Model.
Import ListNotations.
Open Scope Z_scope.

(** Fibres of the tile that were given a science target. *)
Definition used_fiber (w : world) (t : Z) (a : assignment) (f : Z) : Prop := exists x i, In (x, i) (a_located a) /\ w_science w i = true /\ w_fiber w t x = Ok f.
(** [f] is the first used fibre that reaches the science target [i], in the order of the table of available targets. *)
Definition first_used (w : world) (t : Z) (a : assignment) (i f : Z) : Prop :=
  w_science w i = true /\ exists before x l after, a_avail a = before ++ (x, l) :: after /\ w_fiber w t x = Ok f /\ used_fiber w t a f /\ In i l /\
    forall y m g, In (y, m) before -> In i m -> w_fiber w t y = Ok g -> ~ used_fiber w t a g.
