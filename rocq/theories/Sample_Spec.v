(** What sampling is for. *)
Require Import Reals List.
From Verif Require Import Base.
Import ListNotations.
Open Scope R_scope.

(** Number of objects asked for by all processes. *)
Definition total (sizes : list nat) : nat := fold_right Nat.add 0%nat sizes.

(** A candidate is kept when its probability is at least the uniform number drawn for it. *)
Definition kept {A} (prob : A -> R) (x : A * R) : Prop := snd x <= prob (fst x).
