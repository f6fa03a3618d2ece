(** Regions, bins and covariances of the SV3 scripts, in words. *)
Require Import Reals ZArith String Ascii List.
From Verif Require Import Base.
Import ListNotations.
Open Scope R_scope.

(** Every value is below the next one. *)
Definition rising (l : list R) : Prop := forall i, (S i < length l)%nat -> nth i l 0 < nth (S i) l 0.
(** Does not begin with a slash. *)
Definition relative (s : string) : Prop := match s with String c _ => c <> "/"%char | EmptyString => True end.
(** All rosettes of a group have the region [reg]. *)
Definition together (region : Z -> option string) (group : list Z) (reg : string) : Prop := group <> [] /\ forall r, In r group -> region r = Some reg.
(** [mb] is the mean of [n] values, and [v] their covariance with [n] others, with n - 1 in the denominator. *)
Definition is_mean (n : nat) (x : nat -> R) (mb : R) : Prop := INR n * mb = Rsum (map x (seq 0 n)).
(** A quadratic form in [nb] bins. *)
Definition quadratic (nb : nat) (C : nat -> nat -> R) (v : nat -> R) : R := Rsum (map (fun b => Rsum (map (fun c => v b * v c * C b c) (seq 0 nb))) (seq 0 nb)).
