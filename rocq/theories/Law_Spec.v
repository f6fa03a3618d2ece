(** What "independent and distributed as" means, for numbers drawn from finitely many equally likely values (a generator of double
    precision numbers has 2^53 of them). *)
Require Import Reals List Bool Arith.
From Verif Require Import Base.
Import ListNotations.
Open Scope R_scope.

(** Mean of a quantity over equally likely values. The mean of an indicator is a probability. *)
Definition avg {X} (vals : list X) (g : X -> R) : R := Rsum (map g vals) / INR (length vals).
(** 1 if true, 0 if false. *)
Definition ind (b : bool) : R := if b then 1 else 0.

(** Draws have a place: round, process, and rank among the draws of this process in this round. *)
Definition place : Type := (nat * nat * nat)%type.
Definition place_dec (a b : place) : {a = b} + {a <> b}.
Proof. repeat decide equality. Defined.
Definition set_at {X} (s : place -> X) (k : place) (x : X) : place -> X := fun k' => if place_dec k k' then x else s k'.

(** Mean of a quantity over all ways of giving a value to each place of a list, one value independently of the others. The quantity
    should depend on these places only; the other places keep the value of [s]. *)
Fixpoint mean {X} (vals : list X) (ks : list place) (g : (place -> X) -> R) (s : place -> X) : R :=
  match ks with
  | [] => g s
  | k :: ks => avg vals (fun x => mean vals ks g (set_at s k x))
  end.

(** All places of [rounds] rounds, when process r draws as many as its size in each round. *)
Definition places (rounds : nat) (sizes : list nat) : list place :=
  flat_map (fun k => flat_map (fun r => map (fun i => (k, r, i)) (seq 0 (nth r sizes 0%nat))) (seq 0 (length sizes))) (seq 0 rounds).
(** What process r draws in round k. *)
Definition drawn {X} (sizes : list nat) (s : place -> X) (k r : nat) : list X := map (fun i => s (k, r, i)) (seq 0 (nth r sizes 0%nat)).

Definition Rprod (l : list R) : R := fold_right Rmult 1 l.
(** Product of f1(x1), f2(x2), ... *)
Fixpoint joint {A} (fs : list (A -> R)) (xs : list A) : R :=
  match fs, xs with f :: fs, x :: xs => f x * joint fs xs | _, _ => 1 end.
(** Mean of a quantity of a candidate given that the mask keeps it. *)
Definition given_kept {A} (prob : A -> R) (vals : list (A * R)) (f : A -> R) : R :=
  avg vals (fun x => ind (Rleb (snd x) (prob (fst x))) * f (fst x)) / avg vals (fun x => ind (Rleb (snd x) (prob (fst x)))).

(** Numbers of a generator of step 1 / n: 0, 1/n, ..., (n-1)/n. *)
Definition grid (n : nat) : list R := map (fun i => INR i / INR n) (seq 0 n).
