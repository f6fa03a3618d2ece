(** When processes wait for each other for ever. *)
Require Import Reals ZArith String List Bool.
From Verif Require Import Base Coll_Model.
Import ListNotations.

(** Packages that move arrays between processes. *)
Record world : Type := World { w_scatter : msg -> nat -> nat -> msg; w_exchange : string -> list msg -> nat -> msg; w_reduce : string -> list msg -> msg }.
Definition ints (ms : list msg) : option Z := fold_right (fun m s => match m, s with MInt z, Some s => Some (z + s)%Z | _, _ => None end) (Some 0%Z) ms.
Definition reals (ms : list msg) : R := fold_right (fun m s => (match m with MReal r => r | MInt z => IZR z | _ => 0 end + s)%R) 0%R ms.
(** Answer of a call to process [i] of [n], from the messages of all. *)
Definition reply (w : world) (n : nat) (op : coll) (ms : list msg) (i : nat) : msg :=
  match op with
  | Barrier => MNone
  | Sum => match ints ms with Some z => MInt z | None => MReal (reals ms) end
  | Bcast r => nth r ms MNone
  | Allgather => MMany ms
  | Gather r => if Nat.eqb i r then MMany ms else MNone
  | Scatter r => w_scatter w (nth r ms MNone) n i
  | Exchange key => w_exchange w key ms i
  | Reduce name => w_reduce w name ms
  end.
(** All [n] processes make the same call, get their answers and go on. *)
Definition step {A} (w : world) (n : nat) (p q : nat -> prog A) : Prop :=
  exists op m k, (forall i, (i < n)%nat -> p i = Call op (m i) (k i)) /\ forall i, (i < n)%nat -> q i = k i (reply w n op (map m (seq 0 n)) i).
Inductive reach {A} (w : world) (n : nat) (p : nat -> prog A) : (nat -> prog A) -> Prop :=
| reach_here : reach w n p p
| reach_next : forall q r, reach w n p q -> step w n q r -> reach w n p r.
(** All have returned, all have raised, or all make the same call. *)
Definition in_step {A} (n : nat) (p : nat -> prog A) : Prop :=
  (forall i, (i < n)%nat -> exists a, p i = Ret a) \/ (forall i, (i < n)%nat -> exists e, p i = Raise e) \/ exists op, forall i, (i < n)%nat -> exists m k, p i = Call op m k.
Definition never_hangs {A} (w : world) (n : nat) (p : nat -> prog A) : Prop := forall q, reach w n p q -> in_step n q.
(** They can come to a state where some wait for a call that others do not make. *)
Definition hangs {A} (w : world) (n : nat) (p : nat -> prog A) : Prop := exists q, reach w n p q /\ ~ in_step n q.
