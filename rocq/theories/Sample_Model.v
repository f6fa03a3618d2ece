(** Model of the sampling methods of the masks: make_survey.py:1302-1354 [BaseRadialMask.sample] and 1674-1722
    [BaseAngularMask.sample], run by any number of processes. The random numbers are an argument: [draws k r] is what process [r]
    draws in round [k], one pair (candidate, uniform number of the mask) per object it asked for. *)
Require Import Reals ZArith List Bool.
From Verif Require Import Base Sky_Model Cutsky_Model Mask_Model.
Import ListNotations.
Open Scope R_scope.

(** make_survey.py:1336-1337 and 1703-1704: candidates that the mask keeps (BaseMask.__call__, line 1243). *)
Definition accepted {A} (prob : A -> R) (l : list (A * R)) : list A := map fst (filter (fun x => Rleb (snd x) (prob (fst x))) l).

(** One round on all processes. *)
Definition round {A} (prob : A -> R) (draws : nat -> nat -> list (A * R)) (k nproc : nat) : list (list A) :=
  map (fun r => accepted prob (draws k r)) (seq 0 nproc).
Definition zip_with {A B C} (f : A -> B -> C) (a : list A) (b : list B) : list C := map (fun x => f (fst x) (snd x)) (combine a b).
Definition allreduce (l : list Z) : Z := fold_right Z.add 0%Z l.

(** make_survey.py:1339-1347 and 1706-1715: the loop, with a number of rounds; [k] is the number of rounds done, [acc] what each
    process has, [dsize] what each process still misses. *)
Fixpoint sample_loop {A} (prob : A -> R) (draws : nat -> nat -> list (A * R)) (fuel k : nat) (acc : list (list A)) (dsize : list Z) : result (nat * list (list A)) :=
  if (0 <? allreduce dsize)%Z then
    match fuel with
    | O => Err OutOfFuel
    | S fuel =>
      let tmp := round prob draws k (length acc) in
      sample_loop prob draws fuel (S k) (zip_with (@app A) acc tmp) (zip_with (fun d t => d - Z.of_nat (length t))%Z dsize tmp)
    end
  else Ok (k, acc).

(** np.cumsum([0] + sizes)[rank]. *)
Definition offset_of (sizes : list nat) (rank : nat) : nat := fold_right Nat.add 0%nat (firstn rank sizes).
(** mpytools MPIScatteredSource: the rows [start, stop) of the concatenation of the arrays of all processes. *)
Definition global_slice {A} (start stop : nat) (l : list A) : list A := firstn (stop - start) (skipn start l).
(** make_survey.py:1348-1354 and 1716-1722: each process gets its part of the concatenation. np.concatenate needs one array at least. *)
Definition sample {A} (prob : A -> R) (draws : nat -> nat -> list (A * R)) (fuel : nat) (sizes : list nat) : result (list (list A)) :=
  do out <- sample_loop prob draws fuel 0 (map (fun _ => []) sizes) (map Z.of_nat sizes);
  let '(k, z) := out in
  match k with
  | O => Err ValueError
  | _ => Ok (map (fun rank => global_slice (offset_of sizes rank) (offset_of sizes (S rank)) (concat z)) (seq 0 (length sizes)))
  end.

(** numpy Generator.uniform(low, high), from a number in [0, 1). *)
Definition uniform (low high t : R) : R := low + (high - low) * t.
(** x ** (1. / 3.), for x >= 0. *)
Definition cbrt (x : R) : R := if Req_EM_T x 0 then 0 else Rpower x (1 / 3).
(** make_survey.py:1325 and 1334: distance of a candidate. *)
Definition radial_candidate (distance : R -> R) (z0 z1 t : R) : R := cbrt (uniform (distance z0 ^ 3) (distance z1 ^ 3) t).
(** make_survey.py:1697-1702: right ascension and declination of a candidate. *)
Definition angular_candidate (rarange decrange : R * R) (t u : R) : R * R :=
  let r0 := if Rltb (snd rarange) (fst rarange) then fst rarange - 360 else fst rarange in
  let ra := Rmod (uniform r0 (snd rarange) t) 360 in
  let dec := asin (uniform (sin (fst decrange * PI / 180)) (sin (snd decrange * PI / 180)) u) / (PI / 180) in
  (ra, dec).
