(** Seeds of the random functions of make_survey.py: masks called on columns (1226-1243), sampling (1302-1354, 1674-1722), smearing (1899-1917).
    Sample_Model.v takes the numbers drawn as an argument; here they come from the seed. Definitions only.
    The generator of mpytools is an argument: [stream s i] is the number of row [i], counted over all processes, in the stream of seed [s]
    (that rows are counted over all processes is what mpytools.random.MPIRandomState is for). A call without seed takes one from the machine:
    [entropy n] is the n-th taken in this run. *)
Require Import Reals ZArith List Bool.
From Verif Require Import Base Mask_Model Sample_Model.
Import ListNotations.
Open Scope R_scope.

(** Rows of process [rank], counted over all processes. *)
Definition rows (sizes : list nat) (rank : nat) : list nat := seq (offset_of sizes rank) (nth rank sizes O).
(** Seed of a call; [n] is the number of seeds taken before. *)
Definition seed_of (entropy : nat -> Z) (n : nat) (seed : option Z) : Z := match seed with Some s => s | None => entropy n end.

(** make_survey.py:1226-1243 [BaseMask.__call__] on process [rank]; [prob] are the probabilities of its rows. *)
Definition call_mask (stream : Z -> nat -> R) (entropy : nat -> Z) (n : nat) (seed : option Z) (sizes : list nat) (rank : nat) (prob : list R) : list bool :=
  mask_call prob (map (stream (seed_of entropy n seed)) (rows sizes rank)).

(** make_survey.py:1341-1343 and 1708-1710: seed of round [k]; [next] is mpytools' bcast_seed with a seed given. Without seed the first one is taken
    from the machine, before those of the masks. *)
Fixpoint round_seed (next : Z -> Z) (first : Z) (k : nat) : Z := match k with O => (first + 1)%Z | S k => (next (round_seed next first k) + 1)%Z end.
Definition first_seed (next : Z -> Z) (entropy : nat -> Z) (seed : option Z) : Z := match seed with Some s => next s | None => entropy O end.
(** make_survey.py:1327-1338 and 1695-1705: candidates of a process ([cand s i] is made of the numbers of row [i] in the stream of [s]), and the numbers
    of the mask, which is called without seed (lines 1336 and 1703). *)
Definition round_draws {A} (cand : Z -> nat -> A) (stream : Z -> nat -> R) (next : Z -> Z) (entropy : nat -> Z) (seed : option Z) (sizes : list nat) (k rank : nat) : list (A * R) :=
  let taken := match seed with Some _ => k | None => S k end in
  map (fun i => (cand (round_seed next (first_seed next entropy seed) k) i, stream (seed_of entropy taken None) i)) (rows sizes rank).
(** [BaseRadialMask.sample], [BaseAngularMask.sample]. *)
Definition seeded_sample {A} (prob : A -> R) (cand : Z -> nat -> A) (stream : Z -> nat -> R) (next : Z -> Z) (entropy : nat -> Z) (seed : option Z) (fuel : nat) (sizes : list nat) : result (list (list A)) :=
  sample prob (round_draws cand stream next entropy seed sizes) fuel sizes.
