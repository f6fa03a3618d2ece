(** What the selection functions are for, independent of the model. *)
Require Import Reals List.
From Verif Require Import Base.
Import ListNotations.
Open Scope R_scope.

(** [ra] lies, modulo 360 degrees, on the arc going up from [lo] to [hi]. If [lo < hi] the arc is as long as [hi - lo]; otherwise
    it goes up from [lo] to the first angle equal to [hi] modulo 360. *)
Definition on_arc (lo hi ra : R) : Prop :=
  (lo < hi /\ exists k : Z, lo <= ra + 360 * IZR k <= hi) \/
  (hi <= lo /\ exists j k : Z, lo <= hi + 360 * IZR j < lo + 360 /\ lo <= ra + 360 * IZR k <= hi + 360 * IZR j).

(** The redshift range is closed; no upper limit means infinity. *)
Definition inside (lo : R) (hi : option R) (z : R) : Prop := lo <= z /\ match hi with Some h => z <= h | None => True end.

(** Volume between two redshifts, up to a common factor. *)
Definition shell_volume (distance : R -> R) (z1 z2 : R) : R := distance z2 ^ 3 - distance z1 ^ 3.

(** Weighted mean of the values of a function on a sample. *)
Definition weighted_mean (p : R -> R) (z w : list R) : R := Rsum (map (fun x => p (fst x) * snd x) (combine z w)) / Rsum w.
Definition mean (p : R -> R) (z : list R) : R := Rsum (map p z) / INR (length z).

(** Contract of scipy.optimize.brentq on [a, b]: what it returns is a root; it finds one when the function is continuous and
    changes sign; it raises ValueError when the signs at both ends are the same, and passes on the error of the function at [a]. *)
Definition root_finder (brentq : (R -> result R) -> R -> R -> result R) : Prop :=
  forall f a b, a < b ->
    (forall x, brentq f a b = Ok x -> a <= x <= b /\ f x = Ok 0) /\
    (forall e, f a = Err e -> brentq f a b = Err e) /\
    forall g, (forall x, a <= x <= b -> f x = Ok (g x)) -> continuity g ->
      (g a * g b <= 0 -> exists x, brentq f a b = Ok x) /\ (0 < g a * g b -> brentq f a b = Err ValueError).

(** The entries of a column for the objects labelled [k], in order. *)
Definition rows_of {A} (k : Z) (chunk : list Z) (l : list A) : list A := map snd (filter (fun x => Z.eqb (fst x) k) (combine chunk l)).

(** A selection function that treats each object on its own: [p] gives the probability of an object from its row. *)
Definition rowwise (f : list (list R) -> result (list R)) (p : list R -> R) : Prop :=
  forall n cols, cols <> [] -> Forall (fun c => length c = n) cols ->
    exists out, f cols = Ok out /\ length out = n /\ forall i, (i < n)%nat -> nth i out 0 = p (map (fun c => nth i c 0) cols).

(** Ranges written downwards, such as (300, 40); ordered ranges inside one turn; the whole circle. *)
Definition plain_range (lo hi : R) : Prop :=
  hi <= lo \/ (exists k : Z, 360 * IZR k <= lo /\ hi < 360 * (IZR k + 1)) \/ (exists k : Z, lo = 360 * IZR k /\ hi = lo + 360).
