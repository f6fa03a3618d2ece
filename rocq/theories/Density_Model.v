(** Model of RedshiftDensityInterpolator (make_survey.py:423-522). Objects are pairs (redshift, weight), one list per process; the
    weight is 1 when no weights are given. Scattering the input from one process (lines 481-485) only changes the lists. *)
Require Import Reals ZArith List Bool.
From Verif Require Import Base Cutsky_Model Box_Model Remap_Model Sample_Model.
Import ListNotations.
Open Scope R_scope.

(** Argument bins: None or 'scott', an integer, or edges. *)
Inductive binning : Type := Scott | Equal (n : Z) | Edges (e : list R).

(** make_survey.py:487-488: smallest and largest redshift of all processes; the reduction of an empty array is an error. *)
Definition redshift_range (z : list R) : result (R * R) := match z with [] => Err ValueError | _ => Ok (list_min z, list_max z) end.

(** make_survey.py:490-498. [cvar] is mpytools.cvar with ddof=1, of the objects of all processes. Line 492 calls mpytools.csize
    without a communicator: it counts the objects of the current communicator, [elsewhere] of which belong to processes that are not
    in the communicator of this object. A zero step divides by zero. *)
Definition scott_edges (cvar : list (R * R) -> result R) (elsewhere : nat) (all : list (R * R)) : result (list R) :=
  let size := (length all + elsewhere)%nat in
  do var <- cvar all;
  let sigma := sqrt var in
  let dx := sigma * cbrt (24 * sqrt PI / INR size) in
  do r <- redshift_range (map fst all);
  let '(minval, maxval) := r in
  do n <- fdiv ((maxval - minval) * 1) dx;
  let nbins := Z.max 1 (Rceil n) in
  Ok (map (fun k => minval + dx * IZR k) (arange 0 (nbins + 1))).

(** make_survey.py:500-501: np.linspace(min, max, bins + 1). Without any bin the spline of line 518 raises. *)
Definition equal_edges (n : Z) (all : list (R * R)) : result (list R) :=
  do r <- redshift_range (map fst all);
  let '(minval, maxval) := r in
  if (n <? 1)%Z then Err ValueError else Ok (map (fun k => minval + (maxval - minval) / IZR n * IZR k) (arange 0 (n + 1))).

Definition bin_edges cvar elsewhere (b : binning) (all : list (R * R)) : result (list R) :=
  match b with
  | Scott => scott_edges cvar elsewhere all
  | Equal n => equal_edges n all
  | Edges e => Ok e
  end.

(** numpy.histogram, with edges: cumulated weights below each edge, the last one included (numpy/lib/histograms.py, searchsorted),
    and differences of them. Edges must not decrease. *)
Fixpoint not_decreasing (e : list R) : bool :=
  match e with
  | a :: ((b :: _) as t) => Rleb a b && not_decreasing t
  | _ => true
  end.
Definition below (objs : list (R * R)) (x : R) : R := Rsum (map snd (filter (fun o => Rltb (fst o) x) objs)).
Definition upto (objs : list (R * R)) (x : R) : R := Rsum (map snd (filter (fun o => Rleb (fst o) x) objs)).
Fixpoint cumulated (objs : list (R * R)) (e : list R) : list R :=
  match e with
  | [] => []
  | [a] => [upto objs a]
  | a :: t => below objs a :: cumulated objs t
  end.
Fixpoint diff (l : list R) : list R :=
  match l with
  | a :: ((b :: _) as t) => (b - a) :: diff t
  | _ => []
  end.
Definition histogram (objs : list (R * R)) (e : list R) : result (list R) :=
  if not_decreasing e then Ok (diff (cumulated objs e)) else Err ValueError.

(** make_survey.py:505: sum over processes. *)
Definition reduce_sum (n : nat) (l : list (list R)) : list R := fold_right (zip_with Rplus) (repeat 0 n) l.

(** make_survey.py:507-516. *)
Definition volumes (fsky : option R) (distance : option (R -> R)) (e : list R) : list R :=
  let dbins := match distance with Some d => map d e | None => e end in
  match fsky with
  | None => repeat 1 (length e - 1)
  | Some f => map (fun v => f * 4 / 3 * PI * v) (diff (map (fun d => d ^ 3) dbins))
  end.
Fixpoint centres (e : list R) : list R :=
  match e with
  | a :: ((b :: _) as t) => ((a + b) / 2) :: centres t
  | _ => []
  end.

Record density : Type := Density { d_edges : list R; d_z : list R; d_nbar : list R; d_interp : R -> R }.

(** make_survey.py:503-518. [spline k z y] is scipy.interpolate.UnivariateSpline(z, y, k=k, s=0, ext='zeros'). *)
Definition new_density (cvar : list (R * R) -> result R) (spline : nat -> list R -> list R -> result (R -> R)) (elsewhere : nat)
    (objs : list (list (R * R))) (b : binning) (fsky : option R) (distance : option (R -> R)) (order : nat) : result density :=
  do e <- bin_edges cvar elsewhere b (concat objs);
  do parts <- map_result (fun o => histogram o e) objs;
  let counts := reduce_sum (length e - 1) parts in
  do nbar <- map_result (fun x => fdiv (fst x) (snd x)) (combine counts (volumes fsky distance e));
  do f <- spline order (centres e) nbar;
  Ok (Density e (centres e) nbar f).
