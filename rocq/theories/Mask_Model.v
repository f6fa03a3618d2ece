(** Model of the selection functions of mockfactory/make_survey.py: BaseMask (1200-1243), MaskCollection (1246-1277), radial masks
    (1280-1298, 1357-1624) and angular masks (1627-1672, 1725-1856), except sampling. Arrays are lists; arrays scattered over processes are
    given as their concatenation, as every function used here is either row by row or a global sum. *)
Require Import Reals ZArith List Bool.
From Verif Require Import Base Vec3 Sky_Model Cutsky_Model Box_Model Remap_Model.
Import ListNotations.
Open Scope R_scope.

(** make_survey.py:1243: [prob >= rng.uniform(0, 1)]; [u] is the stream of uniform numbers, one per object. *)
Definition mask_call (prob u : list R) : list bool := map (fun x => Rleb (snd x) (fst x)) (combine prob u).

(** Redshift range; the upper limit may be infinite (make_survey.py:1298). *)
Definition zrange : Type := (R * option R)%type.
Definition in_zrange (r : zrange) (z : R) : bool := Rleb (fst r) z && match snd r with Some h => Rleb z h | None => true end.

(** make_survey.py:1286-1300 [BaseRadialMask.__init__]. *)
Definition radial_zrange (r : option zrange) : zrange := match r with Some r => r | None => (0, None) end.

(** make_survey.py:1366-1372 [UniformRadialMask.prob], on one row. *)
Definition uniform_radial_prob (nbar : R) (r : zrange) (z : R) : R :=
  let prob := Rclip nbar 0 1 * 1 in
  if in_zrange r z then prob else 0.

(** make_survey.py:1251-1277 [MaskCollection.prob]. Labels are integers. [prob_k] is the method prob of the mask with label k,
    which takes the other columns. Line 1276 assigns to the rows of the chunk: the values must be as many, or one. *)
Fixpoint select_by {A} (mask : list bool) (l : list A) : list A :=
  match mask, l with
  | b :: mask, a :: l => if b then a :: select_by mask l else select_by mask l
  | _, _ => []
  end.
Fixpoint assign (mask : list bool) (old new : list R) : list R :=
  match mask, old with
  | b :: mask, a :: old =>
    if b then match new with v :: new => v :: assign mask old new | [] => a :: assign mask old [] end
    else a :: assign mask old new
  | _, _ => old
  end.
Definition assign_result (mask : list bool) (old new : list R) : result (list R) :=
  let n := length (filter (fun b => b) mask) in
  if Nat.eqb (length new) n then Ok (assign mask old new)
  else match new with [v] => Ok (assign mask old (repeat v n)) | _ => Err ValueError end.
Definition collection_step (args : list (list R)) (chunk : list Z) (prob : list R) (item : Z * (list (list R) -> result (list R))) : result (list R) :=
  let mask := map (fun c => Z.eqb c (fst item)) chunk in
  if existsb (fun b => b) mask then
    do new <- snd item (map (select_by mask) args);
    assign_result mask prob new
  else Ok prob.
Definition collection_prob (masks : list (Z * (list (list R) -> result (list R)))) (chunk : list Z) (args : list (list R)) : result (list R) :=
  fold_left (fun p item => do p <- p; collection_step args chunk p item) masks (Ok (repeat 1 (length chunk))).

(** scipy UnivariateSpline(z, y, k=1, s=0, ext='zeros'): linear interpolation, zero outside of the table. It needs as many
    values as points, at least two points, in increasing order. *)
Fixpoint lin (z y : list R) (x : R) : R :=
  match z, y with
  | z0 :: ((z1 :: _) as z), y0 :: ((y1 :: _) as y) =>
    if Rltb x z0 then 0 else if Rleb x z1 then y0 + (y1 - y0) * ((x - z0) / (z1 - z0)) else lin z y x
  | _, _ => 0
  end.
Fixpoint increasing (z : list R) : bool :=
  match z with
  | a :: ((b :: _) as t) => Rltb a b && increasing t
  | _ => true
  end.
Definition lin_spline (z y : list R) : result (R -> R) :=
  if Nat.eqb (length z) (length y) && Nat.leb 2 (length z) && increasing z then Ok (lin z y) else Err ValueError.

(** TabulatedRadialMask with interp_order = 1: attributes z, nbar, zrange, norm. Other orders are not modelled (splines, Newton
    search of the maximum). *)
Record tmask : Type := TMask { t_z : list R; t_nbar : list R; t_lo : R; t_hi : R; t_norm : option R }.

(** make_survey.py:1491-1496 [_set_interp]. *)
Definition knots (m : tmask) : list R :=
  match t_norm m with Some n => map (fun b => Rmin (n * b) 1) (t_nbar m) | None => t_nbar m end.
Definition t_interp (m : tmask) : result (R -> R) := lin_spline (t_z m) (knots m).

(** make_survey.py:1498-1501 [zmask]. *)
Definition between (lo hi x : R) : bool := Rleb lo x && Rleb x hi.
(** Boolean selection of an array by a mask computed on another of the same length. *)
Definition nbar_in_range (m : tmask) : list R := select_by (map (between (t_lo m) (t_hi m)) (t_z m)) (t_nbar m).

(** make_survey.py:1429-1489 [prepare], linear case: lines 1454-1456, where the second derivative raises. The max of an empty
    array is an error. *)
Definition prepare (m : tmask) (norm : option R) : result tmask :=
  do norm <- match norm with
             | Some n => Ok n
             | None =>
               let m := TMask (t_z m) (t_nbar m) (t_lo m) (t_hi m) None in
               do f <- t_interp m;
               match nbar_in_range m with
               | [] => Err ValueError
               | l => fdiv 1 (Rmax (Rmax (list_max l) (f (t_lo m))) (f (t_hi m)))
               end
             end;
  let m := TMask (t_z m) (t_nbar m) (t_lo m) (t_hi m) (Some norm) in
  do _ <- t_interp m;
  Ok m.

(** make_survey.py:1380-1427 [__init__], z and nbar given. *)
Definition tabulated_new (z nbar : list R) (range : option (R * R)) (norm : option R) : result tmask :=
  if forallb (fun b => Rleb 0 b) nbar then
    match z with
    | [] => Err IndexError
    | zmin :: _ =>
      let zmax := last z 0 in
      let '(lo, hi) := match range with Some r => r | None => (zmin, zmax) end in
      if Rleb zmin lo && Rleb hi zmax then prepare (TMask z nbar lo hi None) norm else Err ValueError
    end
  else Err ValueError.

(** make_survey.py:1503-1508 [prob], on one row. *)
Definition tabulated_prob (m : tmask) (z : R) : result R :=
  do f <- t_interp m;
  Ok (if between (t_lo m) (t_hi m) z then f z else 0).

(** make_survey.py:1510-1550 [integral] with a sample z (over all processes). *)
Definition csum_prob (m : tmask) (z w : list R) : result R :=
  do p <- map_result (tabulated_prob m) z;
  if Nat.eqb (length w) (length p) then Ok (Rsum (map (fun x => fst x * snd x) (combine p w))) else Err ValueError.
Definition integral (m : tmask) (z : list R) (weights : option (list R)) (normalize_weights : bool) : result R :=
  match weights with
  | None =>
    do w <- (if normalize_weights then fdiv 1 (INR (length z)) else Ok 1);
    csum_prob m z (repeat w (length z))
  | Some l =>
    do w <- (if normalize_weights then map_result (fun x => fdiv x (Rsum l)) l else Ok l);
    csum_prob m z w
  end.

(** make_survey.py:1552-1597 [normalize] with a sample z. [brentq] is scipy's; the function it is given raises if a row does. *)
Definition normalization (m : tmask) (target : R) (z : list R) (weights : option (list R)) (norm : R) : result R :=
  let m := TMask (t_z m) (t_nbar m) (t_lo m) (t_hi m) (Some norm) in
  do s <- integral m z weights false;
  do q <- fdiv s target;
  Ok (q - 1).
Definition normalize (brentq : (R -> result R) -> R -> R -> result R) (m : tmask) (target : R) (z : list R) (weights : option (list R)) : result tmask :=
  if Rleb 0 target && Rleb target 1 then
    do weights <- match weights with
                  | Some l => do w <- map_result (fun x => fdiv x (Rsum l)) l; Ok (Some w)
                  | None => Ok None
                  end;
    match filter (fun b => Rltb 0 b) (t_nbar m) with
    | [] => Err ValueError
    | l =>
      do norm <- brentq (normalization m target z weights) 0 (1 / list_min l);
      prepare m (Some norm)
    end
  else Err ValueError.

(** make_survey.py:1599-1624 [convert_to_cosmo]. Arrays of different lengths do not combine (the case of length one, which
    numpy would repeat, is left out: here it is an error). *)
Definition midpoints (z : list R) : list R := map (fun x => (fst x + snd x) / 2) (combine z (tl z)).
Definition default_zedges (z : list R) : list R := [hd 0 z] ++ midpoints z ++ [last z 0].
Definition shells (d : list R) : list R := map (fun x => snd x ^ 3 - fst x ^ 3) (combine d (tl d)).
Definition zip_result (f : R -> R -> result R) (a b : list R) : result (list R) :=
  if Nat.eqb (length a) (length b) then map_result (fun x => f (fst x) (snd x)) (combine a b) else Err ValueError.
Definition convert_to_cosmo (m : tmask) (distance_self distance_target : R -> R) (zedges : option (list R)) : result tmask :=
  let zedges := match zedges with Some e => e | None => default_zedges (t_z m) end in
  let volume_self := shells (map distance_self zedges) in
  let volume_target := shells (map distance_target zedges) in
  do a <- zip_result (fun x y => Ok (x * y)) (t_nbar m) volume_self;
  do nbar <- zip_result fdiv a volume_target;
  prepare (TMask (t_z m) nbar (t_lo m) (t_hi m) (t_norm m)) None.

(** make_survey.py:1648-1657 [BaseAngularMask.__init__]: rarange. *)
Definition angular_rarange (r : option (R * R)) : R * R :=
  match r with
  | None => (0, 360)
  | Some (lo, hi) =>
    let direct := Rltb lo hi in
    let a := wrap_angle true lo in
    let b := wrap_angle true hi in
    if direct && Rleb b a then (a, b + 360) else (a, b)
  end.
(** make_survey.py:1658-1661: decrange. *)
Definition angular_decrange (r : option (R * R)) : R * R := match r with None => (-90, 90) | Some r => r end.

(** make_survey.py:1665-1672 [_mask_ranges], on one row. *)
Definition mask_ranges (rarange decrange : R * R) (ra dec : R) : bool :=
  let mask := if Rleb (fst rarange) (snd rarange) then Rleb (fst rarange) ra && Rleb ra (snd rarange)
              else Rleb (fst rarange) ra || Rleb ra (snd rarange) in
  mask && (Rleb (fst decrange) dec && Rleb dec (snd decrange)).

(** make_survey.py:1734-1740 [UniformAngularMask.prob], on one row. *)
Definition uniform_angular_prob (nbar : R) (rarange decrange : option (R * R)) (ra dec : R) : R :=
  let ra := wrap_angle true ra in
  if mask_ranges (angular_rarange rarange) (angular_decrange decrange) ra dec then Rclip nbar 0 1 * 1 else 0.
(** make_survey.py:1774-1796 [MangleAngularMask.prob], on one row; [poly] is pymangle's polyid_and_weight (the test of the
    polygon number, line 1793, is overwritten by line 1794). *)
Definition mangle_prob (poly : R -> R -> Z * R) (rarange decrange : option (R * R)) (ra dec : R) : R :=
  let ra := wrap_angle true ra in
  if mask_ranges (angular_rarange rarange) (angular_decrange decrange) ra dec then snd (poly ra dec) else 0.
(** make_survey.py:1834-1856 [HealpixAngularMask.prob], on one row; [ang2pix] is healpy's; the map is a list. *)
Definition healpix_prob (ang2pix : R -> R -> nat) (nbar : list R) (rarange decrange : option (R * R)) (ra dec : R) : result R :=
  let ra := wrap_angle true ra in
  let theta := (- dec + 90) * PI / 180 in
  let phi := ra * PI / 180 in
  match nth_error nbar (ang2pix theta phi) with
  | None => Err IndexError
  | Some p => Ok (if mask_ranges (angular_rarange rarange) (angular_decrange decrange) ra dec then p else 0)
  end.
