(** Model of TabulatedRadialMask (mockfactory/make_survey.py:1375-1508) for every interpolation order; Mask_Model.v has order 1 only. Definitions only.
    scipy's splines are an argument. *)
Require Import Reals ZArith List Bool.
From Verif Require Import Base Cutsky_Model Box_Model Remap_Model Mask_Model Smear_Model.
Import ListNotations.
Open Scope R_scope.

(** scipy UnivariateSpline(z, y, k, s=0, ext='zeros'): the function and its first two derivatives, all zero outside of the table. *)
Record spline : Type := Spline { value : R -> R; slope : R -> R; curvature : R -> R }.
Definition maker : Type := nat -> list R -> list R -> result spline.
(** Attributes of the mask. *)
Record smask : Type := SMask { s_z : list R; s_nbar : list R; s_lo : R; s_hi : R; s_order : nat; s_norm : R; s_interp : spline }.
(** make_survey.py:1491-1496 [_set_interp]. *)
Definition set_interp (make : maker) (z nbar : list R) (order : nat) (norm : option R) : result spline :=
  make order z (match norm with Some n => map (fun b => Rmin (n * b) 1) nbar | None => nbar end).

(** make_survey.py:1459-1466 [solve_newton]; None is NaN. [fuel] bounds the number of turns of the loop, which has no bound in the code. A division
    by zero in the loop is NaN here (0 / 0 is; others are infinite in numpy). *)
Definition newton_step (f g : R -> R) (x : option R) : option R :=
  match x with
  | None => None
  | Some x => if Req_EM_T (g x) 0 then None else Some (x - f x / g x)
  end.
Fixpoint newton_loop (fuel : nat) (f g : R -> R) (crit : R -> R -> bool) (x xnew : option R) : result R :=
  match x, xnew, fuel with
  | Some a, Some b, _ =>
    if crit a b then Ok a
    else match fuel with O => Err OutOfFuel | S fuel => newton_loop fuel f g crit xnew (newton_step f g xnew) end
  | _, _, O => Err OutOfFuel
  | _, _, S fuel => newton_loop fuel f g crit xnew (newton_step f g xnew)
  end.
(** Lines 1460-1462: the first step, brought back to the range; an infinite step (numpy's division by zero) goes to a limit of the range. *)
Definition solve_newton (fuel : nat) (lo hi : R) (f g : R -> R) (crit : R -> R -> bool) (x : R) : result R :=
  let clip t := Rmin (Rmax t lo) hi in
  let xnew := if Req_EM_T (g x) 0 then (if Req_EM_T (f x) 0 then None else Some (if Rltb 0 (f x) then clip lo else clip hi)) else Some (clip (x - f x / g x)) in
  newton_loop fuel f g crit (Some x) xnew.

(** np.argmax: index of the first maximum. *)
Fixpoint argmax_from (l : list R) (i best : nat) (m : R) : nat :=
  match l with [] => best | a :: l => if Rltb m a then argmax_from l (S i) i a else argmax_from l (S i) best m end.
Definition argmax (l : list R) : nat := match l with [] => O | a :: l => argmax_from l 1 0 a end.
(** np.allclose(l, a), default tolerances. *)
Definition allclose (l : list R) (a : R) : bool := forallb (fun x => Rleb (Rabs (x - a)) (1 / 10 ^ 8 + 1 / 10 ^ 5 * Rabs a)) l.

(** make_survey.py:1468-1485: maximum of the density. *)
Definition search_max (fuel : nat) (lo hi : R) (z : list R) (order : nat) (s : spline) : result R :=
  let grid := linspace (hd 0 z) (last z 0) (length z * order) in
  let nz := map (value s) grid in
  let i := argmax nz in
  do nbar_max <-
    (if allclose nz (hd 0 nz) then Ok (nth i nz 0)
     else
       let prec := 1 / 10 ^ 6 * (nth i nz 0 - list_min nz) in
       let crit x xnew := Rltb (Rabs (value s xnew - value s x)) prec in
       do x <- solve_newton fuel lo hi (slope s) (curvature s) crit (nth i grid 0);
       Ok (value s x));
  if existsb (fun v => Rltb nbar_max v) nz then Err ValueError else Ok nbar_max.

(** make_survey.py:1429-1489 [prepare]: splines of order 1 have no second derivative (lines 1454-1456). *)
Definition default_norm (make : maker) (fuel : nat) (z nbar : list R) (lo hi : R) (order : nat) : result R :=
  do s <- set_interp make z nbar order None;
  match order with
  | 1%nat =>
    match select_by (map (Mask_Model.between lo hi) z) nbar with
    | [] => Err ValueError
    | l => fdiv 1 (Rmax (Rmax (list_max l) (value s lo)) (value s hi))
    end
  | _ => do m <- search_max fuel lo hi z order s; fdiv 1 m
  end.
Definition s_prepare (make : maker) (fuel : nat) (z nbar : list R) (lo hi : R) (order : nat) (norm : option R) : result smask :=
  do n <- match norm with Some n => Ok n | None => default_norm make fuel z nbar lo hi order end;
  do s <- set_interp make z nbar order (Some n);
  Ok (SMask z nbar lo hi order n s).
(** make_survey.py:1380-1427 [__init__], z and nbar given. *)
Definition smask_new (make : maker) (fuel : nat) (z nbar : list R) (range : option (R * R)) (norm : option R) (order : nat) : result smask :=
  if forallb (fun b => Rleb 0 b) nbar then
    match z with
    | [] => Err IndexError
    | zmin :: _ =>
      let zmax := last z 0 in
      let '(lo, hi) := match range with Some r => r | None => (zmin, zmax) end in
      if Rleb zmin lo && Rleb hi zmax then s_prepare make fuel z nbar lo hi order norm else Err ValueError
    end
  else Err ValueError.
(** make_survey.py:1503-1508 [prob], on one row. *)
Definition smask_prob (m : smask) (z : R) : R := if Mask_Model.between (s_lo m) (s_hi m) z then value (s_interp m) z else 0.
