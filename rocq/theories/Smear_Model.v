(** Model of redshift smearing: Base2DRedshiftSmearing (make_survey.py:1859-1944), TabulatedPDF2DRedshiftSmearing (1947-1984) and
    RVS2DRedshiftSmearing (1987-2071). Two-dimensional arrays (dz, z) are lists of columns, one per redshift. The cubic spline
    [spline3 x y] is scipy's UnivariateSpline(x, y, k=3, s=0). Broadcasting over processes (lines 1975-1977, 2024) changes nothing. *)
Require Import Reals ZArith List Bool.
From Verif Require Import Base Cutsky_Model Box_Model Mask_Model Sample_Model.
Import ListNotations.
Open Scope R_scope.

(** Floats with infinities, where the code uses them. *)
Inductive ext : Type := Fin (x : R) | PInf | MInf | NaN.

(** np.linspace(a, b, n). *)
Definition linspace (a b : R) (n : nat) : list R := map (fun i => a + (b - a) * (INR i / INR (n - 1))) (seq 0 n).

(** np.pad(l[mask], 1, constant_values=(a, b)). *)
Definition padded (mask : list bool) (l : list R) (a b : R) : list R := a :: select_by mask l ++ [b].

(** The object: dz and cdf (columns), redshifts, and the splines of the columns of RectBivariateSpline(u, z, ppf, kx=3, ky=1). *)
Record smear : Type := Smear { m_dz : list (list R); m_z : list R; m_cdf : list (list R); m_table : list (list R); m_spline : list (R -> R);
  m_support : R -> ext; m_transform : R -> ext -> ext }.

(** make_survey.py:1878-1886, one column. 1e-12 is 10^-12. *)
Definition tiny : R := / 1000000000000.
Definition ppf_column (spline3 : list R -> list R -> result (R -> R)) (u dz cdf : list R) : result (list R) :=
  let mask := map (fun c => Rltb tiny c && Rltb c (1 - tiny)) cdf in
  let dz := padded mask dz (hd 0 dz) (last dz 0) in
  let cdf := padded mask cdf 0 1 in
  do f <- spline3 cdf dz;
  Ok (map (fun x => Rclip (f x) (hd 0 dz) (last dz 0)) u).
(** make_survey.py:1878-1887 [_set_interp]. The bivariate spline of degrees 3 and 1 that passes through the points is, in u, the cubic
    spline of each column; it needs two redshifts at least, in increasing order. *)
Definition set_interp (spline3 : list R -> list R -> result (R -> R)) (m : smear) : result smear :=
  let u := linspace 0 1 (length (hd [] (m_dz m))) in
  do table <- map_result (fun c => ppf_column spline3 u (fst c) (snd c)) (combine (m_dz m) (m_cdf m));
  do splines <- map_result (spline3 u) table;
  if Nat.leb 2 (length (m_z m)) && Nat.eqb (length (m_z m)) (length table) && increasing (m_z m) then
    Ok (Smear (m_dz m) (m_z m) (m_cdf m) table splines (m_support m) (m_transform m))
  else Err ValueError.

(** make_survey.py:1889-1893 [ppf], on one object: linear in z between tabulated redshifts, constant outside. [sample], lines 1899-1919,
    is this with a random number u per object. *)
Definition interp_ppf (m : smear) (u z : R) : R := lin (m_z m) (map (fun f => f u) (m_spline m)) (Rclip z (hd 0 (m_z m)) (last (m_z m) 0)).
Definition ppf (m : smear) (u z : R) : ext := m_transform m z (m_support m (interp_ppf m u z)).

(** np.cumsum. *)
Fixpoint cumsum_from (s : R) (l : list R) : list R := match l with [] => [] | x :: l => (s + x) :: cumsum_from (s + x) l end.
Definition cumsum (l : list R) : list R := cumsum_from 0 l.

(** make_survey.py:1978-1979, one column. *)
Definition normalized_cdf (pdf : list R) : result (list R) :=
  let cdf := cumsum pdf in map_result (fun c => fdiv (c - hd 0 cdf) (last cdf 0 - hd 0 cdf)) cdf.
(** make_survey.py:1980: rows where all columns are inside of (0, 1). *)
Definition row_inside (cdfs : list (list R)) (i : nat) : bool := forallb (fun c => Rltb 0 (nth i c 0) && Rltb (nth i c 0) 1) cdfs.

(** make_survey.py:1947-1984 [TabulatedPDF2DRedshiftSmearing.__init__], for one-dimensional dz. (A two-dimensional dz, that the
    documentation mentions, is padded on both axes because line 1981 tests the dimension of z: not modelled.) An index array of another
    length is an IndexError; so is cdf[0] for an empty array. *)
Definition tabulated_smear (spline3 : list R -> list R -> result (R -> R)) (dz z : list R) (pdf : list (list R)) (transform : R -> ext -> ext) : result smear :=
  if forallb (fun c => Nat.eqb (length c) (length dz)) pdf && Nat.leb 1 (length dz) then
    do cdfs <- map_result normalized_cdf pdf;
    let mask := map (row_inside cdfs) (seq 0 (length dz)) in
    let dz := padded mask dz (hd 0 dz) (last dz 0) in
    let cdfs := map (fun c => padded mask c 0 1) cdfs in
    set_interp spline3 (Smear (map (fun _ => dz) cdfs) z cdfs [] [] Fin transform)
  else Err IndexError.

(** np.allclose on floats: |a - b| <= 1e-8 + 1e-5 |b|. Arrays of other lengths do not broadcast. *)
Definition close (a b : R) : bool := Rleb (Rabs (a - b)) (/ 100000000 + / 100000 * Rabs b).
Definition close_ext (a b : ext) : bool :=
  match a, b with Fin a, Fin b => close a b | PInf, PInf => true | MInf, MInf => true | _, _ => false end.
Definition allclose {A} (c : A -> A -> bool) (a b : list A) : bool := Nat.eqb (length a) (length b) && forallb (fun x => c (fst x) (snd x)) (combine a b).
Definition interior (l : list R) : list R := removelast (tl l).
Definition same_tables (new other : smear) : bool :=
  allclose (allclose close) (m_dz other) (m_dz new) &&
  allclose close_ext (flat_map (fun d => map (m_support other) (interior d)) (m_dz other)) (flat_map (fun d => map (m_support new) (interior d)) (m_dz new)) &&
  let grid := flat_map (fun z => map (pair z) (concat (m_dz new))) (m_z new) in
  allclose close_ext (map (fun x => m_transform other (fst x) (Fin (snd x))) grid) (map (fun x => m_transform new (fst x) (Fin (snd x))) grid).

(** make_survey.py:1921-1944 [average]. [weights]: one list per smearing, with one weight per redshift (a number is repeated; ones by
    default). The weights are divided by their sum over smearings. *)
Definition default_weights (others : list smear) : list (list R) := map (fun o => map (fun _ => 1) (m_cdf o)) others.
Definition weight_sums (n : nat) (weights : list (list R)) : list R := map (fun j => Rsum (map (fun w => nth j w 0) weights)) (seq 0 n).
Definition mean_cdf (cdfs : list (list (list R))) (weights : list (list R)) (sums : list R) (j i : nat) : R :=
  Rsum (map (fun x => nth i (nth j (fst x) []) 0 * (nth j (snd x) 0 / nth j sums 0)) (combine cdfs weights)).
Definition average (spline3 : list R -> list R -> result (R -> R)) (others : list smear) (weights : option (list (list R))) : result smear :=
  match others with
  | [] => Err IndexError
  | new :: _ =>
    let weights := match weights with Some w => w | None => default_weights others end in
    let sums := weight_sums (length (m_cdf new)) weights in
    if existsb (fun s => Reqb s 0) sums then Err ZeroDivision else
    if forallb (same_tables new) others then
      let cdf := map (fun j => map (mean_cdf (map m_cdf others) weights sums j) (seq 0 (length (nth j (m_cdf new) [])))) (seq 0 (length (m_cdf new))) in
      set_interp spline3 (Smear (m_dz new) (m_z new) cdf [] [] (m_support new) (m_transform new))
    else Err ValueError
  end.

(** A scipy.stats distribution. *)
Record rv : Type := RV { rv_low : ext; rv_high : ext; rv_cdf : ext -> R; rv_ppf : R -> ext }.
Definition is_finite (x : ext) : bool := match x with Fin _ => true | _ => false end.
Definition fin (x : ext) : R := match x with Fin x => x | _ => 0 end.
(** np.log with log(0) = -inf; np.arctanh with its limits. *)
Definition log_ext (x : R) : ext := if Rlt_dec 0 x then Fin (ln x) else if Req_EM_T x 0 then MInf else NaN.
Definition atanh_ext (x : R) : ext :=
  if Req_EM_T x 1 then PInf else if Req_EM_T x (-1) then MInf else
  if Rlt_dec (Rabs x) 1 then Fin (1 / 2 * ln ((1 + x) / (1 - x))) else NaN.
Definition scale_ext (s : R) (x : ext) : ext :=
  match x with
  | Fin x => Fin (s * x)
  | PInf => if Rlt_dec 0 s then PInf else if Rlt_dec s 0 then MInf else NaN
  | MInf => if Rlt_dec 0 s then MInf else if Rlt_dec s 0 then PInf else NaN
  | NaN => NaN
  end.
(** Argument dzscale. *)
Inductive scale : Type := ByPpf | ByScale (s : R).

(** make_survey.py:2025-2066: dz and u (columns) and the transform of the support. [same] is np.allclose(dzranges, dzranges[0]); one
    column is repeated when dz is one-dimensional. Line 2066 sets only the first of the entries, and in two dimensions lines 2057 and
    2066 select redshifts, not entries of dz. *)
Definition rvs_table (rvs : list rv) (n : nat) (s : scale) (same : bool) : result (list (list R) * list (list ext) * (R -> ext)) :=
  match rvs with
  | [] => Err IndexError
  | rv0 :: _ =>
    let col f := map (fun r => if same then f rv0 else f r) rvs in
    if forallb (fun r => is_finite (rv_low r) && is_finite (rv_high r)) rvs then
      let dz := col (fun r => linspace (fin (rv_low r)) (fin (rv_high r)) n) in
      Ok (dz, map (map Fin) dz, Fin)
    else
      let lowinf := negb (is_finite (rv_low rv0)) in
      let upinf := negb (is_finite (rv_high rv0)) in
      if forallb (fun r => Bool.eqb (negb (is_finite (rv_low r))) lowinf && Bool.eqb (negb (is_finite (rv_high r))) upinf) rvs then
        match s with
        | ByPpf =>
          let dz := map (fun _ => linspace 0 1 n) rvs in
          if same then Ok (dz, map (map (rv_ppf rv0)) dz, rv_ppf rv0) else Err ValueError
        | ByScale s =>
          if lowinf && upinf then
            let support x := scale_ext s (atanh_ext (2 * x - 1)) in
            let dz := map (fun _ => linspace 0 1 n) rvs in
            let u d := match n with O => [] | 1%nat => [MInf] | _ => MInf :: map support (interior d) ++ [PInf] end in
            Ok (dz, map u dz, support)
          else if lowinf then
            let support x := scale_ext s (log_ext x) in
            let dz := col (fun r => linspace 0 (exp (fin (rv_high r) / s)) n) in
            let u := if same then map (fun d => match d with [] => [] | _ :: d => MInf :: map support d end) dz
                     else match dz with [] => [] | d :: dz => map (fun _ => MInf) d :: map (map support) dz end in
            Ok (dz, u, support)
          else
            let support x := scale_ext (- s) (log_ext x) in
            let dz := col (fun r => linspace (exp (- fin (rv_low r) / s)) 0 n) in
            let u := if same then map (fun d => match d with [] => [] | x :: d => support x :: map (fun _ => PInf) d end) dz
                     else match dz with [] => [] | d :: dz => map support d :: map (map (fun _ => PInf)) dz end in
            Ok (dz, u, support)
        end
      else Err ValueError
  end.

(** make_survey.py:2022-2071 [RVS2DRedshiftSmearing.__init__]. *)
Definition rvs_smear (spline3 : list R -> list R -> result (R -> R)) (z : list R) (rvs : list rv) (n : nat) (s : scale) (same : bool) (transform : R -> ext -> ext) : result smear :=
  do t <- rvs_table rvs n s same;
  let '(dz, u, support) := t in
  set_interp spline3 (Smear dz z (map (fun x => map (rv_cdf (fst x)) (snd x)) (combine rvs u)) [] [] support transform).
