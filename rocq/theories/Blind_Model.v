(** Model of blinding/catalog.py: blinded cosmologies and catalogs. Catalogs are the concatenation of the parts of all processes
    (mpytools' gather and scatter keep the order of rows), except in [shuffle_parts]. Rounding to a float type is left out. *)
Require Import Reals ZArith List Bool String.
From Verif Require Import Base Vec3 Isometry_Model Sky_Model Cutsky_Model Box_Model Rsd_Model Mock_Model.
Import ListNotations.
Open Scope R_scope.

(** What blinding/catalog.py reads of a cosmoprimo.Cosmology: h, the attributes Omega0_*, the methods Omega_*(z), the dictionary
    _derived, sigma8_z of matter and of velocities, the other attributes, and comoving_radial_distance. Suffixes of the Omega's are
    such as "_m". *)
Record cosmology : Type := Cosmology {
  c_h : R; c_omega0 : string -> result R; c_omega : string -> result (R -> R); c_derived : list (string * R);
  c_sigma8 : R -> R; c_fsigma8 : R -> R; c_attr : string -> result R; c_distance : R -> R }.

Fixpoint assoc {A} (name : string) (l : list (string * A)) : option A :=
  match l with
  | [] => None
  | (n, a) :: l => if String.eqb n name then Some a else assoc name l
  end.
(** dict.update with one item. *)
Fixpoint set_item {A} (name : string) (a : A) (l : list (string * A)) : list (string * A) :=
  match l with
  | [] => [(name, a)]
  | (n, b) :: l => if String.eqb n name then (n, a) :: l else (n, b) :: set_item name a l
  end.
Definition update {A} (l items : list (string * A)) : list (string * A) := fold_left (fun l x => set_item (fst x) (snd x) l) items l.

(** catalog.py:38-43. *)
Definition get_omega (c : cosmology) (suffix : string) (z : option R) : result R :=
  match z with
  | None => c_omega0 c suffix
  | Some z => do g <- c_omega c suffix; Ok (g z)
  end.
(** catalog.py:32-34 [check_z]. *)
Definition check_z (z : option R) : result R := match z with Some z => Ok z | None => Err ValueError end.
(** catalog.py:44-51, for the two names it is called with at line 53. *)
Definition get_sigma8 (c : cosmology) (name : string) (of : R -> R) (z : option R) : result R :=
  match assoc name (c_derived c) with
  | Some v => Ok v
  | None => do z <- check_z z; Ok (of z)
  end.
(** catalog.py:29-56 [_get_from_cosmo]. *)
Definition get_from_cosmo (c : cosmology) (name : string) (z : option R) : result R :=
  if String.prefix "omega" name then do o <- get_omega c (substring 5 (String.length name - 5) name) z; Ok (o * c_h c ^ 2) else
  if String.prefix "Omega" name then get_omega c (substring 5 (String.length name - 5) name) z else
  match assoc name (c_derived c) with
  | Some v => Ok v
  | None =>
    if String.eqb name "fsigma8" then get_sigma8 c name (c_fsigma8 c) z else
    if String.eqb name "sigma8" then get_sigma8 c name (c_sigma8 c) z else
    if String.eqb name "f" then
      do a <- get_sigma8 c "fsigma8" (c_fsigma8 c) z;
      do b <- get_sigma8 c "sigma8" (c_sigma8 c) z;
      fdiv a b
    else
    if String.eqb name "fnl" then Ok 0 else c_attr c name
  end.

(** catalog.py:84. *)
Definition default_params : list (string * R) := [("w0_fld", 5 / 100); ("wa_fld", 2 / 10); ("Omega_m", 2 / 100); ("f", 5 / 100); ("fnl", 10)]%string.
(** catalog.py:88-94: the loop; [u] are the numbers in [0, 1) drawn by the generator, from the one of rank [i]. *)
Fixpoint draw_params (c : cosmology) (u : nat -> R) (i : nat) (params : list (string * R)) (z : option R) : result (list (string * R) * list (string * R)) :=
  match params with
  | [] => Ok ([], [])
  | (name, sigma) :: params =>
    do value <- get_from_cosmo c name z;
    let tmp := value + 2 * sigma * (u i - 1 / 2) in
    do rest <- draw_params c u (S i) params z;
    let '(upd, derived) := rest in
    if (String.eqb name "f" || String.eqb name "fnl")%bool then Ok (upd, (name, tmp) :: derived) else Ok ((name, tmp) :: upd, derived)
  end.
(** catalog.py:59-97 [get_cosmo_blind]; [clone] is cosmoprimo's. *)
Definition get_cosmo_blind (clone : cosmology -> list (string * R) -> cosmology) (fid : cosmology) (u : nat -> R) (params : option (list (string * R))) (z : option R) : result cosmology :=
  let params := match params with Some p => p | None => default_params end in
  do drawn <- draw_params fid u 0 params z;
  let '(upd, derived) := drawn in
  let c := clone fid upd in
  Ok (Cosmology (c_h c) (c_omega0 c) (c_omega c) (update (c_derived c) derived) (c_sigma8 c) (c_fsigma8 c) (c_attr c) (c_distance c)).

(** Arrays given as positions: an array with two axes (type, second dimension, rows), or a list of arrays. *)
Inductive ftype : Type := Int | F4 | F8.
Definition floating (d : ftype) : bool := match d with Int => false | _ => true end.
Definition same_type (a b : ftype) : bool := match a, b with Int, Int | F4, F4 | F8, F8 => true | _, _ => false end.
Inductive parray : Type := Rows (d : ftype) (width : nat) (rows : list (list R)) | Cols (cols : list (ftype * list R)).
(** Iterating over an array gives its rows. *)
Definition as_columns (p : parray) : list (ftype * list R) := match p with Rows d _ rows => map (fun r => (d, r)) rows | Cols cols => cols end.
(** np.array of a list of arrays: they must have the same size, and the type is a common one. *)
Definition as_array (p : parray) : result (ftype * nat * list (list R)) :=
  match p with
  | Rows d w rows => Ok (d, w, rows)
  | Cols [] => Ok (F8, 0%nat, [])
  | Cols ((d, c) :: cols) =>
    if forallb (fun x : ftype * list R => Nat.eqb (List.length (snd x)) (List.length c)) cols then
      Ok (if forallb (fun x : ftype * list R => same_type (fst x) d) cols then d else F8, List.length c, c :: map snd cols)
    else Err ValueError
  end.
Definition row_vec (r : list R) : vec := V (nth 0 r 0) (nth 1 r 0) (nth 2 r 0).
Fixpoint zip3 {A} (f : R -> R -> R -> A) (a b c : list R) : list A :=
  match a, b, c with
  | x :: a, y :: b, z :: c => f x y z :: zip3 f a b c
  | _, _, _ => []
  end.
(** catalog.py:151-181 [__format_positions]; [dtype] is the type asked for, [distance] is cosmo.comoving_radial_distance. Errors are
    returned and raised as ValueError (line 193). *)
Definition format_positions (position_type : string) (dtype : option ftype) (distance : R -> R) (p : parray) : result (list vec) :=
  if String.eqb position_type "pos" then
    do a <- as_array p;
    let '(d, width, rows) := a in
    let d := match dtype with Some d => d | None => d end in
    if negb (floating d) then Err ValueError else
    if negb (Nat.eqb width 3) then Err ValueError else Ok (map row_vec rows)
  else
    let cols := map (fun x : ftype * list R => (match dtype with Some d => d | None => fst x end, snd x)) (as_columns p) in
    match cols with
    | [] => Err IndexError
    | (d, c) :: rest =>
      if negb (floating d) then Err ValueError else
      if negb (forallb (fun x : ftype * list R => Nat.eqb (List.length (snd x)) (List.length c) && same_type (fst x) d) rest) then Err ValueError else
      match rest with
      | [(_, c2); (_, c3)] =>
        if String.eqb position_type "rdd" then Ok (zip3 (fun ra dec dist => sky_to_cartesian true None (NFloat dist) (NFloat ra) (NFloat dec)) c c2 c3) else
        if String.eqb position_type "rdz" then Ok (zip3 (fun ra dec z => sky_to_cartesian true None (NFloat (distance z)) (NFloat ra) (NFloat dec)) c c2 c3) else
        if String.eqb position_type "xyz" then Ok (zip3 V c c2 c3) else Err ValueError
      | _ => Err ValueError
      end
    end.
(** utils.cartesian_to_sky on rows, columns (dist, ra, dec). *)
Definition sky_rows (pos : list vec) : result (list (R * R * R)) := map_result (cartesian_to_sky true) pos.
Definition sky_dist (s : R * R * R) : R := fst (fst s).
Definition sky_ra (s : R * R * R) : R := snd (fst s).
Definition sky_dec (s : R * R * R) : R := snd s.
(** catalog.py:220-235 [_format_output_positions]; [d2z] is DistanceToRedshift of cosmo.comoving_radial_distance, that raises out of range. *)
Definition format_output_positions (position_type : string) (d2z : R -> result R) (pos : list vec) : result parray :=
  if String.eqb position_type "rdz" then
    do s <- sky_rows pos;
    do z <- map_result d2z (map sky_dist s);
    Ok (Cols [(F8, map sky_ra s); (F8, map sky_dec s); (F8, z)])
  else if String.eqb position_type "rdd" then
    do s <- sky_rows pos;
    Ok (Cols [(F8, map sky_ra s); (F8, map sky_dec s); (F8, map sky_dist s)])
  else if String.eqb position_type "xyz" then Ok (Rows F8 (List.length pos) [map vx pos; map vy pos; map vz pos])
  else Ok (Rows F8 3 (map (fun p => [vx p; vy p; vz p]) pos)).

(** catalog.py:342-351 [ap]: one object. *)
Definition ap_one (rdz : bool) (d2z : R -> result R) (blind : R -> R) (p : vec) : result vec :=
  do s <- cartesian_to_sky true p;
  let dist := sky_dist s in
  do z <- if rdz then Ok dist else d2z dist;
  let blind_dist := blind z in
  Ok (V (vx p * blind_dist / dist) (vy p * blind_dist / dist) (vz p * blind_dist / dist)).
(** catalog.py:321-352 [ap]. *)
Definition ap (fid blind : cosmology) (d2z : (R -> R) -> R -> result R) (position_type : string) (dtype : option ftype) (p : parray) : result parray :=
  let rdz := String.eqb position_type "rdz" in
  do pos <- format_positions (if rdz then "rdd"%string else position_type) dtype (c_distance fid) p;
  do out <- map_result (ap_one rdz (d2z (c_distance fid)) (c_distance blind)) pos;
  format_output_positions position_type (d2z (c_distance fid)) out.

(** Boolean indexing, and assignment at a mask. *)
Fixpoint select {A} (mask : list bool) (l : list A) : list A :=
  match mask, l with
  | b :: mask, a :: l => if b then a :: select mask l else select mask l
  | _, _ => []
  end.
Fixpoint assign {A B} (f : A -> B -> result A) (mask : list bool) (values : list B) (l : list A) : result (list A) :=
  match mask, l with
  | true :: mask, a :: l =>
    match values with
    | v :: values => do a <- f a v; do l <- assign f mask values l; Ok (a :: l)
    | [] => Err ValueError
    end
  | false :: mask, a :: l => do l <- assign f mask values l; Ok (a :: l)
  | _, _ => Ok l
  end.
(** catalog.py:397-400. *)
Definition set_third (p : vec) (d : R) : result vec := Ok (V (vx p) (vy p) d).
Definition set_distance (p : vec) (d : R) : result vec := do r <- fdiv d (distance p); Ok (vscale r p).
(** mpy.scatter with sizes: consecutive chunks. *)
Fixpoint chunks {A} (sizes : list nat) (l : list A) : list (list A) :=
  match sizes with
  | [] => []
  | s :: sizes => firstn s l :: chunks sizes (skipn s l)
  end.
(** catalog.py:383-400: [parts] are the positions of each process, [u] the random numbers of each process, [permute] is rng.shuffle. *)
Definition shuffle_parts (isrdd : bool) (frac : R) (u : list (list R)) (permute : list R -> list R) (parts : list (list vec)) : result (list (list vec)) :=
  let masks := map (map (fun x => Rltb x frac)) u in
  let dist p := if isrdd then vz p else distance p in
  let masked := map (fun x => map dist (select (fst x) (snd x))) (combine masks parts) in
  let shuffled := chunks (map (@List.length R) masked) (permute (List.concat masked)) in
  map_result (fun x : list bool * list vec * list R => assign (if isrdd then set_third else set_distance) (fst (fst x)) (snd x) (snd (fst x))) (combine (combine masks parts) shuffled).
(** catalog.py:354-401 [shuffle], on one process. *)
Definition shuffle (fid blind : cosmology) (z : option R) (position_type : string) (dtype : option ftype) (u : list R) (permute : list R -> list R) (p : parray) : result parray :=
  let isrdd := (String.eqb position_type "rdd" || String.eqb position_type "rdz")%bool in
  let position_type := if isrdd then "xyz"%string else position_type in
  do pos <- format_positions position_type dtype (fun z => z) p;
  do f_blind <- get_from_cosmo blind "f" None;
  do f_fid <- get_from_cosmo fid "f" z;
  do ratio <- fdiv f_blind f_fid;
  let frac := ratio ^ 2 in
  if Rltb 1 frac then Err ValueError else
  do out <- shuffle_parts isrdd frac [u] permute [pos];
  format_output_positions position_type (fun _ => Err ValueError) (List.concat out).

(** A reconstruction of pyrecon, that has been run: the growth rate it used, and read_shifts with field = 'rsd'. *)
Record reconstruction : Type := Recon { r_f : R; r_shifts : list vec -> list vec }.
(** Argument recon: the name of an algorithm ([run] runs it with a growth rate on the data), or an instance. *)
Inductive recon_arg : Type := ByName (run : R -> list vec -> reconstruction) | Instance (r : reconstruction).
(** catalog.py:403-458 [rsd]. *)
Definition rsd (fid blind : cosmology) (z : option R) (d2z : (R -> R) -> R -> result R) (position_type : string) (dtype : option ftype) (recon : recon_arg) (p : parray) : result parray :=
  do pos <- format_positions position_type dtype (c_distance fid) p;
  do recon <- match recon with
              | ByName run => do f <- get_from_cosmo fid "f" z; Ok (run f pos)
              | Instance r => Ok r
              end;
  let shifts := r_shifts recon pos in
  do f_blind <- get_from_cosmo blind "f" None;
  do ratio <- fdiv f_blind (r_f recon);
  do out <- map2_result (fun p s => Ok (vadd p (vscale (ratio - 1) s))) pos shifts;
  format_output_positions position_type (d2z (c_distance fid)) out.

(** catalog.py:558-568: the field of the weights, in Fourier space; [tk] is Tk. *)
Definition png_field (freq : nat -> nat -> BinNums.Z) (box : vec) (n : idx) (tk : R -> R) (bfnl : R) (delta_k : idx -> cplx) (k : idx) : cplx :=
  let norm := sqrt (vdot (wave freq box n k) (wave freq box n k)) in
  if Req_EM_T norm 0 then Cx 0 0 else cscale (bfnl / tk norm) (delta_k k).
(** catalog.py:552. *)
Definition get_bfnl (bias fnl : R) : R := 2 * (1686 / 1000) * (bias - 1) * fnl.
(** catalog.py:572-576 and 609-616, for one object: [pk] is pk_lin at k_pivot, [tk] is Tk there, [shotnoise] is the one at the object. *)
Definition png_x (b1 f s1 s2 pk shotnoise k_pivot sigma_d_2 : R) : R :=
  let mu := 6 / 10 in
  (b1 + f * mu ^ 2) * (b1 + (1 - s1) * f * mu ^ 2) * s2 * pk + s2 * shotnoise * exp (- (1 / 2) * k_pivot ^ 2 * mu ^ 2 * f ^ 2 * sigma_d_2).
Definition png_y (b1 f s1 s2 pk shotnoise : R) : R :=
  let mu := 6 / 10 in (b1 + (1 - s1) * f * mu ^ 2) ^ 2 * s2 ^ 2 * pk + s2 ^ 2 * shotnoise.
Definition png_expected (b1 f pk phi : R) : R :=
  let mu := 6 / 10 in 2 * phi * b1 * (b1 + f * mu ^ 2) * pk + phi ^ 2 * b1 ^ 2 * pk.
Definition gaussian (k sigma : R) : R := exp (- (1 / 2) * k ^ 2 * sigma ^ 2).
(** The square root of a negative number is NaN. *)
Definition shotnoise_factor (b1 f sigma1 sigma2 bfnl : R) (tk pk : R -> R) (sigma_d_2 shotnoise : R) : result R :=
  let k_pivot := if Rlt_dec bfnl 0 then 8 / 1000 else 4 / 1000 in
  let s1 := gaussian k_pivot sigma1 in
  let s2 := gaussian k_pivot sigma2 in
  do phi <- fdiv bfnl (tk k_pivot);
  let x := png_x b1 f s1 s2 (pk k_pivot) shotnoise k_pivot sigma_d_2 in
  let y := png_y b1 f s1 s2 (pk k_pivot) shotnoise in
  let e := png_expected b1 f (pk k_pivot) phi in
  if Rlt_dec (x ^ 2 + y * e) 0 then Err ZeroDivision else
  do t <- fdiv (- x + sqrt (x ^ 2 + y * e)) y;
  fdiv t phi.
(** What [png] gets from the reconstruction and the cosmology: smoothing radii, bias, mesh of the density contrast after line 548, readout of a
    mesh at positions, shot noise at positions (lines 578-607), and lines 554-559 and 609-610. *)
Record png_input : Type := Png {
  pg_freq : nat -> nat -> BinNums.Z; pg_box : vec; pg_n : idx; pg_delta : idx -> cplx; pg_bias : R; pg_sigma1 : R; pg_sigma2 : R;
  pg_readout : (idx -> R) -> list vec -> list R; pg_shotnoise : list vec -> list R; pg_tk : R -> R; pg_pk : R -> R; pg_sigma_d_2 : R }.
(** Line 611-616 use the name f, which is only defined at line 530, when recon is a name. *)
Definition growth_name (recon_is_name : bool) (fid : cosmology) (z : option R) : result R :=
  if recon_is_name then get_from_cosmo fid "f" z else Err NameError.
Definition weights_or_one (w : option (list R)) (n : nat) : list R := match w with Some w => w | None => repeat 1 n end.
(** catalog.py:460-635 [png], methods that return weights: [data] is true for 'data_weights'. [pos] are the formatted data or random positions. *)
Definition png_weights (data : bool) (g : png_input) (fid blind : cosmology) (z : option R) (recon_is_name shotnoise_correction : bool) (pos : list vec) (weights : option (list R)) : result (list R) :=
  do fnl <- get_from_cosmo blind "fnl" None;
  let bfnl := get_bfnl (pg_bias g) fnl in
  let mesh := png_field (pg_freq g) (pg_box g) (pg_n g) (pg_tk g) bfnl (pg_delta g) in
  do factors <- if shotnoise_correction then
                  do f <- growth_name recon_is_name fid z;
                  map_result (shotnoise_factor (pg_bias g) f (pg_sigma1 g) (pg_sigma2 g) bfnl (pg_tk g) (pg_pk g) (pg_sigma_d_2 g)) (pg_shotnoise g pos)
                else Ok (map (fun _ => 1) pos);
  let w := pg_readout g (c2r (pg_n g) mesh) pos in
  let sign := if data then 1 else -1 in
  do prod <- map2_result (fun a b => Ok (1 + sign * (a * b))) factors w;
  map2_result (fun a b => Ok (a * b)) (weights_or_one weights (List.length pos)) prod.
(** catalog.py:622-635: displacement field along axis [i]; there is no mask of the Nyquist frequencies. *)
Definition png_displacement (freq : nat -> nat -> BinNums.Z) (box : vec) (n : idx) (mesh : idx -> cplx) (i : nat) : idx -> R :=
  c2r n (fun k => cmul (mesh k) (Cx 0 (component (wave freq box n k) i / safe_k2 (wave freq box n k)))).
Definition mean_vec (l : list vec) : result vec :=
  do x <- fdiv (Rsum (map vx l)) (INR (List.length l));
  do y <- fdiv (Rsum (map vy l)) (INR (List.length l));
  do z <- fdiv (Rsum (map vz l)) (INR (List.length l));
  Ok (V x y z).
(** catalog.py:460-635 [png], methods that return positions. They are returned by _format_output_weights (line 635), as an array of shape (N, 3). *)
Definition png_positions (data : bool) (g : png_input) (blind : cosmology) (shotnoise_correction : bool) (pos : list vec) : result parray :=
  if shotnoise_correction then Err ValueError else
  do fnl <- get_from_cosmo blind "fnl" None;
  let bfnl := get_bfnl (pg_bias g) fnl in
  let mesh := png_field (pg_freq g) (pg_box g) (pg_n g) (pg_tk g) bfnl (pg_delta g) in
  let disp i := pg_readout g (png_displacement (pg_freq g) (pg_box g) (pg_n g) mesh i) pos in
  let shifts := zip3 V (disp 0%nat) (disp 1%nat) (disp 2%nat) in
  do m <- mean_vec shifts;
  let shifts := map (fun s => vsub s m) shifts in
  do out <- map2_result (fun p s => Ok (if data then vadd p s else vsub p s)) pos shifts;
  Ok (Rows F8 3 (map (fun p => [vx p; vy p; vz p]) out)).

(** catalog.py:100-144 [get_z], for positions and weights given on all processes. *)
Definition get_z (position_type : string) (d2z : R -> result R) (p : parray) (weights : option (list R)) : result R :=
  let rdz := String.eqb position_type "rdz" in
  do pos <- format_positions (if rdz then "rdd"%string else position_type) None (fun z => z) p;
  do s <- sky_rows pos;
  do z <- if rdz then Ok (map sky_dist s) else map_result d2z (map sky_dist s);
  let w := weights_or_one weights (List.length z) in
  if negb (Nat.eqb (List.length w) (List.length z)) then Err ValueError else
  fdiv (Rsum (map (fun x => fst x * snd x) (combine w z))) (Rsum w).
