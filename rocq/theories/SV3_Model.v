(** Model of desi/from_box_to_desi_sv3_cutsky.py and desi/covariance_from_desi_sv3_cutsky.py: names of files, regions, edges of bins, weights of
    rosettes and covariance. Pair counts (pycorr) are arguments. *)
Require Import Reals ZArith String Ascii List Bool.
From Verif Require Import Base Box_Model Blind_Model Cutsky_Model FA_Model Smear_Model Tile_Model.
Import ListNotations.
Open Scope R_scope.

(** from_box_to_desi_sv3_cutsky.py:19-22 [get_region]. *)
Definition get_region (dec : R) : string := if Rltb (259 / 8) dec then "N"%string else "S"%string.
(** from_box_to_desi_sv3_cutsky.py:25-32 [read_rosettes], the third mapping, from the second one. *)
Definition region_rosettes (directions : list (Z * (R * R))) : list (Z * string) := map (fun x => (fst x, get_region (snd (snd x)))) directions.
(** from_box_to_desi_sv3_cutsky.py:138-142 and covariance_from_desi_sv3_cutsky.py:101-105: region of every group, that of its first rosette; others must be the same. *)
Definition group_region (regions : list (Z * string)) (group : list Z) : result string :=
  match group with
  | [] => Err IndexError
  | r :: _ => match zassoc r regions with Some region => Ok region | None => Err KeyError end
  end.
Fixpoint all_in (regions : list (Z * string)) (region : string) (group : list Z) : result bool :=
  match group with
  | [] => Ok true
  | r :: group => match zassoc r regions with Some region' => if String.eqb region' region then all_in regions region group else Ok false | None => Err KeyError end
  end.
Fixpoint check_groups (regions : list (Z * string)) (groups : list (list Z * string)) : result unit :=
  match groups with
  | [] => Ok tt
  | (group, region) :: groups => do b <- all_in regions region group; if b then check_groups regions groups else Err ValueError
  end.
Definition rosettes_to_region (regions : list (Z * string)) (groups : list (list Z)) : result (list (list Z * string)) :=
  do names <- map_result (group_region regions) groups;
  do _ <- check_groups regions (combine groups names);
  Ok (combine groups names).
(** The table desi/rosettes_sv3.ecsv: right ascension and declination of every rosette, as rationals. *)
Definition sv3_table : list (Z * (R * R)) :=
  [(0%Z, (1501/10, 2182/1000)); (1%Z, (1796/10, 0)); (2%Z, (1831/10, 0)); (3%Z, (1899/10, 618/10)); (4%Z, (19475/100, 282/10)); (5%Z, (210, 5)); (6%Z, (2155/10, 525/10));
   (7%Z, (2178/10, 344/10)); (8%Z, (2163/10, -6/10)); (9%Z, (2198/10, -6/10)); (10%Z, (21805/100, 243/100)); (11%Z, (24275/100, 5498/100)); (12%Z, (24105/100, 4345/100)); (13%Z, (24588/100, 4345/100));
   (14%Z, (2525/10, 345/10)); (15%Z, (26973/100, 6602/100)); (16%Z, (19475/100, 247/10)); (17%Z, (2128/10, -6/10)); (18%Z, (26973/100, 6252/100)); (19%Z, (2361/10, 4345/100))].
(** from_box_to_desi_sv3_cutsky.py:122-130, covariance_from_desi_sv3_cutsky.py:65: groups of rosettes, in order. *)
Definition sv3_groups : list (list Z) := [[1; 2]; [12; 13]; [9; 10]; [8; 17]; [15; 18]; [4; 16]; [7]; [14]; [6]; [11]; [5]; [0]; [3]; [19]]%Z.

(** str(z) and '{:d}'.format(z). *)
Definition str (z : Z) : string := padded 0 z.
(** '{}_rosettes-{}_{:d}' + extension. *)
Definition base_name (name : string) (rosettes : list Z) (imock : Z) (ext : string) : string :=
  (name ++ "_rosettes-" ++ join "-" (map str rosettes) ++ "_" ++ str imock ++ ext)%string.
(** os.path.join of two parts. *)
Definition path_join (dir f : string) : string :=
  match f with
  | String "/" _ => f
  | _ => match dir with "" => f | _ => if String.eqb (substring (String.length dir - 1) 1 dir) "/" then dir ++ f else dir ++ "/" ++ f end
  end%string.
(** from_box_to_desi_sv3_cutsky.py:35-37 [catalog_fn]; [outdir] is the global of the module, that line 90 sets when the file is run as a script. *)
Definition catalog_fn (outdir : option string) (name : string) (rosettes : list Z) (imock : Z) : result string :=
  match outdir with
  | None => Err NameError
  | Some outdir => Ok (path_join outdir (base_name name rosettes imock ".fits"))
  end.
Definition module_outdir (main : bool) : option string := if main then Some "_tests"%string else None.
(** covariance_from_desi_sv3_cutsky.py:76-80 [corr_fn], [cov_fn]. *)
Definition corr_fn (outdir corr_type : string) (rosettes : list Z) (imock : Z) : string := path_join outdir (base_name ("correlation_" ++ corr_type) rosettes imock ".npy").
Definition cov_fn (outdir corr_type : string) : string := path_join outdir ("covariance_correlation_" ++ corr_type ++ ".npy").
(** range(a, b). *)
Definition zrange (a b : Z) : list Z := map (fun i => (a + Z.of_nat i)%Z) (seq 0 (Z.to_nat (b - a))).
(** from_box_to_desi_sv3_cutsky.py:157-258: names of catalogs that are written for mocks start, ..., stop - 1; [nran] is line 98. *)
Definition nran : Z := 20.
Definition written (outdir : option string) (groups : list (list Z)) (start stop : Z) : result (list string) :=
  do files <- map_result (fun imock =>
    do randoms <- (if (imock <? nran)%Z then map_result (fun g => catalog_fn outdir "randoms" g imock) groups else Ok []);
    do data <- map_result (fun g => catalog_fn outdir "data" g imock) groups;
    Ok (randoms ++ data)%list) (zrange start stop);
  Ok (List.concat files).
(** covariance_from_desi_sv3_cutsky.py:82-95: names of catalogs that are read to compute correlation functions; [nran_read] is line 74. *)
Definition nran_read : Z := 10.
Definition read_names (outdir : option string) (groups : list (list Z)) (start stop : Z) : result (list string) :=
  do files <- map_result (fun g => do l <- map_result (fun imock =>
      do data <- catalog_fn outdir "data" g imock;
      do randoms <- map_result (fun iran => catalog_fn outdir "randoms" g iran) (zrange 0 nran_read);
      Ok (data :: randoms)) (zrange start stop);
    Ok (List.concat l)) groups;
  Ok (List.concat files).
(** np.geomspace. *)
Definition geomspace (a b : R) (n : nat) : list R := map (fun i => a * Rpower (b / a) (INR i / INR (n - 1))) (seq 0 n).
(** covariance_from_desi_sv3_cutsky.py:9-31 [get_edges]: one or two arrays. *)
Definition get_edges (corr_type bin_type : string) : result (list (list R)) :=
  do sedges <- (if String.eqb bin_type "log" then Ok (geomspace (1 / 100) 100 49) else if String.eqb bin_type "lin" then Ok (linspace 0 200 201) else Err ValueError);
  if String.eqb corr_type "smu" then Ok [sedges; linspace (-1) 1 201]
  else if String.eqb corr_type "rppi" then (if String.eqb bin_type "lin" then Ok [sedges; linspace (-200) 200 401] else Ok [sedges; linspace (-40) 40 81])
  else if String.eqb corr_type "theta" then (if String.eqb bin_type "lin" then Ok [linspace 0 4 101] else Ok [geomspace (1 / 1000) 4 41])
  else Err ValueError.

(** Random pairs of a group: counts in bins and normalisation; data pairs: normalisation. *)
Record pairs : Type := Pairs { pr_region : string; pr_counts : list R; pr_rnorm : R; pr_dnorm : R }.
(** covariance_from_desi_sv3_cutsky.py:107-114: sums of normalisations in a region; factor of a region. *)
Definition in_region (region : string) (groups : list pairs) : list pairs := filter (fun p => String.eqb (pr_region p) region) groups.
Definition rescale_region (groups : list pairs) (region : string) : result R := fdiv (Rsum (map pr_dnorm (in_region region groups))) (Rsum (map pr_rnorm (in_region region groups))).
(** Line 115; normalize(wnorm) of pycorr multiplies counts by the ratio of normalisations. *)
Definition rescaled (groups : list pairs) (p : pairs) : result pairs :=
  do f <- rescale_region groups (pr_region p);
  do factor <- fdiv (pr_rnorm p * f) (pr_rnorm p);
  Ok (Pairs (pr_region p) (map (Rmult factor) (pr_counts p)) (pr_rnorm p * f) (pr_dnorm p)).
(** Lines 116 and 120: share of a group in every bin ([bin] below the number of bins). *)
Definition ratio (all : list pairs) (p : pairs) (bin : nat) : result R := fdiv (nth bin (pr_counts p) 0) (Rsum (map (fun q => nth bin (pr_counts q) 0) all)).
(** np.mean(axis=0) and np.cov(rowvar=False, ddof=1) of the rows [x m] of mocks m < n, in bins. *)
Definition mean_of (n : nat) (x : nat -> nat -> R) (b : nat) : result R := fdiv (Rsum (map (fun m => x m b) (seq 0 n))) (INR n).
Definition cov_of (n : nat) (x : nat -> nat -> R) (b c : nat) : result R :=
  do mb <- mean_of n x b;
  do mc <- mean_of n x c;
  fdiv (Rsum (map (fun m => (x m b - mb) * (x m c - mc)) (seq 0 n))) (INR n - 1).
(** Lines 118-145: the numerators of the correlation function [xi] are multiplied by the ratio of the group, so is the correlation function (its denominator is not); then mean and covariance are summed over groups. *)
Definition sum_groups {A} (f : A -> result R) (l : list A) : result R := do v <- map_result f l; Ok (Rsum v).
Definition weighted_corr {A} (weight : A -> nat -> R) (xi : A -> nat -> nat -> R) (g : A) (m b : nat) : R := weight g b * xi g m b.
Definition total_mean {A} (weight : A -> nat -> R) (xi : A -> nat -> nat -> R) (n : nat) (groups : list A) (b : nat) : result R := sum_groups (fun g => mean_of n (weighted_corr weight xi g) b) groups.
Definition total_cov {A} (weight : A -> nat -> R) (xi : A -> nat -> nat -> R) (n : nat) (groups : list A) (b c : nat) : result R := sum_groups (fun g => cov_of n (weighted_corr weight xi g) b c) groups.
