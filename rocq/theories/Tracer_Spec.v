(** What tables of redshift errors mean. *)
Require Import Reals String List Lra.
From Verif Require Import Base Smear_Model Smear_Spec Tracer_Model.
Import ListNotations.
Open Scope R_scope.

(** A file lists each redshift once. *)
Definition one_row_per_redshift (file : list row) : Prop := NoDup (map r_z file).

(** A row of file number i counts if it lies below all rows of the later files. *)
Definition counts (files : list (list row)) (r : row) : Prop :=
  exists i, (i < length files)%nat /\ In r (nth i files []) /\ forall j s, (i < j < length files)%nat -> In s (nth j files []) -> r_z r < r_z s.

Definition by_redshift (t : list row) : Prop := rising (map r_z t).

(** The tracers that have tables. *)
Definition known (tracer uncertainty : string) : Prop :=
  tracer = "LRG"%string \/ tracer = "ELG"%string \/ tracer = "BGS"%string \/ (tracer = "QSO"%string /\ (uncertainty = "statistical"%string \/ uncertainty = "clustering"%string)).
Definition quasar_statistical (tracer uncertainty : string) : Prop := tracer = "QSO"%string /\ uncertainty = "statistical"%string.
(** Largest velocity (km / s) of the truncated distributions. *)
Definition truncation (tracer uncertainty : string) (v : R) : Prop :=
  (tracer = "QSO"%string /\ uncertainty = "clustering"%string /\ v = 2000) \/ (tracer = "LRG"%string /\ v = 400) \/ ((tracer = "ELG"%string \/ tracer = "BGS"%string) /\ v = 150).

(** The fields of a row: for quasars (statistical) amplitude, mean, Laplace scale, Gaussian scale, weight, scales to be divided by the square
    root of two because they describe the difference of two measurements; else Gaussian scale, Gaussian mean, full width of the Lorentzian, its
    mean, weight. *)
Definition weight_of (r : row) : R := snd (r_fit r).
Definition describes (w : laws) (tracer uncertainty : string) (r : row) (broad gauss : rv) : Prop :=
  (quasar_statistical tracer uncertainty -> exists amplitude mean b s la, r_fit r = (amplitude, mean, b, s, la) /\ broad = law_laplace w mean (b / sqrt 2) /\ gauss = law_norm w mean (s / sqrt 2)) /\
  (forall v, truncation tracer uncertainty v -> exists sigma mean fwhm center la, r_fit r = (sigma, mean, fwhm, center, la) /\
    broad = law_cauchy w (- v) v center (fwhm / 2) /\ gauss = law_truncnorm w (- v) v mean sigma).

(** Contracts: supports of scipy's distributions, which have increasing cumulative distributions there. *)
Definition strict_rv (r : rv) : Prop := proper_rv r /\
  forall a b, ext_le (rv_low r) a -> ext_le a b -> a <> b -> ext_le b (rv_high r) -> rv_cdf r a < rv_cdf r b.
Definition scipy_laws (w : laws) : Prop :=
  (forall x s, 0 < s -> strict_rv (law_laplace w x s) /\ rv_low (law_laplace w x s) = MInf /\ rv_high (law_laplace w x s) = PInf) /\
  (forall x s, 0 < s -> strict_rv (law_norm w x s) /\ rv_low (law_norm w x s) = MInf /\ rv_high (law_norm w x s) = PInf) /\
  (forall a b x s, a < b -> 0 < s -> strict_rv (law_cauchy w a b x s) /\ rv_low (law_cauchy w a b x s) = Fin a /\ rv_high (law_cauchy w a b x s) = Fin b) /\
  (forall a b x s, a < b -> 0 < s -> strict_rv (law_truncnorm w a b x s) /\ rv_low (law_truncnorm w a b x s) = Fin a /\ rv_high (law_truncnorm w a b x s) = Fin b).

(** Rows with positive scales and a weight between 0 and 1. *)
Definition sound_row (tracer uncertainty : string) (r : row) : Prop :=
  let '(a, b, c, d, la) := r_fit r in
  0 <= la <= 1 /\ (quasar_statistical tracer uncertainty -> 0 < c /\ 0 < d) /\ (~ quasar_statistical tracer uncertainty -> 0 < a /\ 0 < c).

(** Velocity (km / s) corresponding to an error dz at redshift z. *)
Definition kms : R := 299792458 / 1000.

(** Tables shipped with the package. *)
Definition shipped (tracer uncertainty : string) (names : list string) : Prop :=
  (quasar_statistical tracer uncertainty /\ names = ["QSO_redshift_smearing_sv1.ecsv"; "QSO_redshift_smearing_sv3.ecsv"]%string) \/
  (tracer = "QSO"%string /\ uncertainty = "clustering"%string /\ names = ["QSO_redshift_smearing_clustering.ecsv"]%string) \/
  (tracer = "LRG"%string /\ uncertainty = "statistical"%string /\ names = ["LRG_redshift_smearing_sv1.ecsv"]%string) \/
  (tracer = "ELG"%string /\ uncertainty = "statistical"%string /\ names = ["ELG_redshift_smearing_sv1.ecsv"]%string) \/
  (tracer = "BGS"%string /\ uncertainty = "statistical"%string /\ names = ["BGS_redshift_smearing_sv1.ecsv"]%string).

(** The tabulated velocities (km / s): 10000 of them, here those that are not the first and the last one. Even steps within the truncation; for
    quasars (statistical) even steps of (1 + tanh(v / 5000)) / 2. *)
Definition node (tracer uncertainty : string) (i : nat) (v : R) : Prop :=
  (quasar_statistical tracer uncertainty /\ v = 5000 / 2 * ln (INR i / (9999 - INR i))) \/
  (exists b, truncation tracer uncertainty b /\ v = b * (2 * INR i / 9999 - 1)).
Definition inner (i : nat) : Prop := 0 < INR i < 9999.

(** Neither negligible nor saturated. *)
Definition midway (p : R) : Prop := / 1000000000000 < p < 1 - / 1000000000000.

(** dz corresponds to velocity v at redshift z: the tables of quasars (statistical) hold c dz (1 + z), the others c dz / (1 + z). *)
Definition is_error (tracer uncertainty : string) (z v dz : R) : Prop :=
  (quasar_statistical tracer uncertainty -> dz * kms * (1 + z) = v) /\ (~ quasar_statistical tracer uncertainty -> dz * kms / (1 + z) = v).

(** All the files that can be read have sound rows. *)
Definition all_sound (read : string -> result (list row)) (tracer unc : string) : Prop := forall name file r, read name = Ok file -> In r file -> sound_row tracer unc r.
(** Default of lists of distributions. *)
Definition no_law : rv := RV NaN NaN (fun _ => 0) (fun _ => NaN).
