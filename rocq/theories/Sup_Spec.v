(** Superposition of mocks. Mocks and their methods are those of Mesh_Model.v. *)
Require Import Reals ZArith String List.
From Verif Require Import Base Vec3 Box_Model Rsd_Model Mock_Model Mesh_Model.
Import ListNotations.
Open Scope R_scope.

(** [h] is [a] times [f] plus [b] times [g]: fields, Fourier modes, and columns of numbers. *)
Definition combined (a b : R) (f g h : idx -> R) : Prop := forall x, h x = a * f x + b * g x.
Definition combined_modes (a b : R) (f g h : idx -> cplx) : Prop := forall k, re (h k) = a * re (f k) + b * re (g k) /\ im (h k) = a * im (f k) + b * im (g k).
Definition combined_rows (a b : R) (l l' l'' : list R) : Prop := length l = length l'' /\ length l' = length l'' /\ forall i x y z, nth_error l i = Some x -> nth_error l' i = Some y -> nth_error l'' i = Some z -> z = a * x + b * y.
(** All three are missing, or all three are there and in the relation. *)
Definition all_or_none {A} (P : A -> A -> A -> Prop) (x y z : option A) : Prop :=
  match x, y, z with None, None, None => True | Some x, Some y, Some z => P x y z | _, _, _ => False end.
(** All three calls raise the same error, or all three answer, and the answers are in the relation. *)
Definition all_or_error {A} (P : A -> A -> A -> Prop) (x y z : result A) : Prop :=
  match x, y, z with Err e, Err e', Err e'' => e = e' /\ e = e'' | Ok x, Ok y, Ok z => P x y z | _, _, _ => False end.

(** What three mocks are generated from: the same line of sight and phases, spectra of the same shape with amplitudes [t], [t'], [t''] squared, and noises whose products
    with the amplitudes combine. With equal amplitudes this says that the noises combine. *)
Definition combined_seeds (a b : R) (s s' s'' : (R -> option R -> R) * option vec * (idx -> cplx) * bool) : Prop :=
  let '(p, los, w, inv) := s in let '(p', los', w', inv') := s' in let '(p'', los'', w'', inv'') := s'' in
  los' = los /\ los'' = los /\ inv' = inv /\ inv'' = inv /\
  exists shape t t' t'', 0 < t /\ 0 < t' /\ 0 < t'' /\ (forall k mu, p k mu = t ^ 2 * shape k mu /\ p' k mu = t' ^ 2 * shape k mu /\ p'' k mu = t'' ^ 2 * shape k mu) /\
    combined_modes a b (fun k => cscale t (w k)) (fun k => cscale t' (w' k)) (fun k => cscale t'' (w'' k)).
(** Three mocks without objects, with the same geometry and selection function, the fields of the third being [a] times those of the first plus [b] times those of the second. *)
Definition superposed (a b : R) (m m' m'' : mock) : Prop :=
  (m_box m' = m_box m /\ m_box m'' = m_box m) /\ (m_n m' = m_n m /\ m_n m'' = m_n m) /\ (m_center m' = m_center m /\ m_center m'' = m_center m) /\
  (m_nbar m' = m_nbar m /\ m_nbar m'' = m_nbar m) /\ (m_norm m' = m_norm m /\ m_norm m'' = m_norm m) /\
  (m_position m = None /\ m_position m' = None /\ m_position m'' = None) /\ (m_disps m = None /\ m_disps m' = None /\ m_disps m'' = None) /\
  all_or_none (combined_seeds a b) (m_seed m) (m_seed m') (m_seed m'') /\ combined_modes a b (m_delta_k m) (m_delta_k m') (m_delta_k m'') /\
  all_or_none (combined a b) (m_delta_r m) (m_delta_r m') (m_delta_r m'') /\ all_or_none (fun d d' d'' => forall i, combined a b (d i) (d' i) (d'' i)) (m_disp m) (m_disp m') (m_disp m'').

(** The same call on all three mocks, the real density without lognormal transform and with a number as bias; white noises combine as well. *)
Inductive calls_on (a b : R) : op -> op -> op -> Prop :=
| on_complex : calls_on a b SetComplex SetComplex SetComplex
| on_real : forall bias, (forall f, bias <> Some (BFun f)) -> calls_on a b (SetReal bias false) (SetReal bias false) (SetReal bias false)
| on_selection : forall nbar i, calls_on a b (SetSelection nbar i) (SetSelection nbar i) (SetSelection nbar i)
| on_rsd : forall f los, calls_on a b (SetRsd f los) (SetRsd f los) (SetRsd f los)
| on_center : forall c, calls_on a b (SetCenter c) (SetCenter c) (SetCenter c)
| on_white : forall w w' w'', combined a b w w' w'' -> calls_on a b (SetWhiteNoise w) (SetWhiteNoise w') (SetWhiteNoise w'').
Inductive histories (a b : R) : list op -> list op -> list op -> Prop :=
| no_call : histories a b [] [] []
| one_more : forall o o' o'' l l' l'', calls_on a b o o' o'' -> histories a b l l' l'' -> histories a b (o :: l) (o' :: l') (o'' :: l'').

(** What is read of the three mocks: fields proportional to the density contrast, displacements, or fields given that combine; all fields for averages, i.e. [a] + [b] = 1. *)
Inductive fields_of (a b : R) : field_arg -> field_arg -> field_arg -> Prop :=
| of_delta : fields_of a b (Named "delta") (Named "delta") (Named "delta")
| of_weighted : fields_of a b (Named "nbar*delta") (Named "nbar*delta") (Named "nbar*delta")
| of_displacement : forall s, fields_of a b (Named ("disp_" ++ s)) (Named ("disp_" ++ s)) (Named ("disp_" ++ s))
| of_average : forall s, a + b = 1 -> fields_of a b (Named s) (Named s) (Named s)
| of_given : forall f f' f'', combined a b f f' f'' -> fields_of a b (Given f) (Given f') (Given f'').

(** Value of a factor at a distance, and factors that add up. *)
Definition factor_at (f : factor) (r : R) : R := match f with FNum f => f | FFun f => f r end.
Definition add_up (f g h : factor) : Prop := forall r, factor_at h r = factor_at f r + factor_at g r.
(** The same mock, but for how the density is written. *)
Definition same_mock (m m' : mock) : Prop :=
  m_box m' = m_box m /\ m_n m' = m_n m /\ m_center m' = m_center m /\ m_seed m' = m_seed m /\ m_delta_k m' = m_delta_k m /\ m_nbar m' = m_nbar m /\ m_norm m' = m_norm m /\
  m_disp m' = m_disp m /\ m_position m' = m_position m /\ m_disps m' = m_disps m /\ all_or_none (fun d d' _ => forall x, d' x = d x) (m_delta_r m) (m_delta_r m') (m_delta_r m).
