(** Model of what is done with the meshes of mocks: gaussian_mock.py and lagrangian_mock.py, except what is in Mock_Model.v. Conventions
    for meshes are those of Mock_Model.v. *)
Require Import Reals ZArith String Ascii List Bool.
From Verif Require Import Base Vec3 Isometry_Model Sky_Model Cutsky_Model Box_Model Rsd_Model Mock_Model.
Import ListNotations.
Open Scope R_scope.

(** np.sinc(x / pi). *)
Definition sinc (x : R) : R := if Req_EM_T x 0 then 1 else sin x / x.
(** gaussian_mock.py:32: the exponent of each resampler. *)
Definition order (resampler : string) : option nat :=
  if String.eqb resampler "nnb" then Some 1%nat else if String.eqb resampler "ngp" then Some 1%nat else if String.eqb resampler "cic" then Some 2%nat else
  if String.eqb resampler "tsc" then Some 3%nat else if String.eqb resampler "pcs" then Some 4%nat else None.
(** gaussian_mock.py:34-38 [window]. *)
Definition window (p : nat) (x : vec) : R := 1 * sinc (1 / 2 * vx x) ^ p * sinc (1 / 2 * vy x) ^ p * sinc (1 / 2 * vz x) ^ p.
(** gaussian_mock.py:29-44 [_compensate_mesh]. A mode divided by zero is NaN. *)
Definition compensate_mesh (freq : nat -> nat -> BinNums.Z) (box : vec) (n : idx) (resampler : string) (mesh : idx -> R) : result (idx -> R) :=
  match order resampler with
  | None => Err KeyError
  | Some p =>
    do modes <- tabulate n (fun k =>
      let w := window p (vmul (wave freq box n k) (cell_size box n)) in
      if Req_EM_T w 0 then Err ZeroDivision else Ok (cscale (/ w) (r2c n mesh k))) (Cx 0 0);
    Ok (c2r n modes)
  end.

(** str.lower, for ASCII. *)
Definition lower_char (c : ascii) : ascii :=
  let k := nat_of_ascii c in if (Nat.leb 65 k && Nat.leb k 90)%bool then ascii_of_nat (k + 32) else c.
Fixpoint lowercase (s : string) : string := match s with EmptyString => EmptyString | String c s => String (lower_char c) (lowercase s) end.

(** What a user may give for a density, and what is kept of it: a number, or a mesh. *)
Inductive field : Type := Number (a : R) | Mesh (f : idx -> R).
(** Product of a mesh, or number, and a mesh. *)
Definition times (a : field) (f : idx -> R) : idx -> R := match a with Number a => fun x => a * f x | Mesh g => fun x => g x * f x end.
(** Argument [field] of readout: a name, or a mesh. *)
Inductive field_arg : Type := Named (name : string) | Given (f : idx -> R).

(** Attributes of a mock: box and mesh sizes, center; what set_complex_delta_field reads (power, line of sight, noise for the seed,
    inversion of phases), missing when the mock was given a field; mesh_delta_k, mesh_delta_r, nbar, attrs['norm'], mesh_disp_r, position and disps, the last six
    missing until they are set. *)
Record mock : Type := Mock {
  m_box : vec; m_n : idx; m_center : vec; m_seed : option ((R -> option R -> R) * option vec * (idx -> cplx) * bool); m_delta_k : idx -> cplx;
  m_delta_r : option (idx -> R); m_nbar : option field; m_norm : option R; m_disp : option (nat -> idx -> R); m_position : option (list vec); m_disps : option (list vec) }.
Definition attribute {A} (a : option A) : result A := match a with Some a => Ok a | None => Err AttributeError end.
(** Classes: EulerianLinearMock and LagrangianLinearMock. *)
Inductive class : Type := Eulerian | Lagrangian.

(** pmesh's readout of a mesh at positions, in box units: each process holds part of the cells; [sent p j] tells whether position [p] is
    sent to process [j] (pm.decompose); what process [j] gives is the sum of its cells times the weights [weight resampler n p x] of the
    resampler; gather with mode 'sum' adds up. [known] are the resamplers of pmesh. *)
Record pmesh : Type := PMesh {
  known : string -> bool; weight : string -> idx -> vec -> idx -> R; parts : list (list idx); sent : string -> vec -> nat -> bool }.
Definition readout_at (pm : pmesh) (n : idx) (resampler : string) (mesh : idx -> R) (p : vec) : R :=
  Rsum (map (fun jpart => if sent pm resampler p (fst jpart) then Rsum (map (fun x => weight pm resampler n p x * mesh x) (snd jpart)) else 0)
            (combine (seq 0 (length (parts pm))) (parts pm))).
(** gaussian_mock.py:466-477. *)
Definition choose_field (m : mock) (arg : field_arg) : result field :=
  match arg with
  | Given f => Ok (Mesh f)
  | Named name =>
    if String.eqb name "delta" then do d <- attribute (m_delta_r m); Ok (Mesh d) else
    if String.eqb name "nbar*delta" then do b <- attribute (m_nbar m); do d <- attribute (m_delta_r m); Ok (Mesh (times b d)) else
    if String.eqb name "nbar*(1+delta)" then do b <- attribute (m_nbar m); do d <- attribute (m_delta_r m); Ok (Mesh (times b (fun x => d x + 1))) else
    if String.eqb name "nbar" then attribute (m_nbar m) else Err ValueError
  end.
(** A number has no methods r2c and readout. *)
Definition as_mesh (f : field) : result (idx -> R) := match f with Mesh f => Ok f | Number _ => Err AttributeError end.
(** gaussian_mock.py:440-490 [readout]. *)
Definition readout (freq : nat -> nat -> BinNums.Z) (pm : pmesh) (m : mock) (positions : list vec) (arg : field_arg) (resampler : string) (compensate : bool) : result (list R) :=
  do f <- choose_field m arg;
  let resampler := lowercase resampler in
  do f <- (if compensate then do f <- as_mesh f; do g <- compensate_mesh freq (m_box m) (m_n m) resampler f; Ok (Mesh g) else Ok f);
  let resampler := if String.eqb resampler "ngp" then "nnb"%string else resampler in
  let positions := map (fun p => vadd (vsub p (m_center m)) (vscale (1 / 2) (m_box m))) positions in
  if known pm resampler then do f <- as_mesh f; Ok (map (readout_at pm (m_n m) resampler f) positions) else Err ExternalError.
(** 'xyz'.index(s): rank of the first occurrence of a substring. *)
Definition xyz_index (s : string) : result nat := match String.index 0 s "xyz" with Some i => Ok i | None => Err ValueError end.
(** lagrangian_mock.py:65-96 [readout]. [compensate] is not passed on (line 96). *)
Definition lagrangian_readout (freq : nat -> nat -> BinNums.Z) (pm : pmesh) (m : mock) (positions : list vec) (arg : field_arg) (resampler : string) (compensate : bool) : result (list R) :=
  do arg <- match arg with
            | Named name => if String.prefix "disp_" name then
                do i <- xyz_index (substring 5 (String.length name - 5) name); do d <- attribute (m_disp m); Ok (Given (d i)) else Ok arg
            | Given _ => Ok arg
            end;
  readout freq pm m positions arg resampler false.
Definition mock_readout (c : class) := match c with Eulerian => readout | Lagrangian => lagrangian_readout end.

(** Methods that change a mock, with the streams of random numbers they are given (see [poisson_sample] for [Poisson]). *)
Inductive op : Type :=
| SetComplex
| SetReal (bias : option bias_arg) (lognormal : bool)
| SetSelection (nbar : R + (R -> R -> R -> R)) (interlacing : nat)
| SetWhiteNoise (noise : idx -> R)
| SetRsd (f : factor) (los : option axis_arg)
| Poisson (poisson : list R -> list nat) (uniform : nat -> list vec) (resampler : string) (compensate : bool)
| SetCenter (center : arg R).
Definition set_delta_k (m : mock) d := Mock (m_box m) (m_n m) (m_center m) (m_seed m) d (m_delta_r m) (m_nbar m) (m_norm m) (m_disp m) (m_position m) (m_disps m).
Definition set_delta_r (m : mock) d := Mock (m_box m) (m_n m) (m_center m) (m_seed m) (m_delta_k m) (Some d) (m_nbar m) (m_norm m) (m_disp m) (m_position m) (m_disps m).
Definition set_nbar (m : mock) b s := Mock (m_box m) (m_n m) (m_center m) (m_seed m) (m_delta_k m) (m_delta_r m) (Some b) (Some s) (m_disp m) (m_position m) (m_disps m).
Definition set_disp (m : mock) d := Mock (m_box m) (m_n m) (m_center m) (m_seed m) (m_delta_k m) (m_delta_r m) (m_nbar m) (m_norm m) (Some d) (m_position m) (m_disps m).
Definition set_position (m : mock) p := Mock (m_box m) (m_n m) (m_center m) (m_seed m) (m_delta_k m) (m_delta_r m) (m_nbar m) (m_norm m) (m_disp m) (Some p) (m_disps m).
Definition set_disps (m : mock) d := Mock (m_box m) (m_n m) (m_center m) (m_seed m) (m_delta_k m) (m_delta_r m) (m_nbar m) (m_norm m) (m_disp m) (m_position m) (Some d).
Definition set_center (m : mock) c := Mock (m_box m) (m_n m) c (m_seed m) (m_delta_k m) (m_delta_r m) (m_nbar m) (m_norm m) (m_disp m) (m_position m) (m_disps m).
(** A method that sets an attribute at its end, or raises before. *)
Definition setting {A} (m : mock) (a : result A) (set : A -> mock) : mock * result unit := match a with Ok a => (set a, Ok tt) | Err e => (m, Err e) end.
(** gaussian_mock.py:377-424, with attrs['norm'] (lines 383, 424); see [set_selection] for a callable. *)
Definition select_density (freq : nat -> nat -> BinNums.Z) (neg : nat -> nat -> bool) (m : mock) (nbar : R + (R -> R -> R -> R)) (interlacing : nat) : result (field * R) :=
  let c := cell_size (m_box m) (m_n m) in
  let dv := vx c * vy c * vz c in
  match nbar with
  | inl a => Ok (Number a, size (m_n m) * a ^ 2 * dv)
  | inr f => do b <- set_selection freq neg (m_box m) (m_center m) (m_n m) f interlacing; Ok (Mesh b, Rsum (map (fun x => b x ^ 2) (cells (m_n m))) * dv)
  end.
(** gaussian_mock.py:424-438 [set_real_white_noise]. Dividing by zero, and the square root of a negative number, are not numbers. *)
Definition white_noise (m : mock) (noise : idx -> R) : result (idx -> R) :=
  do d <- attribute (m_delta_r m);
  do b <- attribute (m_nbar m);
  let c := cell_size (m_box m) (m_n m) in
  let vol_per_cell := vx c * vy c * vz c in
  tabulate (m_n m) (fun x => let v := times b (fun _ => vol_per_cell) x in if Rlt_dec 0 v then Ok (d x + noise x / sqrt v) else Err ZeroDivision) 0.
(** One row of the three displacements. *)
Fixpoint rows3 (a b c : list R) : list vec := match a, b, c with x :: a, y :: b, z :: c => V x y z :: rows3 a b c | _, _, _ => [] end.
Definition add_rows (a b : list vec) : list vec := map (fun x => vadd (fst x) (snd x)) (combine a b).
(** One call of a method: the mock after it, and whether it raises. The methods are set_complex_delta_field, set_real_delta_field
    (lagrangian_mock.py:40-63 adds the displacements), set_analytic_selection_function, set_real_white_noise, set_rsd, poisson_sample
    (lagrangian_mock.py:98-124: the position is set before the displacements are read, which may raise: line 116 copies it to disps
    first) and the setter of boxcenter. *)
Definition step (freq : nat -> nat -> BinNums.Z) (neg : nat -> nat -> bool) (pm : pmesh) (c : class) (m : mock) (o : op) : mock * result unit :=
  match o with
  | SetComplex =>
    match m_seed m with
    | None => (m, Err KeyError)
    | Some (power, los, noise, inverted) => setting m (set_complex_delta_field freq (m_box m) (m_n m) power los noise inverted) (set_delta_k m)
    end
  | SetReal bias lognormal =>
    setting m (set_real_delta_field neg (m_box m) (m_center m) (m_n m) (m_delta_k m) bias lognormal)
      (fun d => let m := set_delta_r m d in match c with Eulerian => m | Lagrangian => set_disp m (displacement freq (m_box m) (m_n m) (m_delta_k m)) end)
  | SetSelection nbar interlacing => setting m (select_density freq neg m nbar interlacing) (fun x => set_nbar m (fst x) (snd x))
  | SetWhiteNoise noise => setting m (white_noise m noise) (set_delta_r m)
  | SetRsd f los =>
    match c with
    | Eulerian => setting m (do d <- attribute (m_delta_r m); eulerian_set_rsd freq neg (m_box m) (m_center m) (m_n m) (m_delta_k m) d f los) (set_delta_r m)
    | Lagrangian => setting m (do p <- attribute (m_position m); do d <- attribute (m_disps m); lagrangian_set_rsd p d f los) (set_position m)
    end
  | Poisson poisson uniform resampler compensate =>
    let sample := do d <- attribute (m_delta_r m); do b <- attribute (m_nbar m);
                  poisson_sample (m_box m) (m_center m) (m_n m) d (times b (fun _ => 1)) poisson (parts pm) uniform in
    match sample, c with
    | Err e, _ => (m, Err e)
    | Ok p, Eulerian => (set_position m p, Ok tt)
    | Ok p, Lagrangian =>
      let m := set_disps (set_position m p) p in
      let read d i := lagrangian_readout freq pm m p (Given (d i)) resampler compensate in
      setting m (do d <- attribute (m_disp m); do x <- read d 0%nat; do y <- read d 1%nat; do z <- read d 2%nat; Ok (rows3 x y z))
        (fun disps => set_disps (set_position m (map (wrap (m_box m) (corner (m_box m) (m_center m))) (add_rows p disps))) disps)
    end
  | SetCenter v => (set_center m (V (first v) (second v) (third v)), Ok tt)
  end.
(** A sequence of calls, exceptions being caught; the outcomes are those of the calls. *)
Fixpoint run (freq : nat -> nat -> BinNums.Z) (neg : nat -> nat -> bool) (pm : pmesh) (c : class) (m : mock) (l : list op) : mock * list (result unit) :=
  match l with
  | [] => (m, [])
  | o :: l => let '(m, r) := step freq neg pm c m o in let '(m, rs) := run freq neg pm c m l in (m, r :: rs)
  end.
(** gaussian_mock.py:222-253, from the geometry on (see [mesh_geometry]). *)
Definition mock_new (freq : nat -> nat -> BinNums.Z) (box : vec) (n : idx) (center : arg R) (power : R -> option R -> R) (los : option axis_arg) (noise : idx -> cplx) (inverted : bool) : result mock :=
  do los <- match los with None => Ok None | Some a => do l <- get_los a; Ok (Some l) end;
  do delta_k <- set_complex_delta_field freq box n power los noise inverted;
  Ok (Mock box n (V (first center) (second center) (third center)) (Some (power, los, noise, inverted)) delta_k None None None None None None).
(** gaussian_mock.py:255-275 [from_complex_delta_field]; [box] and [n] are those of the mesh given. *)
Definition from_complex_delta_field (box : vec) (n : idx) (mesh : (idx -> cplx) + (idx -> R)) (center : arg R) : mock :=
  let delta_k := match mesh with inl d => d | inr d => r2c n d end in
  Mock box n (V (first center) (second center) (third center)) None delta_k None None None None None None.
(** gaussian_mock.py:557-568 and lagrangian_mock.py:157-168 [to_catalog]. *)
Definition to_catalog (c : class) (m : mock) : result boxcat :=
  do p <- attribute (m_position m);
  match c with
  | Eulerian => Ok (BoxCat (pcat_new [("Position", ColV p)] "Position" "Velocity" [] []) (m_box m) (m_center m))
  | Lagrangian => do d <- attribute (m_disps m); Ok (BoxCat (pcat_new [("Position", ColV p); ("Displacement", ColV d)] "Position" "Displacement" [] []) (m_box m) (m_center m))
  end%string.
(** gaussian_mock.py:492-499 [to_nbodykit_mesh]: the mesh, and the attributes BoxSize and BoxCenter. *)
Definition to_nbodykit_mesh (m : mock) : result ((idx -> R) * vec * vec) :=
  do d <- attribute (m_delta_r m); do b <- attribute (m_nbar m); Ok (times b d, m_box m, m_center m).

(** gaussian_mock.py:59-125 [ArrayMesh]: [shape] is the shape of the array, if it has three dimensions; [root] tells that [mpiroot] is not None; [nmesh] the argument. The
    class ParticleMesh is not imported in the module (line 116), only in the constructor of mocks. *)
Definition array_mesh (shape : option (BinNums.Z * BinNums.Z * BinNums.Z)) (type : string) (nmesh : option (arg BinNums.Z)) (root : bool) : result (idx -> R) :=
  let type := lowercase type in
  do nmesh <- match nmesh with
              | Some v => Ok (first v, second v, third v)
              | None => if (String.eqb type "real" && root)%bool then match shape with Some s => Ok s | None => Err ValueError end else Err ValueError
              end;
  Err NameError.
