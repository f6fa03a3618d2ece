(** Specification for arrays in memory. *)
Require Import Reals ZArith String List Bool.
From Verif Require Import Base Vec3 Isometry_Model Sky_Model Cutsky_Model Box_Model Rsd_Model Remap_Model Blind_Model Alias_Model.
Import ListNotations.
Open Scope R_scope.

(** All arrays that existed before are as they were. *)
Definition kept (h h' : memory) : Prop := forall p, (p < next h)%nat -> cells h' p = cells h p.
(** The call returns arrays with these contents; the call raises. *)
Definition returns (c : call) (h : memory) (l : list arr) : Prop := exists h' ps, perform c h = (h', Ok ps) /\ map (cells h') ps = l.
Definition raises (c : call) (h : memory) (e : err) : Prop := exists h', perform c h = (h', Err e).
(** The same program or memory, with integers written as floats. *)
Definition as_float (a : arr) : arr := Arr DFloat (a_content a).
Definition floating_memory (h : memory) : memory := Memory (fun p => if Nat.ltb p (next h) then as_float (cells h p) else cells h p) (next h).
Definition floating_given (g : given) : given := match g with Ref p => Ref p | Seq a => Seq (as_float a) end.
Definition floating (c : call) : call :=
  match c with
  | TwoVectors a b => TwoVectors (floating_given a) (floating_given b)
  | Los v => Los (floating_given v)
  | WrapAngle degree angle => WrapAngle degree (floating_given angle)
  | ToSky degree position => ToSky degree (floating_given position)
  | ToCartesian degree dist ra dec => ToCartesian degree (floating_given dist) (floating_given ra) (floating_given dec)
  | Projection vector direction => Projection (floating_given vector) (floating_given direction)
  | Isometry s ti vector => Isometry s ti (floating_given vector)
  | CuboidTransform c ti position => CuboidTransform c ti (floating_given position)
  | CuboidInverse c ti position => CuboidInverse c ti (floating_given position)
  | RsdPosition position velocity f los => RsdPosition position velocity f los
  | Shuffle frac u permute positions => Shuffle frac u permute (floating_given positions)
  | RaRange rarange => RaRange (floating_given rarange)
  end.
(** Calls for which integers and floats are the same. *)
Definition indifferent (c : call) : bool :=
  match c with
  | TwoVectors _ _ | ToCartesian _ _ _ _ | Shuffle _ _ _ _ => false
  | CuboidTransform _ ti _ | CuboidInverse _ ti _ => ti
  | _ => true
  end.
(** Programs in which rotation_matrix_from_two_vectors is not called. *)
Inductive without_two_vectors : script -> Prop :=
| wt_done : without_two_vectors Done
| wt_then : forall c k, (forall a b, c <> TwoVectors a b) -> (forall r, without_two_vectors (k r)) -> without_two_vectors (Then c k).

(** One mock and the catalogs made so far. Methods that a user may call, in any order; methods that raise are caught, and change no reference. *)
Record world : Type := World { w_mock : option mock_object; w_catalogs : list catalog_object }.
Inductive action : Type :=
| Sample (position disps : list vec) (wrapped : vec -> vec)
| SetRsd (f : factor) (los : option axis_arg)
| Export (boxsize : vec)
| Move (i : nat) (s : iso)
| Pad (i : nat) (factors : vec).
Fixpoint replace {A} (i : nat) (a : A) (l : list A) : list A := match l, i with [], _ => [] | _ :: l, O => a :: l | b :: l, S i => b :: replace i a l end.
(** [copies]: catalogs copy the arrays they are given, and their attributes when copied. A padded catalog is a new one; its columns are new (make_survey.py:886). *)
Definition act (copies : bool) (a : action) (w : world) (h : memory) : memory * world :=
  match a with
  | Sample position disps wrapped =>
    let '(h, r) := mock_sample position disps wrapped h in (h, match r with Ok m => World (Some m) (w_catalogs w) | Err _ => w end)
  | SetRsd f los => match w_mock w with None => (h, w) | Some m => (fst (mock_set_rsd m f los h), w) end
  | Export boxsize =>
    match w_mock w with
    | None => (h, w)
    | Some m => let '(h, r) := export copies m boxsize h in (h, match r with Ok c => World (w_mock w) (w_catalogs w ++ [c]) | Err _ => w end)
    end
  | Move i s =>
    match nth_error (w_catalogs w) i with
    | None => (h, w)
    | Some c => let '(h, r) := catalog_move s c h in (h, match r with Ok c => World (w_mock w) (replace i c (w_catalogs w)) | Err _ => w end)
    end
  | Pad i factors =>
    match nth_error (w_catalogs w) i with
    | None => (h, w)
    | Some c =>
      let '(h, r) := (let* b := pad_box copies factors c in let* p := load (co_position c) in let* v := load (co_vector c) in
                      let* p := alloc p in let* v := alloc v in ret (CatalogObject p v b)) h in
      (h, match r with Ok c => World (w_mock w) (w_catalogs w ++ [c]) | Err _ => w end)
    end
  end.
Definition history (copies : bool) (l : list action) : memory * world :=
  fold_left (fun x a => act copies a (snd x) (fst x)) l (Memory (fun _ => Arr DFloat (Flat [])) 0, World None []).
(** What a user sees of catalog [i]: positions, vectors, size of the box. *)
Definition seen (h : memory) (w : world) (i : nat) : option (arr * arr * arr) :=
  match nth_error (w_catalogs w) i with Some c => Some (cells h (co_position c), cells h (co_vector c), cells h (co_boxsize c)) | None => None end.
