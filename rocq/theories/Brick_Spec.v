(** Specification of brick quantities. *)
Require Import Reals ZArith List Bool String Permutation.
From Verif Require Import Base Brick_Model.
Import ListNotations.
Open Scope string_scope.

(** An object is a position (right ascension, declination). The declination of a brick's centre is the same for all of its objects. *)
Definition one_centre (b : bricks) : Prop := forall ra dec ra' dec', b_name b ra dec = b_name b ra' dec' -> b_dec b ra dec = b_dec b ra' dec'.
Definition brick_of (b : bricks) (p : R * R) : string := b_name b (fst p) (snd p).
(** Bricks centred above declination 32.375 are in the north. *)
Definition in_region (b : bricks) (p : R * R) (region : string) : Prop :=
  ((32.375 < b_dec b (fst p) (snd p))%R /\ region = "north") \/ (~ (32.375 < b_dec b (fst p) (snd p))%R /\ region = "south").

(** The sorting of names keeps the names; the exchange of rows between processes keeps the rows. *)
Definition keeps_names (sort : list string -> list string) : Prop := forall l, Permutation (sort l) l.
Definition keeps_rows (exchange : list brow -> list (list brow)) : Prop := forall rows, Permutation (List.concat (exchange rows)) rows.

(** The value the file of a brick has at a position: row and column of the pixel the position is in. *)
Definition file_value (im : image) (p : R * R) (v : value) : Prop :=
  exists x y, i_pixel im (fst p) (snd p) = (x, y) /\ (0 <= x < i_nx im)%Z /\ (0 <= y < i_ny im)%Z /\ v = i_at im y x.
(** The value an object should have: what the file of its own brick has at its own position, or the default where there is no file. *)
Definition own_value (files : string -> option image) (b : bricks) (fn : string -> string -> string) (default : option value) (p : R * R) (v : value) : Prop :=
  exists region, in_region b p region /\
    match files (fn region (brick_of b p)) with
    | Some im => file_value im p v
    | None => default = Some v
    end.
(** Files hold values of one kind, and reach all positions of their brick. *)
Definition holds_kind (files : string -> option image) (b : bricks) (fn : string -> string -> string) (k : kind) (positions : list (R * R)) : Prop :=
  forall region p im, In p positions -> files (fn region (brick_of b p)) = Some im -> i_kind im = k /\ (forall y x, kind_of (i_at im y x) = k).
Definition reaches (files : string -> option image) (b : bricks) (fn : string -> string -> string) (positions : list (R * R)) : Prop :=
  forall region p im, In p positions -> files (fn region (brick_of b p)) = Some im ->
    exists x y, i_pixel im (fst p) (snd p) = (x, y) /\ (0 <= x < i_nx im)%Z /\ (0 <= y < i_ny im)%Z.

(** What the registered names stand for, for object number [i]. *)
Inductive registered_value (b : bricks) (i : nat) (p : R * R) : string -> value -> Prop :=
  | reg_north : in_region b p "north" -> registered_value b i p "photsys" (VStr "N")
  | reg_south : in_region b p "south" -> registered_value b i p "photsys" (VStr "S")
  | reg_ra : registered_value b i p "ra" (VFloat (fst p))
  | reg_dec : registered_value b i p "dec" (VFloat (snd p))
  | reg_name : registered_value b i p "brickname" (VStr (brick_of b p))
  | reg_id : registered_value b i p "brickid" (VInt (b_id b (fst p) (snd p)))
  | reg_index : registered_value b i p "index" (VInt (Z.of_nat i)).

(** A callable working object by object: it gives a dictionary where [name] has kind [k] and, for each object, the value [f]. *)
Definition dictionary (call : list brow -> string -> list (string * string) -> result (list (string * array))) : Prop :=
  forall rows brickname options items, call rows brickname options = Ok items -> NoDup (map fst items).
Definition object_by_object (call : list brow -> string -> list (string * string) -> result (list (string * array))) (name : string) (k : kind) (f : R -> R -> string -> list (string * string) -> value) : Prop :=
  forall rows brickname options items, call rows brickname options = Ok items ->
    exists a, In (name, a) items /\ a_kind a = k /\ a_values a = map (fun r => f (r_ra r) (r_dec r) brickname options) rows.
(** A column that does not set [name]. *)
Definition leaves (name : string) (c : column) : Prop :=
  match c with
  | Registered n => n <> name
  | Mapped n _ _ _ => n <> name
  | Called call _ => forall rows brickname options items, call rows brickname options = Ok items -> ~ In name (map fst items)
  end.
Definition is_dictionary (c : column) : Prop := match c with Called call _ => dictionary call | _ => True end.

(** Values of all objects, in the order of objects: object number i+n has the n-th value. *)
Fixpoint in_order (good : nat -> R * R -> value -> Prop) (i : nat) (positions : list (R * R)) (l : list (option value)) : Prop :=
  match positions, l with
  | [], [] => True
  | p :: positions, Some v :: l => good i p v /\ in_order good (S i) positions l
  | _, _ => False
  end.

(** numpy's conversion to the dtype asked for, if any. *)
Inductive converted : option kind -> value -> value -> Prop :=
  | conv_none : forall v, converted None v v
  | conv_int : forall z, converted (Some KInt) (VInt z) (VInt z)
  | conv_trunc : forall x, converted (Some KInt) (VFloat x) (VInt (Rtrunc x))
  | conv_real : forall z, converted (Some KFloat) (VInt z) (VFloat (IZR z))
  | conv_float : forall x, converted (Some KFloat) (VFloat x) (VFloat x)
  | conv_str : forall s, converted (Some KStr) (VStr s) (VStr s).
(** A column of kind [k], whatever the bricks: a dtype is given, or files and default hold values of this kind. *)
Definition one_kind (files : string -> option image) (b : bricks) (fn : string -> string -> string) (dtype : option kind) (default : option value) (k : kind) (positions : list (R * R)) : Prop :=
  dtype = Some k \/ (dtype = None /\ holds_kind files b fn k positions /\ forall v, default = Some v -> kind_of v = k).
(** Names that can be registered, in any case. *)
Definition known (name : string) : Prop := In (lower name) ["photsys"; "ra"; "dec"; "brickname"; "brickid"; "index"].
(** Columns that can be read: names known, files reaching the positions, a default given, values that can be converted. *)
Definition readable (files : string -> option image) (b : bricks) (positions : list (R * R)) (c : column) : Prop :=
  match c with
  | Registered name => known name
  | Mapped name fn dtype default =>
    reaches files b fn positions /\ (exists k, one_kind files b fn dtype default k positions) /\
    (exists v w, default = Some v /\ converted dtype v w) /\
    (forall region p im y x, In p positions -> files (fn region (brick_of b p)) = Some im -> exists w, converted dtype (i_at im y x) w)
  | Called _ _ => False
  end.
Definition name_of (c : column) : string := match c with Registered n => n | Mapped n _ _ _ => n | Called _ _ => "" end.
