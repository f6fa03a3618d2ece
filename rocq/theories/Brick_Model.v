(** Model of desi/brick_pixel_quantities.py. desiutil's Bricks, files, the world coordinate system and csort are arguments. Logging is left out; coordinates are
    flat (the shape given is restored at the end). *)
Require Import Reals ZArith List Bool String Ascii.
From Verif Require Import Base Box_Model Blind_Model FA_Model.
Import ListNotations.
Open Scope string_scope.

(** Values in arrays, and kinds of arrays. *)
Inductive kind : Type := KInt | KFloat | KStr.
Inductive value : Type := VInt (z : Z) | VFloat (x : R) | VStr (s : string).
Definition kind_of (v : value) : kind := match v with VInt _ => KInt | VFloat _ => KFloat | VStr _ => KStr end.
(** Assignment of a value to an item of an array: a float is truncated in an array of integers. Numbers assigned to strings are not modelled (ExternalError). *)
Definition cast (k : kind) (v : value) : result value :=
  match k, v with
  | KInt, VFloat x => Ok (VInt (Rtrunc x))
  | KFloat, VInt z => Ok (VFloat (IZR z))
  | KInt, VStr _ | KFloat, VStr _ => Err ValueError
  | KStr, VInt _ | KStr, VFloat _ => Err ExternalError
  | _, _ => Ok v
  end.
Record array : Type := Array { a_kind : kind; a_values : list value }.

(** str.lower on ASCII. *)
Fixpoint lower (s : string) : string :=
  match s with
  | EmptyString => EmptyString
  | String c s => String (let n := nat_of_ascii c in if Nat.leb 65 n && Nat.leb n 90 then ascii_of_nat (n + 32) else c) (lower s)
  end.

(** desiutil.brick.Bricks: name and identifier of the brick of a position, declination of the centre of this brick. *)
Record bricks : Type := Bricks { b_name : R -> R -> string; b_id : R -> R -> Z; b_dec : R -> R -> R }.
(** brick_pixel_quantities.py:84-86: rows of brickid_data. *)
Record brow : Type := BRow { r_ra : R; r_dec : R; r_name : string; r_id : Z; r_index : nat }.
Definition row_at (b : bricks) (i : nat) (p : R * R) : brow := BRow (fst p) (snd p) (b_name b (fst p) (snd p)) (b_id b (fst p) (snd p)) i.
Fixpoint rows_at (b : bricks) (i : nat) (l : list (R * R)) : list brow := match l with [] => [] | p :: l => row_at b i p :: rows_at b (S i) l end.

(** An image: the pixel of a position (wcs_world2pix and np.round), numbers of rows and columns, and pixels. *)
Record image : Type := Image { i_pixel : R -> R -> Z * Z; i_ny : Z; i_nx : Z; i_kind : kind; i_at : Z -> Z -> value }.
(** Python's negative indices. *)
Definition index (n i : Z) : result Z := if (0 <=? i)%Z && (i <? n)%Z then Ok i else if (- n <=? i)%Z && (i <? 0)%Z then Ok (i + n)%Z else Err IndexError.
Definition pixel (im : image) (r : brow) : result value :=
  let p := i_pixel im (r_ra r) (r_dec r) in
  do y <- index (i_ny im) (snd p); do x <- index (i_nx im) (fst p); Ok (i_at im y x).
(** np.asarray(values, dtype=...) and np.full(size, default, dtype=...). The default None is nan in an array of floats and an object otherwise: not modelled. *)
Definition as_array (dtype : option kind) (k : kind) (l : list value) : result array :=
  match dtype with
  | None => Ok (Array k l)
  | Some d => do l <- map_result (cast d) l; Ok (Array d l)
  end.
(** brick_pixel_quantities.py:65-80 [_one_brick]. *)
Definition one_brick (files : string -> option image) (fn : string) (rows : list brow) (dtype : option kind) (default : option value) : result array :=
  match files fn with
  | Some im => do l <- map_result (pixel im) rows; as_array dtype (i_kind im) l
  | None =>
    match default with
    | None => Err ExternalError
    | Some v => as_array dtype (kind_of v) (map (fun _ => v) rows)
    end
  end.

(** Columns asked for (brick_pixel_quantities.py:103-121): None; a path, as a function of region and brick; or a callable, given the values of its options once
    [region] is replaced in them. *)
Inductive column : Type :=
  | Registered (name : string)
  | Mapped (name : string) (fn : string -> string -> string) (dtype : option kind) (default : option value)
  | Called (call : list brow -> string -> list (string * string) -> result (list (string * array))) (options : string -> list (string * string)).
(** brick_pixel_quantities.py:106-112. *)
Definition registered (region : string) (name : string) (rows : list brow) : result array :=
  if lower name =? "photsys" then Ok (Array KStr (map (fun _ => VStr (if region =? "north" then "N" else "S")) rows))
  else if lower name =? "ra" then Ok (Array KFloat (map (fun r => VFloat (r_ra r)) rows))
  else if lower name =? "dec" then Ok (Array KFloat (map (fun r => VFloat (r_dec r)) rows))
  else if lower name =? "brickname" then Ok (Array KStr (map (fun r => VStr (r_name r)) rows))
  else if lower name =? "brickid" then Ok (Array KInt (map (fun r => VInt (r_id r)) rows))
  else if lower name =? "index" then Ok (Array KInt (map (fun r => VInt (Z.of_nat (r_index r))) rows))
  else Err ValueError.
Definition quantities (files : string -> option image) (region brickname : string) (rows : list brow) (c : column) : result (list (string * array)) :=
  match c with
  | Registered name => do a <- registered region name rows; Ok [(name, a)]
  | Mapped name fn dtype default => do a <- one_brick files (fn region brickname) rows dtype default; Ok [(name, a)]
  | Called call options => call rows brickname (options region)
  end.
(** brick_pixel_quantities.py:102-121: the dictionary of a brick. *)
Fixpoint brick_items (files : string -> option image) (region brickname : string) (rows : list brow) (columns : list column) (tmp : list (string * array)) : result (list (string * array)) :=
  match columns with
  | [] => Ok tmp
  | c :: columns => do items <- quantities files region brickname rows c; brick_items files region brickname rows columns (update tmp items)
  end.
(** brick_pixel_quantities.py:122-125: arrays of a process, None where np.empty_like is not filled. *)
Definition pdata := list (string * (kind * list (option value))).
Definition put (k : kind) (o : option value) (v : value) : result (option value) := do v <- cast k v; Ok (Some v).
Definition store (size : nat) (mask : list bool) (data : pdata) (item : string * array) : result pdata :=
  let '(name, a) := item in
  let '(k, l) := match assoc name data with Some c => c | None => (a_kind a, repeat None size) end in
  if negb (Nat.eqb (List.length (a_values a)) (List.length (filter (fun b : bool => b) mask))) then Err ValueError else
  do l <- assign (put k) mask (a_values a) l; Ok (set_item name (k, l) data).
Fixpoint store_all (size : nat) (mask : list bool) (data : pdata) (items : list (string * array)) : result pdata :=
  match items with
  | [] => Ok data
  | item :: items => do data <- store size mask data item; store_all size mask data items
  end.
(** brick_pixel_quantities.py:97-125; [names] is np.unique of the names. *)
Definition do_brick (files : string -> option image) (b : bricks) (columns : list column) (rows : list brow) (data : pdata) (name : string) : result pdata :=
  let mask := map (fun r => r_name r =? name) rows in
  let mine := filter (fun r => r_name r =? name) rows in
  match mine with
  | [] => Err IndexError
  | r :: _ =>
    let region := if Rltb (32375 / 1000) (b_dec b (r_ra r) (r_dec r)) then "north" else "south" in
    do items <- brick_items files region name mine columns [];
    store_all (List.length rows) mask data items
  end.
Fixpoint do_bricks (files : string -> option image) (b : bricks) (columns : list column) (rows : list brow) (names : list string) (data : pdata) : result pdata :=
  match names with
  | [] => Ok data
  | name :: names => do data <- do_brick files b columns rows data name; do_bricks files b columns rows names data
  end.
(** np.unique of strings; [sort] is the order of strings. *)
Fixpoint uniques (l : list string) : list string :=
  match l with [] => [] | s :: l => s :: filter (fun x => negb (x =? s)) (uniques l) end.
Definition on_rows (files : string -> option image) (b : bricks) (columns : list column) (sort : list string -> list string) (rows : list brow) : result pdata :=
  do_bricks files b columns rows (sort (uniques (map r_name rows))) [].
(** brick_pixel_quantities.py:127-145: columns of processes that have rows, together with the index; they must be the same on all of them. *)
Definition gather_column (name : string) (parts : list (list brow * pdata)) : result (list (nat * option value)) :=
  do ls <- map_result (fun p : list brow * pdata => match assoc name (snd p) with Some c => Ok (combine (map r_index (fst p)) (snd c)) | None => Err KeyError end) parts;
  Ok (List.concat ls).
Definition gather (indices : list nat) (parts : list (list brow * pdata)) : result (list (string * list (option value))) :=
  match parts with
  | [] => Ok []
  | p :: _ =>
    map_result (fun c : string * (kind * list (option value)) =>
      do l <- gather_column (fst c) parts;
      let l := sort_by fst l in
      if negb (list_eqb Nat.eqb (map fst l) indices) then Err AssertionError else Ok (fst c, map snd l)) (snd p)
  end.
(** brick_pixel_quantities.py:25-145 [get_brick_pixel_quantities]: [positions] of all processes one after another, [exchange] is csort by brickid (line 92). *)
Definition get_brick_pixel_quantities (files : string -> option image) (b : bricks) (sort : list string -> list string) (exchange : list brow -> list (list brow)) (columns : list column) (positions : list (R * R)) : result (list (string * list (option value))) :=
  match columns, positions with
  | [], _ | _, [] => Ok []
  | _, _ =>
    let rows := rows_at b 0 positions in
    do parts <- map_result (fun part => do data <- on_rows files b columns sort part; Ok (part, data)) (filter (fun part => negb (Nat.eqb (List.length part) 0)) (exchange rows));
    gather (map r_index rows) parts
  end.
