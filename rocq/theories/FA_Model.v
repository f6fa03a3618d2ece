(** Model of desi/fiber_assignment.py: passes of fibre assignment, and completeness weights. fiberassign, desimodel and the exchange
    of rows between processes (mpytools' csort) are arguments. Logging and timing are left out. *)
Require Import Reals ZArith List Bool.
From Verif Require Import Base Box_Model Blind_Model.
Import ListNotations.
Open Scope Z_scope.

(** What is read of the table of tiles. *)
Record tile : Type := Tile { tile_id : Z; tile_program : String.string; tile_pass : Z }.

(** What is read of fiberassign's Assignment for one tile: tile_location_target (location, target) and targets_avail().tile_data (location,
    targets). *)
Record assignment : Type := Assignment { a_located : list (Z * Z); a_avail : list (Z * list Z) }.
Fixpoint zassoc {A} (k : Z) (l : list (Z * A)) : option A :=
  match l with
  | [] => None
  | (n, a) :: l => if n =? k then Some a else zassoc k l
  end.
(** np.unique(..., return_index=True) on the first column: the first row of each value. Rows are then sorted in the code; they are only
    looked up by value afterwards, the order is left out. *)
Fixpoint first_rows (seen : list Z) (l : list (Z * Z)) : list (Z * Z) :=
  match l with
  | [] => []
  | (t, f) :: l => if existsb (Z.eqb t) seen then first_rows seen l else (t, f) :: first_rows (t :: seen) l
  end.
(** fiber_assignment.py:279-333 [_extract_info_assignment], for one tile (it is called tile by tile, line 411): [fiber] is loc_fiber,
    [science] is the test on the type of a target. Columns TARGETID and FIBER of the two tables. *)
Definition extract_info (fiber : Z -> result Z) (science : Z -> bool) (a : assignment) : result (list (Z * Z) * list (Z * Z)) :=
  match filter (fun x : Z * Z => science (snd x)) (a_located a) with
  | [] => Ok ([], [])
  | located =>
    do assigned <- map_result (fun x : Z * Z => do f <- fiber (fst x); Ok (snd x, f)) located;
    do avail <- map_result (fun x : Z * list Z => do f <- fiber (fst x); Ok (f, snd x)) (a_avail a);
    let ok := filter (fun x : Z * list Z => existsb (Z.eqb (fst x)) (map snd assigned)) avail in
    match flat_map (fun x : Z * list Z => map (fun t => (t, fst x)) (filter science (snd x))) ok with
    | [] => Err IndexError
    | pairs => Ok (assigned, first_rows [] pairs)
    end
  end.

(** fiber_assignment.py:352-365: values of ZWARN of the 10 petals; the file of a petal may be missing. [bad_petal], [nodata], [bad] are the masks
    BAD_PETALQA, NODATA and BAD_SPECQA|BAD_PETALQA. *)
Definition zwarn_of (bad_petal : Z) (petals : list (option (list Z))) : list Z :=
  List.concat (map (fun p : option (list Z) => match p with Some z => z | None => repeat bad_petal 500 end) petals).
Definition good_fibers (bad_petal nodata bad : Z) (petals : list (option (list Z))) : result (Z -> bool) :=
  let zwarn := zwarn_of bad_petal petals in
  if negb (Nat.eqb (List.length zwarn) 5000) then Err IndexError else
  Ok (fun f => (0 <=? f) && (f <? 5000) && (let z := nth (Z.to_nat f) zwarn 0 in (Z.land z nodata =? 0) && (Z.land z bad =? 0))).

(** Rows of a pass (fiber_assignment.py:502-505). *)
Record prow : Type := PRow { p_id : Z; p_more : Z; p_numobs : Z; p_available : bool; p_tile : Z; p_obs : bool; p_fiber : Z; p_index : nat }.
(** fiber_assignment.py:336-382 [_apply_mtl_one_tile]. desitarget's match, that requires identifiers to be unique, is a lookup by identifier. *)
Definition mark_available (avail : list (Z * Z)) (r : prow) : prow :=
  match zassoc (p_id r) avail with
  | Some f => PRow (p_id r) (p_more r) (p_numobs r) true (p_tile r) (p_obs r) f (p_index r)
  | None => r
  end.
Definition mark_assigned (assigned : list (Z * Z)) (r : prow) : prow :=
  match zassoc (p_id r) assigned with
  | Some f => PRow (p_id r) (p_more r - 1) (p_numobs r + 1) (p_available r) (p_tile r) true f (p_index r)
  | None => r
  end.
Definition apply_mtl (good : Z -> bool) (assigned avail : list (Z * Z)) (rows : list prow) : list prow :=
  let assigned := filter (fun x : Z * Z => good (snd x)) assigned in
  let avail := filter (fun x : Z * Z => good (snd x)) avail in
  map (fun r => mark_assigned assigned (mark_available avail r)) rows.

(** What fiberassign, the hardware and the spectroscopic pipeline give for a tile: the assignment of rows, the fibres of locations, the type of
    targets, and the flags of fibres. *)
Record world : Type := World { w_assign : Z -> list prow -> assignment; w_fiber : Z -> Z -> result Z; w_science : Z -> bool; w_good : Z -> result (Z -> bool) }.
(** fiber_assignment.py:385-420 [_run_fiber_assignment_one_tile]. The rows are all those of the process. *)
Definition one_tile (w : world) (t : Z) (rows : list prow) : result (list prow) :=
  do info <- extract_info (w_fiber w t) (w_science w) (w_assign w t rows);
  do good <- w_good w t;
  Ok (apply_mtl good (fst info) (snd info) rows).
(** fiber_assignment.py:423-442 [_run_fiber_assignment_one_pass]. *)
Fixpoint one_pass (w : world) (tiles : list Z) (rows : list prow) : result (list prow) :=
  match tiles with
  | [] => Ok rows
  | t :: tiles => do rows <- one_tile w t rows; one_pass w tiles rows
  end.
(** fiber_assignment.py:520-524: tiles treated by a process. *)
Definition on_process (w : world) (tiles : list Z) (rows : list prow) : result (list prow) :=
  one_pass w (filter (fun t => existsb (Z.eqb t) (map p_tile rows)) tiles) rows.

(** A sort on a key (csort, lines 530 and 653). *)
Fixpoint insert_by {A} (key : A -> nat) (r : A) (l : list A) : list A :=
  match l with
  | [] => [r]
  | x :: l => if Nat.leb (key r) (key x) then r :: x :: l else x :: insert_by key r l
  end.
Definition sort_by {A} (key : A -> nat) (l : list A) : list A := fold_right (insert_by key) [] l.
Fixpoint list_eqb {A} (eqb : A -> A -> bool) (l m : list A) : bool :=
  match l, m with
  | [], [] => true
  | a :: l, b :: m => eqb a b && list_eqb eqb l m
  | _, _ => false
  end.

(** Targets, with one FIBER and OBS_PASS per pass. *)
Record target : Type := Target { t_id : Z; t_pos : R * R; t_more : Z; t_numobs : Z; t_available : bool; t_fiber : list Z; t_obs : list bool }.
Fixpoint set_nth {A} (n : nat) (a : A) (l : list A) : list A :=
  match n, l with
  | O, _ :: l => a :: l
  | S n, x :: l => x :: set_nth n a l
  | _, [] => []
  end.
(** fiber_assignment.py:482-485. *)
Definition start (npasses : nat) (t : target) : target := Target (t_id t) (t_pos t) (t_more t) 0 false (repeat (-1) npasses) (repeat false npasses).
(** fiber_assignment.py:488, 492-493: identifier of the first tile over a point, or -1; [find] is desimodel's find_tiles_over_point. *)
Definition tiles_in (tiles : list tile) (pass : nat) : list tile := filter (fun t => tile_pass t =? Z.of_nat pass) tiles.
Definition tile_over (find : list tile -> R * R -> list nat) (tiles : list tile) (pos : R * R) : result Z :=
  match find tiles pos with
  | [] => Ok (-1)
  | i :: _ => match nth_error tiles i with Some t => Ok (tile_id t) | None => Err IndexError end
  end.
(** fiber_assignment.py:497-505; csort by tile (line 512) is applied to the result. *)
Definition in_pass (tid : Z) (t : target) : bool := (0 <=? tid) && (1 <=? t_more t).
Fixpoint pass_rows (i : nat) (tids : list Z) (targets : list target) : list prow :=
  match tids, targets with
  | tid :: tids, t :: targets =>
    if in_pass tid t then PRow (t_id t) (t_more t) (t_numobs t) (t_available t) tid false (-1) i :: pass_rows (S i) tids targets else pass_rows i tids targets
  | _, _ => []
  end.
(** fiber_assignment.py:536-540. *)
Definition update_target (pass : nat) (t : target) (r : prow) : result target :=
  Ok (Target (t_id t) (t_pos t) (p_more r) (p_numobs r) (p_available r) (set_nth pass (p_fiber r) (t_fiber t)) (set_nth pass (p_obs r) (t_obs t))).
(** fiber_assignment.py:487-540: one pass; [exchange] distributes rows over processes, by tile (line 512). *)
Definition run_pass (w : world) (find : list tile -> R * R -> list nat) (exchange : list prow -> list (list prow)) (tiles : list tile) (pass : nat) (targets : list target) : result (list target) :=
  let tiles := tiles_in tiles pass in
  do tids <- map_result (fun t => tile_over find tiles (t_pos t)) targets;
  let rows := pass_rows 0 tids targets in
  do out <- map_result (on_process w (map tile_id tiles)) (exchange rows);
  let back := sort_by p_index (List.concat out) in
  if negb (list_eqb Nat.eqb (map p_index back) (map p_index rows)) then Err AssertionError else
  assign (update_target pass) (map (fun x : Z * target => in_pass (fst x) (snd x)) (combine tids targets)) back targets.
(** fiber_assignment.py:445-544 [apply_fiber_assignment]; the world may change from pass to pass. *)
Fixpoint run_passes (w : nat -> world) (find : list tile -> R * R -> list nat) (exchange : nat -> list prow -> list (list prow)) (tiles : list tile) (passes : list nat) (targets : list target) : result (list target) :=
  match passes with
  | [] => Ok targets
  | pass :: passes => do targets <- run_pass (w pass) find (exchange pass) tiles pass targets; run_passes w find exchange tiles passes targets
  end.
Definition apply_fiber_assignment (w : nat -> world) (find : list tile -> R * R -> list nat) (exchange : nat -> list prow -> list (list prow)) (tiles : list tile) (npasses : nat) (targets : list target) : result (list target) :=
  run_passes w find exchange tiles (seq 0 npasses) (map (start npasses) targets).

(** Completeness weights: rows of a pass (fiber_assignment.py:635-641); None is nan. *)
Record crow : Type := CRow { c_weight : option Z; c_tile : Z; c_obs : bool; c_fiber : Z; c_unused : bool; c_index : nat }.
Definition wanted (r : crow) : bool := c_unused r && negb (c_fiber r =? -1).
(** np.unique(..., return_counts=True) (fiber_assignment.py:575). *)
Definition count (f : Z) (fibers : list Z) : Z := Z.of_nat (List.length (filter (Z.eqb f) fibers)).
(** fiber_assignment.py:563-592: one tile. match, that requires fibres of observed targets to be unique, is a lookup. *)
Definition weigh_row (fibers : list Z) (r : crow) : crow :=
  CRow (if c_obs r && existsb (Z.eqb (c_fiber r)) fibers then option_map (fun w => w + count (c_fiber r) fibers) (c_weight r) else c_weight r)
    (c_tile r) (c_obs r) (c_fiber r) (if wanted r then false else c_unused r) (c_index r).
Definition weigh_tile (t : Z) (rows : list crow) : list crow :=
  let fibers := map c_fiber (filter wanted (filter (fun r => c_tile r =? t) rows)) in
  map (fun r => if c_tile r =? t then weigh_row fibers r else r) rows.
(** fiber_assignment.py:547-592 [_compute_completeness_weight_one_pass]; lines 648-650. The same text is in fiber_assignment_v0.py:590-632. *)
Definition weigh_process (tiles : list Z) (rows : list crow) : list crow :=
  fold_left (fun rows t => weigh_tile t rows) (filter (fun t => existsb (Z.eqb t) (map c_tile rows)) tiles) rows.
(** Targets with COMP_WEIGHT and not_used_for_comp_weight (fiber_assignment.py:620-625). *)
Record weighted : Type := Weighted { g_target : target; g_weight : option Z; g_unused : bool }.
Definition start_weight (t : target) : weighted := Weighted t (if t_numobs t =? 0 then None else Some 1) (t_available t && (t_numobs t =? 0)).
(** fiber_assignment.py:632-641. FIBER and OBS_PASS are of shape (size, npasses): a column out of range is an IndexError. *)
Fixpoint weight_rows (pass : nat) (i : nat) (tids : list Z) (l : list weighted) : result (list crow) :=
  match tids, l with
  | tid :: tids, g :: l =>
    if 0 <=? tid then
      match nth_error (t_obs (g_target g)) pass, nth_error (t_fiber (g_target g)) pass with
      | Some o, Some f => do rows <- weight_rows pass (S i) tids l; Ok (CRow (g_weight g) tid o f (g_unused g) i :: rows)
      | _, _ => Err IndexError
      end
    else weight_rows pass i tids l
  | _, _ => Ok []
  end.
(** fiber_assignment.py:658-659. *)
Definition update_weight (g : weighted) (r : crow) : result weighted := Ok (Weighted (g_target g) (c_weight r) (c_unused r)).
(** fiber_assignment.py:627-659. *)
Definition weigh_pass (find : list tile -> R * R -> list nat) (exchange : list crow -> list (list crow)) (tiles : list tile) (pass : nat) (l : list weighted) : result (list weighted) :=
  let tiles := tiles_in tiles pass in
  do tids <- map_result (fun g => tile_over find tiles (t_pos (g_target g))) l;
  do rows <- weight_rows pass 0 tids l;
  let back := sort_by c_index (List.concat (map (weigh_process (map tile_id tiles)) (exchange rows))) in
  if negb (list_eqb Nat.eqb (map c_index back) (map c_index rows)) then Err AssertionError else
  assign update_weight (map (fun tid => 0 <=? tid) tids) back l.
Fixpoint weigh_passes (find : list tile -> R * R -> list nat) (exchange : nat -> list crow -> list (list crow)) (tiles : list tile) (passes : list nat) (l : list weighted) : result (list weighted) :=
  match passes with
  | [] => Ok l
  | pass :: passes => do l <- weigh_pass find (exchange pass) tiles pass l; weigh_passes find exchange tiles passes l
  end.
(** fiber_assignment.py:595-665 [compute_completeness_weight]: column COMP_WEIGHT, with the targets. fiber_assignment_v0.py:635-710 is the same but for messages. *)
Definition compute_completeness_weight (find : list tile -> R * R -> list nat) (exchange : nat -> list crow -> list (list crow)) (tiles : list tile) (npasses : nat) (targets : list target) : result (list weighted) :=
  weigh_passes find exchange tiles (seq 0 npasses) (map start_weight targets).
