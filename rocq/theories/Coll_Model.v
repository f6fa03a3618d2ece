(** Communication of the functions that run on several processes. A process is the tree of its collective calls: it returns, raises, or makes a
    call with a message and goes on with the answer. Computations between calls are arguments, so that they stand for any data.
    Simplifications: there is one communicator; calls of external packages that communicate (mpytools csort, cindex, gather, scatter, reduce,
    MPIRandomState, bcast_seed; pmesh create and unravel) are one collective call each. *)
Require Import Reals ZArith String List Bool.
From Verif Require Import Base.
Import ListNotations.

(** Messages. *)
Inductive msg : Type := MNone | MInt (z : Z) | MReal (r : R) | MBool (b : bool) | MStr (s : string) | MData (l : list Z) | MMany (l : list msg).
(** Collective calls. Processes must call the same one, with the same root. *)
Inductive coll : Type := Barrier | Sum | Bcast (root : nat) | Allgather | Gather (root : nat) | Scatter (root : nat) | Exchange (key : string) | Reduce (name : string).
CoInductive prog (A : Type) : Type :=
| Ret (a : A)
| Raise (e : err)
| Call (op : coll) (m : msg) (k : msg -> prog A).
Arguments Ret {A} _. Arguments Raise {A} _. Arguments Call {A} _ _ _.
CoFixpoint pbind {A B} (p : prog A) (f : A -> prog B) : prog B :=
  match p with
  | Ret a => f a
  | Raise e => Raise e
  | Call op m k => Call op m (fun v => pbind (k v) f)
  end.
Definition lift {A} (r : result A) : prog A := match r with Ok a => Ret a | Err e => Raise e end.
Notation "'act' x <- p ; q" := (pbind p (fun x => q)) (at level 200, x name, p at level 100, q at level 200).
Definition call (op : coll) (m : msg) : prog msg := Call op m (fun v => Ret v).

Section Loops.
(** make_survey.py:1338-1354 (redshifts), 1705-1722 (angles): [fresh] is the seed drawn by this process if none is given, [accepted seed] the number of draws that the mask keeps. Lines 1327, 1693: [sample], whose generator knows the sizes of all processes. *)
CoFixpoint sample_loop (size : Z) (fresh : Z) (accepted : Z -> nat) (seed : option Z) (dsize : Z) (total : nat) (rounds : nat) (cdsize : msg) : prog nat :=
  match cdsize with
  | MInt c =>
      if (0 <? c)%Z then
        Call (Bcast 0) (MInt (match seed with Some s => s | None => fresh end)) (fun s =>
          Call Allgather (MInt size) (fun _ =>
            let s' := match s with MInt s => (s + 1)%Z | _ => 0%Z end in
            let n := accepted s' in
            Call Sum (MInt (dsize - Z.of_nat n)) (fun c' => sample_loop size fresh accepted (Some s') (dsize - Z.of_nat n) (total + n) (S rounds) c')))
      else match rounds with
           | O => Raise ValueError
           | _ => Call Allgather (MInt (Z.of_nat total)) (fun _ => Call Allgather (MInt size) (fun _ => Call (Exchange "get") (MInt size) (fun _ => Ret total)))
           end
  | _ => Raise TypeError
  end.
Definition sample_prog (size : Z) (fresh : Z) (accepted : Z -> nat) (seed : option Z) : prog nat :=
  Call Sum (MInt size) (fun c => sample_loop size fresh accepted seed size 0 0 c).
End Loops.

(** blinding/catalog.py:183-196 [_format_positions]: [formatted] is what this process makes of its positions (None when there are none), [Err] for an error that is returned. *)
Definition is_str (m : msg) : bool := match m with MStr _ => true | _ => false end.
Definition format_positions (mpiroot : option nat) (rank : nat) (formatted : option (string + list Z)) : prog msg :=
  let here := match mpiroot with None => true | Some r => Nat.eqb rank r end in
  let error := if here then match formatted with Some (inl e) => MStr e | _ => MNone end else MNone in
  let positions := match formatted with Some (inr l) => MData l | _ => MNone end in
  act errors <- call Allgather error;
  if existsb is_str (match errors with MMany l => l | _ => [] end) then Raise ValueError
  else match mpiroot with
       | None => Ret positions
       | Some r =>
           act some <- call (Bcast r) (MBool (match positions with MNone => false | _ => true end));
           match some with MBool true => call (Scatter r) positions | _ => Ret positions end
       end.
(** blinding/catalog.py:200-217 [_format_weights]; [size] is the number of positions of this process after they were scattered. *)
Definition is_none (m : msg) : bool := match m with MNone => true | _ => false end.
Definition format_weights (mpiroot : option nat) (weights : msg) (size : option nat) : prog msg :=
  act weights <- match mpiroot with
    | None => act nones <- call Allgather (MBool (is_none weights));
              let l := match nones with MMany l => l | _ => [] end in
              if existsb (fun m => match m with MBool b => b | _ => false end) l && negb (forallb (fun m => match m with MBool b => b | _ => false end) l) then Raise ValueError else Ret weights
    | Some r => call (Scatter r) weights
    end;
  match size, weights with
  | Some n, MData l => if Nat.eqb (length l) n then Ret weights else Raise ValueError
  | _, _ => Ret weights
  end.
(** blinding/catalog.py:220-239 [_format_output_positions], 243-247 [_format_output_weights]. *)
Definition format_output_positions (mpiroot : option nat) (positions : msg) : prog msg :=
  match mpiroot with None => Ret positions | Some r => call (Gather r) positions end.
Definition format_output_weights (mpiroot : option nat) (weights : msg) : prog msg :=
  match mpiroot with None => Ret weights | Some r => if is_none weights then Ret weights else call (Gather r) weights end.
(** blinding/catalog.py:371-401 [shuffle]: [frac] is computed from the cosmologies (line 382), [masked] are the distances that are shuffled, [put] puts them back. *)
Definition shuffle_prog (mpiroot : option nat) (rank : nat) (formatted : option (string + list Z)) (frac_above_one : bool) (masked : msg -> list Z) (shuffled : msg -> msg) (put : msg -> msg -> msg) : prog msg :=
  act positions <- format_positions mpiroot rank formatted;
  if is_none positions then Raise TypeError
  else if frac_above_one then Raise ValueError
  else
    act _ <- call Allgather (MInt 0);
    act all <- call (Gather 0) (MData (masked positions));
    act mine <- call (Scatter 0) (if Nat.eqb rank 0 then shuffled all else all);
    format_output_positions mpiroot (put positions mine).

(** blinding/catalog.py:437-458 [rsd]: [recon] is built by pyrecon if it is given by its name, and shifts are read, on all processes. *)
Definition rsd_prog (named : bool) (mpiroot : option nat) (rank : nat) (data randoms : option (string + list Z)) (data_weights randoms_weights : msg) (move : msg -> msg -> msg) : prog msg :=
  act dp <- format_positions mpiroot rank data;
  act _ <- (if named then
              act dw <- format_weights mpiroot data_weights None;
              act rp <- format_positions mpiroot rank randoms;
              act rw <- format_weights mpiroot randoms_weights None;
              call (Exchange "recon") (MMany [dp; dw; rp; rw])
            else Ret MNone);
  act shifts <- call (Exchange "shifts") dp;
  format_output_positions mpiroot (move dp shifts).
(** blinding/catalog.py:507-635 [png]: whether the name of the method is known, is for weights, is for data; shot noise correction. *)
Definition png_prog (known weights data_method shotnoise named : bool) (mpiroot : option nat) (rank : nat) (data randoms : option (string + list Z)) (data_weights randoms_weights : msg) (apply : msg -> msg -> list Z) : prog msg :=
  if negb known then Raise ValueError
  else
    act dp <- format_positions mpiroot rank data;
    act dw <- format_weights mpiroot data_weights None;
    act rp <- format_positions mpiroot rank randoms;
    act rw <- format_weights mpiroot randoms_weights None;
    act _ <- (if named then call (Exchange "recon") (MMany [dp; dw; rp; rw]) else Ret MNone);
    act _ <- call (Exchange "shifts") dp;
    act _ <- call (Exchange "assign_data") dp;
    act _ <- (if is_none rp then Ret MNone else call (Exchange "assign_randoms") rp);
    if negb weights && shotnoise then Raise ValueError
    else
      act _ <- call (Exchange "density") MNone;
      act _ <- (if shotnoise then
                  act _ <- call (Exchange "assign_data") dp;
                  act _ <- call (Exchange "assign_data") dp;
                  act _ <- (if is_none rp then call (Reduce "csum") dw
                            else act _ <- call (Exchange "assign_data") rp; act _ <- call (Reduce "csum") dw; call (Reduce "csum") rw);
                  act _ <- call (Exchange "smooth") MNone;
                  if negb data_method && is_none rp then Raise TypeError else call (Exchange "readout") (if data_method then dp else rp)
                else Ret MNone);
      act _ <- call (Exchange "c2r") MNone;
      if negb data_method && is_none rp then Raise TypeError
      else
        act values <- call (Exchange "readout") (if data_method then dp else rp);
        act _ <- (if weights then Ret MNone else call (Reduce "cmean") values);
        format_output_weights mpiroot (MData (apply (if data_method then dp else rp) values)).

(** desi/brick_pixel_quantities.py:58-147 [get_brick_pixel_quantities]: number of objects of this process, then, once they are sorted ([bricks]: does it have some), its quantities ([Err] if a column is unknown). *)
Definition has_data (m : msg) : bool := match m with MData [] => false | MData _ => true | _ => false end.
Definition brick_prog (no_column : bool) (data : list Z) (read : list Z -> result (list Z)) (check : msg -> bool) : prog msg :=
  if no_column then Ret MNone
  else
    act csize <- call Sum (MInt (Z.of_nat (length data)));
    if (match csize with MInt z => Z.eqb z 0 | _ => false end) then Ret MNone
    else
      act _ <- call Allgather (MInt (Z.of_nat (length data)));
      act sorted <- call (Exchange "brickid") (MData data);
      let mine := match sorted with MData l => l | _ => [] end in
      act _ <- call (Gather 0) (MInt (Z.of_nat (length mine)));
      act quantities <- lift (match mine with [] => Ok [] | _ => read mine end);
      act dtypes <- call Allgather (match quantities with [] => MNone | _ => MBool true end);
      if forallb is_none (match dtypes with MMany l => l | _ => [] end) then Ret MNone
      else
        act back <- call (Exchange "index") (MData quantities);
        if check back then Ret back else Raise AssertionError.

(** desi/fiber_assignment.py:485-544 [apply_fiber_assignment]: [select] takes the targets of a pass, [has_tiles] says if some of the sorted targets are in a tile, [assign] runs fiberassign on them, [update] copies the results. *)
Section Fiber.
Variable select : nat -> list Z -> list Z.
Variable has_tiles : nat -> msg -> bool.
Variable assign : nat -> msg -> msg.
Variable check : nat -> msg -> bool.
Variable update : nat -> list Z -> msg -> list Z.
Definition fa_pass (pass : nat) (targets : list Z) : prog (list Z) :=
  act _ <- call Allgather (MInt (Z.of_nat (length (select pass targets))));
  act _ <- call Barrier MNone;
  act sorted <- call (Exchange "TILEID") (MData (select pass targets));
  act _ <- call Barrier MNone;
  act _ <- call Allgather MNone;
  act _ <- call Barrier MNone;
  act back <- call (Exchange "index") (if has_tiles pass sorted then assign pass sorted else sorted);
  if check pass back then act _ <- call Barrier MNone; Ret (update pass targets back) else Raise AssertionError.
Fixpoint fa_passes (passes : list nat) (targets : list Z) : prog (list Z) :=
  match passes with
  | [] => Ret targets
  | pass :: passes => act targets <- fa_pass pass targets; fa_passes passes targets
  end.
Definition fa_prog (npasses : nat) (targets : list Z) : prog (list Z) :=
  act _ <- call Allgather (MInt (Z.of_nat (length targets)));
  act targets <- fa_passes (seq 0 npasses) targets;
  act _ <- call Barrier MNone;
  Ret targets.
(** desi/fiber_assignment.py:618-665 [compute_completeness_weight]. *)
Definition comp_pass (pass : nat) (targets : list Z) : prog (list Z) :=
  act _ <- call Allgather (MInt (Z.of_nat (length (select pass targets))));
  act sorted <- call (Exchange "TILEID") (MData (select pass targets));
  act back <- call (Exchange "index") (if has_tiles pass sorted then assign pass sorted else sorted);
  if check pass back then act _ <- call (Gather 0) MNone; Ret (update pass targets back) else Raise AssertionError.
Fixpoint comp_passes (passes : list nat) (targets : list Z) : prog (list Z) :=
  match passes with
  | [] => Ret targets
  | pass :: passes => act targets <- comp_pass pass targets; comp_passes passes targets
  end.
Definition comp_prog (npasses : nat) (targets : list Z) : prog (list Z) :=
  act _ <- call (Gather 0) MNone;
  act targets <- comp_passes (seq 0 npasses) targets;
  act _ <- call Barrier MNone;
  Ret targets.
(** desi/fiber_assignment_v0.py:415-457 [_run_fiber_assignment_one_pass]: four barriers. *)
Definition v0_run (pass : nat) (sorted : msg) : prog msg :=
  act _ <- call Barrier MNone;
  act _ <- call Barrier MNone;
  act _ <- call Barrier MNone;
  act _ <- call Barrier MNone;
  Ret (assign pass sorted).
(** desi/fiber_assignment_v0.py:500-587 [apply_fiber_assignment], without sky targets. *)
Definition v0_pass (pass : nat) (targets : list Z) : prog (list Z) :=
  act _ <- call Allgather (MInt (Z.of_nat (length (select pass targets))));
  act sorted <- call (Exchange "TILEID") (MData (select pass targets));
  act _ <- call Barrier MNone;
  act _ <- call Allgather MNone;
  act done <- (if has_tiles pass sorted then v0_run pass sorted else Ret sorted);
  act _ <- call Barrier MNone;
  act back <- call (Exchange "index") done;
  if check pass back then act _ <- call Barrier MNone; Ret (update pass targets back) else Raise AssertionError.
Fixpoint v0_passes (passes : list nat) (targets : list Z) : prog (list Z) :=
  match passes with
  | [] => Ret targets
  | pass :: passes => act targets <- v0_pass pass targets; v0_passes passes targets
  end.
Definition v0_prog (npasses : nat) (targets : list Z) : prog (list Z) :=
  act _ <- call Allgather (MInt (Z.of_nat (length targets)));
  act targets <- v0_passes (seq 0 npasses) targets;
  act _ <- call Barrier MNone;
  Ret targets.
End Fiber.

(** make_survey.py:481-485, 1535-1539, 1575-1579: scatter z, weights, or leave them as they are. *)
Definition scatter_both (mpiroot : option nat) (z weights : msg) : prog (msg * msg) :=
  match mpiroot with
  | None => Ret (z, weights)
  | Some r =>
      act no <- call (Bcast r) (MBool (is_none z));
      act z <- match no with MBool true => Ret z | _ => call (Scatter r) z end;
      act no <- call (Bcast r) (MBool (is_none weights));
      act weights <- match no with MBool true => Ret weights | _ => call (Scatter r) weights end;
      Ret (z, weights)
  end.
(** make_survey.py:478-512 [RedshiftDensityInterpolator]: [bins] is scott (None), a number, or edges. *)
Definition density_prog (mpiroot : option nat) (bins : option (Z + list R)) (z weights : msg) (counts : msg -> msg) : prog msg :=
  act zw <- scatter_both mpiroot z weights;
  if is_none (fst zw) then Raise TypeError
  else
    act _ <- match bins with
      | None => act _ <- call (Reduce "csize") (fst zw); act _ <- call (Reduce "cvar") (fst zw); act _ <- call (Reduce "cmin") (fst zw); call (Reduce "cmax") (fst zw)
      | Some (inl _) => act _ <- call (Reduce "cmin") (fst zw); call (Reduce "cmax") (fst zw)
      | Some (inr _) => Ret MNone
      end;
    call (Reduce "sum") (counts (fst zw)).
(** make_survey.py:1434-1489 [prepare], of the mask (lines 1427, 1593): [derivatives]: splines have a second derivative; [maximum] is found by Newton steps on this process. *)
Definition prepare_prog (norm : option R) (derivatives : bool) (maximum : msg -> R) (below : R -> msg -> bool) (nbar : msg) : prog unit :=
  match norm with
  | Some _ => Ret tt
  | None => if derivatives then act m <- call (Bcast 0) (MReal (maximum nbar)); (if below (match m with MReal r => r | _ => 0%R end) nbar then Raise ValueError else Ret tt) else Ret tt
  end.
(** make_survey.py:1410-1427 [TabulatedRadialMask]: [file] is None for arrays, else what the first process reads ([Err]: the file cannot be read). *)
Definition tabulated_prog (file : option (result (msg * msg))) (rank : nat) (arrays : msg * msg) (refused : msg -> msg -> bool) (norm : option R) (derivatives : bool) (maximum : msg -> R) (below : R -> msg -> bool) : prog msg :=
  act zn <- match file with
    | None => Ret arrays
    | Some read =>
        act zn <- (if Nat.eqb rank 0 then lift read else Ret (MNone, MNone));
        act z <- call (Bcast 0) (fst zn);
        act nbar <- call (Bcast 0) (snd zn);
        Ret (z, nbar)
    end;
  if refused (fst zn) (snd zn) then Raise ValueError
  else act _ <- prepare_prog norm derivatives maximum below (snd zn); Ret (snd zn).
(** A root finder that stops after finitely many values of the function (scipy.optimize.brentq: 100 steps at most). *)
Inductive solver : Type := Stop (x : R) | Give_up (e : err) | Ask (x : R) (k : R -> solver).
(** make_survey.py:1535-1550 [integral] without normalisation of weights; [value x z weights] is the part of this process, [total] the integral without redshifts. *)
Definition as_real (m : msg) : R := match m with MReal r => r | _ => 0%R end.
Definition integral_prog (total : R -> R) (value : R -> msg -> msg -> R) (z weights : msg) (x : R) : prog R :=
  if is_none z then (if is_none weights then Ret (total x) else Raise ValueError)
  else act s <- call Sum (MReal (value x z weights)); Ret (as_real s).
(** make_survey.py:1584-1590: the search. *)
Fixpoint search_prog (total : R -> R) (value : R -> msg -> msg -> R) (z weights : msg) (s : solver) : prog R :=
  match s with
  | Stop x => Ret x
  | Give_up e => Raise e
  | Ask x k => act v <- integral_prog total value z weights x; search_prog total value z weights (k v)
  end.
(** make_survey.py:1572-1597 [normalize]; [divide] divides weights by their sum. *)
Definition normalize_prog (target_ok : bool) (mpiroot : option nat) (z weights : msg) (divide : msg -> msg -> msg) (total : R -> R) (value : R -> msg -> msg -> R) (s : solver) : prog R :=
  if negb target_ok then Raise ValueError
  else
    act zw <- scatter_both mpiroot z weights;
    act w <- (if is_none (snd zw) then Ret (snd zw) else act s <- call (Reduce "csum") (snd zw); Ret (divide (snd zw) s));
    act norm <- search_prog total value (fst zw) w s;
    act norm <- call (Bcast 0) (MReal norm);
    act _ <- integral_prog total value (fst zw) w (as_real norm);
    Ret (as_real norm).
(** gaussian_mock.py:89-122 [create_mesh]: [nmesh] or its absence, type, and the array of this process; creation and unravel are calls of pmesh. *)
Definition mesh_prog (nmesh : option msg) (real : bool) (mpiroot : option nat) (array : msg) (shape : msg -> msg) (create : msg -> msg -> msg) : prog msg :=
  act nmesh <- match nmesh with
    | Some n => Ret n
    | None => match mpiroot with
              | Some r => if real then call (Bcast r) (shape array) else Raise ValueError
              | None => Raise ValueError
              end
    end;
  act csize <- match mpiroot with
    | None => call Sum (shape array)
    | Some r => act _ <- call (Bcast r) array; call (Bcast r) (shape array)
    end;
  act _ <- call (Exchange "create") (create nmesh csize);
  call (Exchange "unravel") array.

(** ** Effective redshift *)
(** catalog.py:139-144 [get_z]: positions are sent to all processes, weights are not. [to_z] is what this process computes from its positions (cartesian_to_sky and DistanceToRedshift); without positions cartesian_to_sky raises. [average] of the package mpytools compares the lengths on this process, then makes one call for the mean, or two sums with weights. *)
Definition get_z_prog (mpiroot : option nat) (rank : nat) (formatted : option (string + list Z)) (weights : msg) (to_z : msg -> result (list Z)) : prog msg :=
  act positions <- format_positions mpiroot rank formatted;
  if is_none positions then Raise TypeError else
  act z <- lift (to_z positions);
  match weights with
  | MNone => call (Reduce "cmean") (MData z)
  | MData l => if Nat.eqb (List.length l) (List.length z) then act _ <- call (Reduce "csum") (MData l); call (Reduce "csum") (MMany [MData z; MData l]) else Raise TypeError
  | _ => Raise TypeError
  end.
