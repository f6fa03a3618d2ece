(** Model of the rotation matrices and of EuclideanIsometry, mockfactory/make_survey.py:17-248.
    Definitions only. *)
Require Import Reals ZArith List Bool String.
From Verif Require Import Base Vec3.
Import ListNotations.
Open Scope R_scope.

(** utils.py:14-16 [distance]: np.sqrt((position**2).sum(axis=-1)). *)
Definition distance (v : vec) : R := sqrt (vx v ^ 2 + vy v ^ 2 + vz v ^ 2).

(** The antisymmetric matrix written out at make_survey.py:36 ([k]) and make_survey.py:48 ([q]). *)
Definition cross_matrix (v : vec) : mat :=
  M (V 0 (- vz v) (vy v)) (V (vz v) 0 (- vx v)) (V (- vy v) (vx v) 0).

(** In-place division of an array by its norm, make_survey.py:28-29, 68.
    Simplification: numpy yields NaN with a warning for the zero vector; modelled as an error. *)
Definition normalize (v : vec) : result vec :=
  if Req_EM_T (distance v) 0 then Err ZeroDivision
  else Ok (V (vx v / distance v) (vy v / distance v) (vz v / distance v)).

(** make_survey.py:17-37 [rotation_matrix_from_two_vectors].
    The arguments are float arrays; lines 28-29 divide them in place, hence the returned triple
    (matrix, content of the caller's [a] afterwards, content of the caller's [b] afterwards). *)
Definition rotation_matrix_from_two_vectors (a b : vec) : result (mat * vec * vec) :=
  do a <- normalize a;
  do b <- normalize b;
  let v := vcross a b in
  let c := vdot a b in
  let s := distance v in
  if Req_EM_T s 0 then Ok (mid, a, b)
  else let k := cross_matrix v in
       Ok (madd (madd mid k) (mscale ((1 - c) / s ^ 2) (mmul k k)), a, b).

(** Values the code accepts as an axis or line of sight: string, integer, None or 3-vector. *)
Inductive axis_arg : Type :=
| AxStr (s : string)
| AxIdx (i : Z)
| AxNone
| AxVec (v : vec).

(** numpy integer index into an axis of length 3 (negative indices count from the end). *)
Definition np_index3 (i : Z) : result nat :=
  if (0 <=? i)%Z && (i <? 3)%Z then Ok (Z.to_nat i)
  else if (-3 <=? i)%Z && (i <? 0)%Z then Ok (Z.to_nat (i + 3))
  else Err IndexError.

(** Assignment [arr[i] = x] on an array of length 3. *)
Definition vset (v : vec) (i : nat) (x : R) : vec :=
  match i with
  | 0%nat => V x (vy v) (vz v)
  | 1%nat => V (vx v) x (vz v)
  | _ => V (vx v) (vy v) x
  end.

(** Python 'xyz'.index(s): position of the substring, ValueError if absent. *)
Definition xyz_index (s : string) : result Z :=
  match String.index 0 s "xyz" with Some n => Ok (Z.of_nat n) | None => Err ValueError end.

(** make_survey.py:59-69 [_get_los]; gaussian_mock.py:17-26 computes the same. For [None], numpy's los[None] = 1. assigns to all entries.
    Simplification: float scalars (IndexError in numpy) are not represented. *)
Definition get_los (los : axis_arg) : result vec :=
  let one_hot (i : Z) := do n <- np_index3 i; normalize (vset vzero n 1) in
  match los with
  | AxStr s => do i <- xyz_index s; one_hot i
  | AxIdx i => one_hot i
  | AxNone => normalize (V 1 1 1)
  | AxVec v => normalize v
  end.

(** Outer product v[:, None] * v, make_survey.py:47. *)
Definition outer (v : vec) : mat := M (vscale (vx v) v) (vscale (vy v) v) (vscale (vz v) v).

(** make_survey.py:40-49 [rotation_matrix_from_vector_angle]; [angle] in degrees. *)
Definition rotation_matrix_from_vector_angle (axis : axis_arg) (angle : R) : result mat :=
  do v <- get_los axis;
  let angle := angle * PI / 180 in
  if Req_EM_T angle 0 then Ok mid
  else let p := outer v in
       let q := cross_matrix v in
       Ok (madd (madd p (mscale (cos angle) (msub mid p))) (mscale (sin angle) q)).

(** make_survey.py:77-84: state of an isometry, arrays _rotation and _translation. *)
Record iso : Type := Iso { rot : mat; tra : vec }.

(** make_survey.py:81-84 [__init__]. *)
Definition iso_new : iso := Iso mid vzero.

(** make_survey.py:86-91 [is_identity]. *)
Definition is_identity (s : iso) (ti : bool) : bool :=
  let veqb a b := Reqb (vx a) (vx b) && Reqb (vy a) (vy b) && Reqb (vz a) (vz b) in
  let r := veqb (row0 (rot s)) (row0 mid) && veqb (row1 (rot s)) (row1 mid) && veqb (row2 (rot s)) (row2 mid) in
  if ti then r else r && veqb (tra s) vzero.

(** make_survey.py:93-112 [transform], on one row. *)
Definition transform (s : iso) (ti : bool) (v : vec) : vec :=
  let r := tensordot1 v (rot s) in
  if ti then r else vadd r (tra s).

(** make_survey.py:93-112 [transform], on an array of shape (N, 3). *)
Definition transform_all (s : iso) (ti : bool) (l : list vec) : list vec := map (transform s ti) l.

(** make_survey.py:115-134 [dot]. Note that _rotation is updated before [frame] is checked:
    the first component is the state after the call, also when it raises. *)
Definition iso_dot (s : iso) (matrix : mat) (frame : string) : iso * result unit :=
  let s1 := Iso (mmul matrix (rot s)) (tra s) in
  if String.eqb frame "origin" then (Iso (rot s1) (mapply matrix (tra s1)), Ok tt)
  else if String.eqb frame "current" then (s1, Ok tt)
  else (s1, Err IsometryError).

(** make_survey.py:136-159 [rotation]. Line 158 calls dot() without passing [frame]. *)
Definition iso_rotation (s : iso) (angle : R) (axis : axis_arg) (degree : bool) (frame : string) : iso * result unit :=
  let angle := if degree then angle else angle * 180 / PI in
  match get_los axis with
  | Err e => (s, Err e)
  | Ok v =>
    match rotation_matrix_from_vector_angle (AxVec v) angle with
    | Err e => (s, Err e)
    | Ok m => iso_dot s m "origin"
    end
  end.

(** Values of [shift] in translation(): scalar or 3-vector. *)
Inductive shift_arg : Type := ShScalar (r : R) | ShVec (v : vec).

(** make_survey.py:52-56 [_make_array] with shape 3: scalars are broadcast. *)
Definition make_array3 (s : shift_arg) : vec :=
  match s with ShScalar r => V r r r | ShVec v => v end.

(** make_survey.py:179-187: the 3-vector shift meant by (shift, axis).
    Simplification: a vector as [axis] (not documented) is an error here. *)
Definition shift_vector (shift : shift_arg) (axis : axis_arg) : result vec :=
  match axis with
  | AxNone => Ok (make_array3 shift)
  | AxVec _ => Err IndexError
  | AxStr _ | AxIdx _ =>
    match shift with
    | ShVec _ => Err IsometryError
    | ShScalar r =>
      do i <- match axis with AxStr a => xyz_index a | AxIdx i => Ok i | _ => Err IndexError end;
      do n <- np_index3 i;
      Ok (vset vzero n r)
    end
  end.

(** make_survey.py:161-193 [translation]; the array _translation is modified in place (line 192). *)
Definition iso_translation (s : iso) (shift : shift_arg) (axis : axis_arg) (frame : string) : iso * result unit :=
  match shift_vector shift axis with
  | Err e => (s, Err e)
  | Ok v =>
    if String.eqb frame "current" then (Iso (rot s) (vadd (tra s) (tensordot1 v (rot s))), Ok tt)
    else if String.eqb frame "origin" then (Iso (rot s) (vadd (tra s) v), Ok tt)
    else (s, Err IsometryError)
  end.

(** make_survey.py:195-210 [reset_rotation]. *)
Definition iso_reset_rotation (s : iso) (frame : string) : iso * result unit :=
  if String.eqb frame "origin" then (Iso mid (mapply (mtrans (rot s)) (tra s)), Ok tt)
  else if String.eqb frame "current" then (Iso mid (tra s), Ok tt)
  else (s, Err IsometryError).

(** make_survey.py:212-215 [reset_translate] (in place). *)
Definition iso_reset_translate (s : iso) : iso * result unit := (Iso (rot s) vzero, Ok tt).

(** make_survey.py:217-228 [concatenate]: loop over the isometries, starting from the identity. *)
Definition iso_concat_step (new other : iso) : iso :=
  Iso (mmul (rot other) (rot new)) (vadd (tensordot1 (tra new) (rot other)) (tra other)).
Definition iso_concatenate (others : list iso) : iso := fold_left iso_concat_step others iso_new.

(** make_survey.py:246-248 [__add__]. *)
Definition iso_add (a b : iso) : iso := iso_concatenate [a; b].

(* ------------------------------------------------------------------------------------------ *)
(** * Objects sharing arrays

    A Python program holds several isometry objects. Each object refers to an array _translation;
    translation() and reset_translate() write into that array, everything else binds a fresh one.
    [copy] (mpytools BaseClass.copy, used by __radd__, make_survey.py:235-239) is shallow: it shares the array. *)

Record obj : Type := Obj { o_rot : mat; o_tra : nat (* address of _translation *) }.
Record store : Type := Store { env : nat -> option obj; heap : nat -> vec; next : nat }.

Definition store_init : store := Store (fun _ => None) (fun _ => vzero) 0.

Definition upd {A} (f : nat -> A) (i : nat) (a : A) : nat -> A := fun j => if Nat.eqb j i then a else f j.

(** What a reader of variable [i] sees. *)
Definition view (st : store) (i : nat) : option iso :=
  match env st i with Some o => Some (Iso (o_rot o) (heap st (o_tra o))) | None => None end.

(** Bind variable [i] to an object with freshly allocated arrays. *)
Definition bind_fresh (st : store) (i : nat) (s : iso) : store :=
  Store (upd (env st) i (Some (Obj (rot s) (next st)))) (upd (heap st) (next st) (tra s)) (S (next st)).

(** Write into the array _translation of the object in variable [i], keeping its rotation. *)
Definition write_tra (st : store) (i : nat) (t : vec) : store :=
  match env st i with
  | Some o => Store (env st) (upd (heap st) (o_tra o) t) (next st)
  | None => st
  end.

(** Rebind only the attribute _rotation of the object in variable [i]. *)
Definition write_rot (st : store) (i : nat) (m : mat) : store :=
  match env st i with
  | Some o => Store (upd (env st) i (Some (Obj m (o_tra o)))) (heap st) (next st)
  | None => st
  end.

(** The calls a program can make. [Neg]ative outcomes (exceptions) are assumed to be caught by the caller. *)
Inductive cmd : Type :=
| CNew (i : nat)                                             (* i = EuclideanIsometry() *)
| CDot (i : nat) (m : mat) (frame : string)                   (* i.dot(m, frame) *)
| CRotation (i : nat) (angle : R) (axis : axis_arg) (degree : bool) (frame : string)
| CTranslation (i : nat) (shift : shift_arg) (axis : axis_arg) (frame : string)
| CResetRotation (i : nat) (frame : string)
| CResetTranslate (i : nat)
| CConcat (i : nat) (js : list nat)                           (* i = EuclideanIsometry.concatenate(j1, j2, ...) *)
| CExtend (i j : nat)                                         (* i.extend(j), i += j *)
| CAdd (k i j : nat)                                          (* k = i + j *)
| CRadd0 (k i : nat).                                         (* k = 0 + i, as in sum([i]) *)

Fixpoint views (st : store) (js : list nat) : option (list iso) :=
  match js with
  | [] => Some []
  | j :: js => match view st j, views st js with Some s, Some l => Some (s :: l) | _, _ => None end
  end.

(** Effect of dot() (make_survey.py:128-134) on the store: _rotation is rebound, then _translation is rebound if frame is 'origin'. *)
Definition do_dot (st : store) (i : nat) (m : mat) (frame : string) : store :=
  match view st i with
  | None => st
  | Some s =>
    let s' := fst (iso_dot s m frame) in
    if String.eqb frame "origin" then bind_fresh st i s' else write_rot st i (rot s')
  end.

(** One call. A call on an unbound variable (NameError) changes nothing. *)
Definition exec (st : store) (c : cmd) : store :=
  match c with
  | CNew i => bind_fresh st i iso_new
  | CDot i m frame => do_dot st i m frame
  | CRotation i angle axis degree frame =>
    match view st i with
    | None => st
    | Some s => match iso_rotation s angle axis degree frame with
                | (s', Ok _) => bind_fresh st i s'
                | (_, Err _) => st
                end
    end
  | CTranslation i shift axis frame =>
    match view st i with
    | None => st
    | Some s => write_tra st i (tra (fst (iso_translation s shift axis frame)))
    end
  | CResetRotation i frame =>
    match view st i with
    | None => st
    | Some s =>
      if String.eqb frame "origin" then bind_fresh st i (fst (iso_reset_rotation s frame))
      else write_rot st i (rot (fst (iso_reset_rotation s frame)))
    end
  | CResetTranslate i =>
    match view st i with None => st | Some s => write_tra st i (tra (fst (iso_reset_translate s))) end
  | CConcat i js => match views st js with Some l => bind_fresh st i (iso_concatenate l) | None => st end
  | CExtend i j => match views st [i; j] with Some l => bind_fresh st i (iso_concatenate l) | None => st end
  | CAdd k i j => match views st [i; j] with Some l => bind_fresh st k (iso_concatenate l) | None => st end
  | CRadd0 k i =>
    match env st i with
    | Some o => Store (upd (env st) k (Some o)) (heap st) (next st)
    | None => st
    end
  end.

Definition run (cs : list cmd) : store := fold_left exec cs store_init.
