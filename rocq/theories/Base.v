(** Common ground of the model: exceptions as values, decidable comparisons on R,
    floor / ceiling / truncation of reals, and numpy-like helpers on lists.
    Nothing here models a particular function of /repo; these are the Python/numpy
    primitives that the model files use. *)
Require Import Reals Lra Lia ZArith List Bool String.
Import ListNotations.
Open Scope R_scope.

(** Python exceptions as values. *)
Inductive err : Type :=
| ValueError        (* Python ValueError (incl. numpy shape errors) *)
| IndexError        (* Python IndexError *)
| TypeError         (* Python TypeError *)
| NameError         (* Python NameError / UnboundLocalError *)
| AssertionError    (* Python AssertionError *)
| IsometryError     (* make_survey.py:72 EuclideanIsometryError *)
| CuboidError       (* remap.py:146 CuboidError *)
| KeyError          (* Python KeyError *)
| ZeroDivision      (* numpy would yield NaN / inf *)
| AttributeError    (* Python AttributeError *)
| OutOfFuel         (* a loop of the model was not given enough steps; not a Python outcome *)
| ExternalError.    (* error raised by an external package *)

Inductive result (A : Type) : Type :=
| Ok (a : A)
| Err (e : err).
Arguments Ok {A} a.
Arguments Err {A} e.

Definition bind {A B} (x : result A) (f : A -> result B) : result B :=
  match x with Ok a => f a | Err e => Err e end.
Notation "'do' x <- e1 ; e2" := (bind e1 (fun x => e2))
  (at level 200, x pattern, e1 at level 100, e2 at level 200, right associativity).

Definition is_ok {A} (x : result A) : bool := match x with Ok _ => true | Err _ => false end.

(** Boolean comparisons of floats. *)
Definition Rltb (x y : R) : bool := if Rlt_dec x y then true else false.
Definition Rleb (x y : R) : bool := if Rle_dec x y then true else false.
Definition Reqb (x y : R) : bool := if Req_EM_T x y then true else false.

Lemma Rltb_true : forall x y, Rltb x y = true <-> x < y.
Proof. intros; unfold Rltb; destruct (Rlt_dec x y); split; intros; auto; discriminate. Qed.
Lemma Rltb_false : forall x y, Rltb x y = false <-> y <= x.
Proof. intros; unfold Rltb; destruct (Rlt_dec x y); split; intros; auto; try discriminate; lra. Qed.
Lemma Rleb_true : forall x y, Rleb x y = true <-> x <= y.
Proof. intros; unfold Rleb; destruct (Rle_dec x y); split; intros; auto; discriminate. Qed.
Lemma Rleb_false : forall x y, Rleb x y = false <-> y < x.
Proof. intros; unfold Rleb; destruct (Rle_dec x y); split; intros; auto; try discriminate; lra. Qed.
Lemma Reqb_true : forall x y, Reqb x y = true <-> x = y.
Proof. intros; unfold Reqb; destruct (Req_EM_T x y); split; intros; auto; discriminate. Qed.
Lemma Reqb_false : forall x y, Reqb x y = false <-> x <> y.
Proof. intros; unfold Reqb; destruct (Req_EM_T x y); split; intros; auto; try discriminate; contradiction. Qed.

(** np.floor, np.ceil and int() (truncation towards zero). *)
Definition Rfloor (x : R) : Z := (up x - 1)%Z.
Definition Rceil (x : R) : Z := (- Rfloor (- x))%Z.
Definition Rtrunc (x : R) : Z := if Rlt_dec x 0 then Rceil x else Rfloor x.

Lemma Rfloor_spec : forall x, IZR (Rfloor x) <= x < IZR (Rfloor x) + 1.
Proof. intros x; unfold Rfloor. destruct (archimed x). rewrite minus_IZR. lra. Qed.

Lemma Rfloor_unique : forall x n, IZR n <= x < IZR n + 1 -> Rfloor x = n.
Proof.
  intros x n H. pose proof (Rfloor_spec x) as F.
  assert (A : (Rfloor x < n + 1)%Z) by (apply lt_IZR; rewrite plus_IZR; lra).
  assert (B : (n < Rfloor x + 1)%Z) by (apply lt_IZR; rewrite plus_IZR; lra).
  lia.
Qed.

Lemma Rceil_spec : forall x, IZR (Rceil x) - 1 < x <= IZR (Rceil x).
Proof. intros x; unfold Rceil. pose proof (Rfloor_spec (- x)). rewrite opp_IZR. lra. Qed.

Lemma Rfloor_mono : forall x y, x <= y -> (Rfloor x <= Rfloor y)%Z.
Proof.
  intros x y H. pose proof (Rfloor_spec x); pose proof (Rfloor_spec y).
  assert (A : (Rfloor x < Rfloor y + 1)%Z) by (apply lt_IZR; rewrite plus_IZR; lra). lia.
Qed.

Lemma Rfloor_IZR : forall n, Rfloor (IZR n) = n.
Proof. intros; apply Rfloor_unique; lra. Qed.

Lemma Rfloor_plus_IZR : forall x n, Rfloor (x + IZR n) = (Rfloor x + n)%Z.
Proof. intros; apply Rfloor_unique; pose proof (Rfloor_spec x); rewrite plus_IZR; lra. Qed.

(** Python's float [x % m]: x - m * floor(x / m). *)
Definition Rmod (x m : R) : R := x - m * IZR (Rfloor (x / m)).

Lemma Rmod_range : forall x m, 0 < m -> 0 <= Rmod x m < m.
Proof.
  intros x m Hm. unfold Rmod. pose proof (Rfloor_spec (x / m)) as [A B].
  assert (E : x = m * (x / m)) by (field; lra).
  set (q := x / m) in *. set (n := IZR (Rfloor q)) in *.
  rewrite E. split; nra.
Qed.

Lemma Rmod_shift : forall x m k, 0 < m -> Rmod (x + IZR k * m) m = Rmod x m.
Proof.
  intros x m k Hm. unfold Rmod.
  replace ((x + IZR k * m) / m) with (x / m + IZR k) by (field; lra).
  rewrite Rfloor_plus_IZR, plus_IZR. ring.
Qed.

Lemma Rmod_id : forall x m, 0 <= x < m -> Rmod x m = x.
Proof.
  intros x m H. unfold Rmod. replace (Rfloor (x / m)) with 0%Z. ring.
  symmetry; apply Rfloor_unique. simpl. split.
  - apply Rmult_le_pos; [lra | left; apply Rinv_0_lt_compat; lra].
  - apply Rmult_lt_reg_r with m; [lra|]. unfold Rdiv. rewrite Rmult_assoc, Rinv_l; lra.
Qed.

Lemma Rmod_congr : forall x m, 0 < m -> exists k : Z, x = Rmod x m + IZR k * m.
Proof. intros x m H; exists (Rfloor (x / m)). unfold Rmod; ring. Qed.

(** Sum of a list of floats (np.sum). *)
Definition Rsum (l : list R) : R := fold_right Rplus 0 l.

Lemma Rsum_app : forall a b, Rsum (a ++ b) = Rsum a + Rsum b.
Proof. induction a; intros; simpl; [ring|]. rewrite IHa; ring. Qed.

(** np.clip *)
Definition Rclip (x lo hi : R) : R := Rmin (Rmax x lo) hi.

(** Radians per degree. *)
Definition deg : R := PI / 180.

Lemma deg_pos : 0 < deg.
Proof. unfold deg. pose proof PI_RGT_0. lra. Qed.

Lemma Rabs_le_inv : forall a b, Rabs a <= b -> - b <= a <= b.
Proof. intros a b H. pose proof (Rle_abs a). pose proof (Rle_abs (- a)). rewrite Rabs_Ropp in *. lra. Qed.
