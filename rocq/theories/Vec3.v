(** 3-vectors and 3x3 matrices over R: numpy's (3,) and (3, 3) float arrays. *)
Require Import Reals Lra Lia ZArith List Bool Nsatz.
From Verif Require Import Base.
Open Scope R_scope.

Record vec : Type := V { vx : R; vy : R; vz : R }.
Record mat : Type := M { row0 : vec; row1 : vec; row2 : vec }.

Definition vzero : vec := V 0 0 0.
Definition vadd (a b : vec) : vec := V (vx a + vx b) (vy a + vy b) (vz a + vz b).
Definition vsub (a b : vec) : vec := V (vx a - vx b) (vy a - vy b) (vz a - vz b).
Definition vopp (a : vec) : vec := V (- vx a) (- vy a) (- vz a).
Definition vscale (k : R) (a : vec) : vec := V (k * vx a) (k * vy a) (k * vz a).
Definition vdot (a b : vec) : R := vx a * vx b + vy a * vy b + vz a * vz b.
Definition vcross (a b : vec) : vec :=
  V (vy a * vz b - vz a * vy b) (vz a * vx b - vx a * vz b) (vx a * vy b - vy a * vx b).
Definition vnorm (a : vec) : R := sqrt (vdot a a).
(** elementwise product and quotient (numpy * and / on arrays) *)
Definition vmul (a b : vec) : vec := V (vx a * vx b) (vy a * vy b) (vz a * vz b).
Definition vdiv (a b : vec) : vec := V (vx a / vx b) (vy a / vy b) (vz a / vz b).
Definition vabs (a : vec) : vec := V (Rabs (vx a)) (Rabs (vy a)) (Rabs (vz a)).
Definition vprod (a : vec) : R := vx a * vy a * vz a.
Definition vtriple (a b c : vec) : R := vdot a (vcross b c).

Definition mapply (m : mat) (v : vec) : vec :=
  V (vdot (row0 m) v) (vdot (row1 m) v) (vdot (row2 m) v).
Definition col0 (m : mat) : vec := V (vx (row0 m)) (vx (row1 m)) (vx (row2 m)).
Definition col1 (m : mat) : vec := V (vy (row0 m)) (vy (row1 m)) (vy (row2 m)).
Definition col2 (m : mat) : vec := V (vz (row0 m)) (vz (row1 m)) (vz (row2 m)).
Definition mtrans (m : mat) : mat := M (col0 m) (col1 m) (col2 m).
Definition mmul (a b : mat) : mat :=
  M (V (vdot (row0 a) (col0 b)) (vdot (row0 a) (col1 b)) (vdot (row0 a) (col2 b)))
    (V (vdot (row1 a) (col0 b)) (vdot (row1 a) (col1 b)) (vdot (row1 a) (col2 b)))
    (V (vdot (row2 a) (col0 b)) (vdot (row2 a) (col1 b)) (vdot (row2 a) (col2 b))).
Definition madd (a b : mat) : mat :=
  M (vadd (row0 a) (row0 b)) (vadd (row1 a) (row1 b)) (vadd (row2 a) (row2 b)).
Definition msub (a b : mat) : mat :=
  M (vsub (row0 a) (row0 b)) (vsub (row1 a) (row1 b)) (vsub (row2 a) (row2 b)).
Definition mscale (k : R) (a : mat) : mat :=
  M (vscale k (row0 a)) (vscale k (row1 a)) (vscale k (row2 a)).
Definition mid : mat := M (V 1 0 0) (V 0 1 0) (V 0 0 1).
Definition mdet (m : mat) : R := vdot (row0 m) (vcross (row1 m) (row2 m)).

(** numpy's tensordot(v, m, axes=((-1,), (1,))): sum_j v_j m_ij *)
Definition tensordot1 (v : vec) (m : mat) : vec := mapply m v.

(** A rotation: orthogonal with determinant one. *)
Definition is_rotation (m : mat) : Prop := mmul m (mtrans m) = mid /\ mdet m = 1.

Ltac vunfold := cbv beta iota delta [is_rotation mmul mtrans mapply tensordot1 madd msub mscale mid mdet vtriple
  vzero vadd vsub vopp vscale vdot vcross vmul vdiv vabs vprod col0 col1 col2 vx vy vz row0 row1 row2] in *.
Ltac vdestr := repeat match goal with v : vec |- _ => destruct v | m : mat |- _ => destruct m end.

Lemma vec_eq : forall a b, vx a = vx b -> vy a = vy b -> vz a = vz b -> a = b.
Proof. intros [] []; cbn; congruence. Qed.
Lemma mat_eq : forall a b, row0 a = row0 b -> row1 a = row1 b -> row2 a = row2 b -> a = b.
Proof. intros [] []; cbn; congruence. Qed.

Ltac vsplit := repeat first [apply mat_eq | apply vec_eq]; cbn [vx vy vz row0 row1 row2].
Ltac vring := intros; vdestr; vunfold; vsplit; ring.

Lemma vec_dec : forall a b : vec, {a = b} + {a <> b}.
Proof.
  intros [a b c] [d e f].
  destruct (Req_EM_T a d); [|right; congruence].
  destruct (Req_EM_T b e); [|right; congruence].
  destruct (Req_EM_T c f); [|right; congruence].
  left; congruence.
Qed.

Lemma vadd_0_r : forall a, vadd a vzero = a. Proof. vring. Qed.
Lemma vadd_0_l : forall a, vadd vzero a = a. Proof. vring. Qed.
Lemma vadd_comm : forall a b, vadd a b = vadd b a. Proof. vring. Qed.
Lemma vadd_assoc : forall a b c, vadd a (vadd b c) = vadd (vadd a b) c. Proof. vring. Qed.
Lemma vsub_self : forall a, vsub a a = vzero. Proof. vring. Qed.
Lemma vdot_comm : forall a b, vdot a b = vdot b a. Proof. vring. Qed.
Lemma vdot_scale_l : forall k a b, vdot (vscale k a) b = k * vdot a b. Proof. vring. Qed.
Lemma vdot_scale_r : forall k a b, vdot a (vscale k b) = k * vdot a b. Proof. vring. Qed.
Lemma vdot_add_l : forall a b c, vdot (vadd a b) c = vdot a c + vdot b c. Proof. vring. Qed.
Lemma vdot_add_r : forall a b c, vdot a (vadd b c) = vdot a b + vdot a c. Proof. vring. Qed.
Lemma vscale_scale : forall k l a, vscale k (vscale l a) = vscale (k * l) a. Proof. vring. Qed.
Lemma vscale_1 : forall a, vscale 1 a = a. Proof. vring. Qed.
Lemma vscale_0 : forall a, vscale 0 a = vzero. Proof. vring. Qed.
Lemma vscale_zero : forall k, vscale k vzero = vzero. Proof. vring. Qed.
Lemma mapply_id : forall v, mapply mid v = v. Proof. vring. Qed.
Lemma mapply_mul : forall a b v, mapply (mmul a b) v = mapply a (mapply b v). Proof. vring. Qed.
Lemma mapply_add : forall m a b, mapply m (vadd a b) = vadd (mapply m a) (mapply m b). Proof. vring. Qed.
Lemma mapply_sub : forall m a b, mapply m (vsub a b) = vsub (mapply m a) (mapply m b). Proof. vring. Qed.
Lemma mapply_scale : forall m k a, mapply m (vscale k a) = vscale k (mapply m a). Proof. vring. Qed.
Lemma mapply_zero : forall m, mapply m vzero = vzero. Proof. vring. Qed.
Lemma mmul_assoc : forall a b c, mmul a (mmul b c) = mmul (mmul a b) c. Proof. vring. Qed.
Lemma mmul_id_l : forall a, mmul mid a = a. Proof. vring. Qed.
Lemma mmul_id_r : forall a, mmul a mid = a. Proof. vring. Qed.
Lemma mtrans_mul : forall a b, mtrans (mmul a b) = mmul (mtrans b) (mtrans a). Proof. vring. Qed.
Lemma mtrans_mtrans : forall a, mtrans (mtrans a) = a. Proof. vring. Qed.
Lemma mdet_mul : forall a b, mdet (mmul a b) = mdet a * mdet b. Proof. vring. Qed.
Lemma mdet_trans : forall a, mdet (mtrans a) = mdet a. Proof. vring. Qed.
Lemma vdot_mapply : forall m a b, vdot (mapply m a) b = vdot a (mapply (mtrans m) b). Proof. vring. Qed.
Lemma vtriple_mapply : forall m a b c,
  vtriple (mapply m a) (mapply m b) (mapply m c) = mdet m * vtriple a b c.
Proof. vring. Qed.

Lemma vdot_self_nonneg : forall a, 0 <= vdot a a.
Proof. intros [a b c]; vunfold; nra. Qed.
Lemma vdot_self_zero : forall a, vdot a a = 0 -> a = vzero.
Proof. intros [a b c] H; vunfold. assert (a = 0 /\ b = 0 /\ c = 0) as (-> & -> & ->) by (repeat split; nra). reflexivity. Qed.
Lemma vdot_self_pos : forall a, a <> vzero -> 0 < vdot a a.
Proof. intros a H. destruct (Rle_lt_or_eq_dec _ _ (vdot_self_nonneg a)); auto. exfalso; apply H, vdot_self_zero; auto. Qed.
Lemma vnorm_sqr : forall a, vnorm a * vnorm a = vdot a a.
Proof. intros; unfold vnorm; apply sqrt_sqrt, vdot_self_nonneg. Qed.
Lemma vnorm_nonneg : forall a, 0 <= vnorm a. Proof. intros; apply sqrt_pos. Qed.
Lemma vnorm_pos : forall a, a <> vzero -> 0 < vnorm a.
Proof. intros; apply sqrt_lt_R0, vdot_self_pos; auto. Qed.
Lemma vnorm_zero : forall a, vnorm a = 0 -> a = vzero.
Proof. intros a H. apply vdot_self_zero. rewrite <- vnorm_sqr, H. ring. Qed.
Lemma vnorm_vzero : vnorm vzero = 0.
Proof. unfold vnorm. vunfold. replace (0*0+0*0+0*0) with 0 by ring. apply sqrt_0. Qed.
Lemma vnorm_scale : forall k a, vnorm (vscale k a) = Rabs k * vnorm a.
Proof.
  intros. unfold vnorm. replace (vdot (vscale k a) (vscale k a)) with (k * k * vdot a a) by vring.
  rewrite sqrt_mult; [|nra|apply vdot_self_nonneg]. f_equal.
  replace (k * k) with (Rsqr k) by (unfold Rsqr; ring). apply sqrt_Rsqr_abs.
Qed.

(** Cauchy-Schwarz, used for distances and components. *)
Lemma vdot_lagrange : forall a b, vdot a a * vdot b b = vdot a b * vdot a b + vdot (vcross a b) (vcross a b).
Proof. vring. Qed.
Lemma cauchy_schwarz : forall a b, Rabs (vdot a b) <= vnorm a * vnorm b.
Proof.
  intros a b. apply Rsqr_incr_0_var; [|apply Rmult_le_pos; apply vnorm_nonneg].
  rewrite <- Rsqr_abs. unfold Rsqr.
  replace (vnorm a * vnorm b * (vnorm a * vnorm b)) with (vdot a a * vdot b b) by (rewrite <- !vnorm_sqr; ring).
  rewrite vdot_lagrange. pose proof (vdot_self_nonneg (vcross a b)). lra.
Qed.

(** M M^T = I implies M^T M = I (through the adjugate, det = 1). *)
Lemma rot_cofactor : forall m, is_rotation m ->
  row0 m = vcross (row1 m) (row2 m) /\ row1 m = vcross (row2 m) (row0 m) /\ row2 m = vcross (row0 m) (row1 m).
Proof.
  intros [a b c] [H D]. cbn [row0 row1 row2]. unfold mdet in D; cbn [row0 row1 row2] in D.
  assert (Haa : vdot a a = 1) by (injection H; intros; vdestr; vunfold; lra).
  assert (Hbb : vdot b b = 1) by (injection H; intros; vdestr; vunfold; lra).
  assert (Hcc : vdot c c = 1) by (injection H; intros; vdestr; vunfold; lra).
  assert (Hab : vdot a b = 0) by (injection H; intros; vdestr; vunfold; lra).
  assert (Hac : vdot a c = 0) by (injection H; intros; vdestr; vunfold; lra).
  assert (Hbc : vdot b c = 0) by (injection H; intros; vdestr; vunfold; lra).
  assert (K : forall u v, vdot u u = 1 -> vdot v v = 1 -> vdot u v = 1 -> u = v).
  { intros u v U W X. assert (E : vsub u v = vzero).
    { apply vdot_self_zero. replace (vdot (vsub u v) (vsub u v)) with (vdot u u + vdot v v - 2 * vdot u v) by vring. lra. }
    destruct u, v; vunfold. injection E; intros. f_equal; lra. }
  repeat split.
  - apply K; auto. pose proof (vdot_lagrange b c). nra.
  - apply K; auto. pose proof (vdot_lagrange c a). rewrite (vdot_comm c a) in H0. nra.
    transitivity (vdot a (vcross b c)); auto. clear; vring.
  - apply K; auto. pose proof (vdot_lagrange a b). nra.
    transitivity (vdot a (vcross b c)); auto. clear; vring.
Qed.

Lemma is_rotation_trans : forall m, is_rotation m -> mmul (mtrans m) m = mid.
Proof.
  intros m H. destruct (rot_cofactor m H) as (A & B & C). destruct H as [H D].
  destruct m as [a b c]; cbn [row0 row1 row2] in *. unfold mdet in D; cbn [row0 row1 row2] in D.
  assert (Ha : vdot a a = 1) by (rewrite A at 2; auto).
  assert (Hb : vdot b b = 1) by (injection H; intros; vdestr; vunfold; lra).
  assert (Hc : vdot c c = 1) by (injection H; intros; vdestr; vunfold; lra).
  assert (Hab : vdot a b = 0) by (injection H; intros; vdestr; vunfold; lra).
  assert (Hac : vdot a c = 0) by (injection H; intros; vdestr; vunfold; lra).
  assert (Hbc : vdot b c = 0) by (injection H; intros; vdestr; vunfold; lra).
  destruct a as [a1 a2 a3], b as [b1 b2 b3], c as [c1 c2 c3]. vunfold.
  injection A; intros A3 A2 A1. injection B; intros B3 B2 B1. injection C; intros C3 C2 C1.
  clear H A B C.
  vsplit; nsatz.
Qed.
