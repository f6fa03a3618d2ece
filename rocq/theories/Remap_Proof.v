(** Proofs about remapping: geometry of the cuboid. *)
Require Import Reals Lra Lia ZArith List Bool String.
From Verif Require Import Base Vec3 Isometry_Model Isometry_Proof Sky_Model Cutsky_Model Box_Model Box_Proof3 Remap_Model Remap_Spec.
Import ListNotations.
Open Scope R_scope.

Lemma rdot_eq : forall u v, rdot u v = vdot u v. Proof. intros; unfold rdot, vdot; ring. Qed.
Lemma rnorm_eq : forall u, rnorm u = vnorm u. Proof. intros; unfold rnorm, rsquare, vnorm. rewrite rdot_eq; auto. Qed.
Lemma det3_eq : forall u v w, det3 u v w = mdet (M u v w). Proof. intros; unfold det3, mdet, vdot, vcross; cbn; ring. Qed.
Lemma real_vec_of : forall i, vec_of i = real i. Proof. intros [[a b] c]; auto. Qed.
Lemma det3_real : forall u v w, det3 (real u) (real v) (real w) = IZR (zdet u v w).
Proof.
  intros [[a b] c] [[d e] f] [[g h] i]. unfold det3, zdet, real; cbn [vx vy vz].
  rewrite plus_IZR, minus_IZR, !mult_IZR, !minus_IZR, !mult_IZR. ring.
Qed.

Lemma gram_det : forall u v w, mdet (M u v w) * mdet (M u v w) =
  vdot u u * (vdot v v * vdot w w - vdot v w * vdot v w) - vdot u v * (vdot u v * vdot w w - vdot v w * vdot u w)
  + vdot u w * (vdot u v * vdot v w - vdot v v * vdot u w).
Proof. vring. Qed.

Lemma det_nonzero_1 : forall u v w, mdet (M u v w) <> 0 -> 0 < vdot u u.
Proof.
  intros u v w H. apply vdot_self_pos. intros ->. apply H. unfold mdet, vdot, vcross, vzero; cbn; ring.
Qed.
Lemma det_nonzero_2 : forall u v w, mdet (M u v w) <> 0 -> 0 < vdot u u * vdot v v - vdot u v * vdot u v.
Proof.
  intros u v w H. pose proof (vdot_lagrange u v) as L.
  assert (X : vcross u v <> vzero). { intros E. apply H. replace (mdet (M u v w)) with (vdot w (vcross u v)).
    rewrite E. unfold vdot, vzero; cbn; ring. unfold mdet, vdot, vcross; cbn; ring. }
  apply vdot_self_pos in X. lra.
Qed.

Lemma pos_factor : forall a b, 0 < a -> 0 < a * b -> 0 < b.
Proof. intros a b A P. apply Rmult_lt_reg_l with a; lra. Qed.

(** What the Gram-Schmidt vectors satisfy. *)
Record ortho (u1 u2 u3 e1 e2 e3 : vec) : Prop := {
  o_e1 : e1 = u1;
  o_11 : 0 < vdot e1 e1; o_22 : 0 < vdot e2 e2; o_33 : 0 < vdot e3 e3;
  o_12 : vdot e1 e2 = 0; o_13 : vdot e1 e3 = 0; o_23 : vdot e2 e3 = 0;
  o_u12 : vdot u1 e2 = 0; o_u13 : vdot u1 e3 = 0; o_u23 : vdot u2 e3 = 0;
  o_u22 : vdot u2 e2 = vdot e2 e2; o_u33 : vdot u3 e3 = vdot e3 e3;
  o_det : mdet (M e1 e2 e3) = mdet (M u1 u2 u3) }.

Lemma gs_ortho : forall u1 u2 u3 e1 e2 e3, gram_schmidt u1 u2 u3 e1 e2 e3 -> mdet (M u1 u2 u3) = 1 -> ortho u1 u2 u3 e1 e2 e3.
Proof.
  intros u1 u2 u3 e1 e2 e3 (E1 & (a & E2) & (b & c & E3) & H12 & H13 & H23) D.
  assert (DE : mdet (M e1 e2 e3) = mdet (M u1 u2 u3)) by (subst; unfold mdet, vdot, vcross, vadd, vscale; cbn; ring).
  assert (U13 : vdot u1 e3 = 0) by (subst e1; auto). assert (U12 : vdot u1 e2 = 0) by (subst e1; auto).
  assert (U23 : vdot u2 e3 = 0). { rewrite E2 in H23. rewrite vdot_add_l, vdot_scale_l, U13 in H23. lra. }
  assert (N1 : 0 < vdot e1 e1) by (apply (det_nonzero_1 e1 e2 e3); lra).
  assert (N2 : 0 < vdot e2 e2). { pose proof (det_nonzero_2 e1 e2 e3 ltac:(lra)) as X. rewrite H12 in X. apply (pos_factor (vdot e1 e1)); lra. }
  assert (N3 : 0 < vdot e3 e3). { pose proof (gram_det e1 e2 e3) as X. rewrite DE, D, H12, H13, H23 in X.
    apply (pos_factor (vdot e1 e1 * vdot e2 e2)); [apply Rmult_lt_0_compat; lra|lra]. }
  split; auto.
  - rewrite E2 at 2. rewrite vdot_add_l, vdot_scale_l, U12. ring.
  - rewrite E3 at 2. rewrite !vdot_add_l, !vdot_scale_l, U13, U23. ring.
Qed.

Lemma orthogonalize_gs : forall u1 u2 u3, mdet (M u1 u2 u3) = 1 ->
  exists e1 e2 e3, orthogonalize u1 u2 u3 = Ok (e1, e2, e3) /\ gram_schmidt u1 u2 u3 e1 e2 e3.
Proof.
  intros u1 u2 u3 D. pose proof (det_nonzero_1 u1 u2 u3 ltac:(lra)) as S1. pose proof (det_nonzero_2 u1 u2 u3 ltac:(lra)) as S2.
  unfold orthogonalize, rsquare. rewrite !rdot_eq. rewrite fdiv_ok by lra. cbn [bind].
  set (s1 := vdot u1 u1) in *. set (s2 := vdot u2 u2) in *. set (d12 := vdot u1 u2) in *. set (d13 := vdot u1 u3). set (d23 := vdot u2 u3).
  assert (X : - d12 / s1 * d12 + s2 = (s1 * s2 - d12 * d12) / s1) by (field; lra).
  assert (P : 0 < - d12 / s1 * d12 + s2) by (rewrite X; apply Rdiv_lt_0_compat; lra).
  rewrite fdiv_ok by lra. cbn [bind]. rewrite fdiv_ok by lra. cbn [bind].
  set (al := - d12 / s1) in *. set (ga := - (al * d13 + d23) / (al * d12 + s2)). set (be := - (d13 + ga * d12) / s1).
  do 3 eexists. split; [reflexivity|].
  assert (A1 : d12 + al * s1 = 0) by (unfold al; field; lra).
  assert (A2 : be * s1 + d13 + ga * d12 = 0) by (unfold be; field; lra).
  assert (A3 : ga * (al * d12 + s2) + al * d13 + d23 = 0) by (unfold ga; field; lra).
  assert (H12 : vdot u1 (vadd u2 (vscale al u1)) = 0) by (rewrite vdot_add_r, vdot_scale_r; fold s1 d12; lra).
  assert (H13 : vdot u1 (vadd (vadd u3 (vscale be u1)) (vscale ga u2)) = 0) by (rewrite !vdot_add_r, !vdot_scale_r; fold s1 d12 d13; lra).
  split; [auto|]. split; [eauto|]. split; [eauto|]. split; [auto|]. split; [auto|].
  rewrite vdot_add_l, vdot_scale_l, H13. rewrite !vdot_add_r, !vdot_scale_r. rewrite (vdot_comm u2 u1). fold d12 s2 d23.
  (* d23 + be d12 + ga s2 = 0 *)
  assert (B : be * d12 = al * (d13 + ga * d12)) by (unfold be, al; field; lra). nra.
Qed.

Lemma gs_unique : forall u1 u2 u3 e1 e2 e3 f1 f2 f3, mdet (M u1 u2 u3) = 1 ->
  gram_schmidt u1 u2 u3 e1 e2 e3 -> gram_schmidt u1 u2 u3 f1 f2 f3 -> e1 = f1 /\ e2 = f2 /\ e3 = f3.
Proof.
  intros u1 u2 u3 e1 e2 e3 f1 f2 f3 D G H. pose proof (gs_ortho _ _ _ _ _ _ G D) as OE. pose proof (gs_ortho _ _ _ _ _ _ H D) as OF.
  destruct G as (E1 & (a & E2) & (b & c & E3) & _). destruct H as (F1 & (a' & F2) & (b' & c' & F3) & _).
  assert (S1 := o_11 _ _ _ _ _ _ OE). rewrite E1 in S1.
  assert (A : a = a'). { pose proof (o_u12 _ _ _ _ _ _ OE) as X. pose proof (o_u12 _ _ _ _ _ _ OF) as Y.
    rewrite E2, vdot_add_r, vdot_scale_r in X. rewrite F2, vdot_add_r, vdot_scale_r in Y. nra. }
  assert (E22 : e2 = f2) by (subst; auto).
  assert (S2 := o_22 _ _ _ _ _ _ OE).
  assert (K : e3 = f3).
  { (* the difference is in the span of u1, u2 and orthogonal to both *)
    assert (X1 := o_u13 _ _ _ _ _ _ OE). assert (Y1 := o_u13 _ _ _ _ _ _ OF).
    assert (X2 := o_u23 _ _ _ _ _ _ OE). assert (Y2 := o_u23 _ _ _ _ _ _ OF).
    set (d := vsub e3 f3). assert (Z1 : vdot u1 d = 0). { unfold d. replace (vdot u1 (vsub e3 f3)) with (vdot u1 e3 - vdot u1 f3). lra. unfold vdot, vsub; cbn; ring. }
    assert (Z2 : vdot u2 d = 0). { unfold d. replace (vdot u2 (vsub e3 f3)) with (vdot u2 e3 - vdot u2 f3). lra. unfold vdot, vsub; cbn; ring. }
    assert (DD : d = vadd (vscale (b - b') u1) (vscale (c - c') u2)).
    { unfold d. rewrite E3, F3. unfold vsub, vadd, vscale; cbn; f_equal; ring. }
    assert (Q : vdot d d = 0). { rewrite DD at 1. rewrite vdot_add_l, !vdot_scale_l, Z1, Z2. ring. }
    apply vdot_self_zero in Q. unfold d, vsub, vzero in Q. injection Q as Q1 Q2 Q3. apply vec_eq; lra. }
  repeat split; auto. congruence.
Qed.

(** The three directions form a rotation matrix. *)
Definition nrm (e : vec) : vec := vscale (/ vnorm e) e.
Lemma unit_of_ok : forall e, 0 < vdot e e -> unit_of e = Ok (nrm e).
Proof.
  intros e H. unfold unit_of. rewrite rnorm_eq. assert (P : 0 < vnorm e) by (unfold vnorm; apply sqrt_lt_R0; auto).
  destruct (Req_EM_T (vnorm e) 0); [lra|]. unfold nrm, vscale. do 2 f_equal; field; lra.
Qed.
Lemma vnorm_pos' : forall e, 0 < vdot e e -> 0 < vnorm e. Proof. intros; unfold vnorm; apply sqrt_lt_R0; auto. Qed.

Lemma volume_one : forall u1 u2 u3 e1 e2 e3, ortho u1 u2 u3 e1 e2 e3 -> mdet (M u1 u2 u3) = 1 -> vnorm e1 * vnorm e2 * vnorm e3 = 1.
Proof.
  intros u1 u2 u3 e1 e2 e3 O D. pose proof (gram_det e1 e2 e3) as G.
  rewrite (o_det _ _ _ _ _ _ O), D, (o_12 _ _ _ _ _ _ O), (o_13 _ _ _ _ _ _ O), (o_23 _ _ _ _ _ _ O) in G.
  pose proof (vnorm_sqr e1); pose proof (vnorm_sqr e2); pose proof (vnorm_sqr e3).
  pose proof (vnorm_pos' e1 (o_11 _ _ _ _ _ _ O)); pose proof (vnorm_pos' e2 (o_22 _ _ _ _ _ _ O)); pose proof (vnorm_pos' e3 (o_33 _ _ _ _ _ _ O)).
  set (p := vnorm e1 * vnorm e2 * vnorm e3). assert (P : 0 < p) by (unfold p; repeat apply Rmult_lt_0_compat; auto).
  assert (Q : p * p = 1). { unfold p. transitivity ((vnorm e1 * vnorm e1) * (vnorm e2 * vnorm e2) * (vnorm e3 * vnorm e3)); [ring|]. rewrite H, H0, H1. lra. }
  assert (X : (p - 1) * (p + 1) = 0) by lra. apply Rmult_integral in X. lra.
Qed.

Lemma nrm_rotation : forall u1 u2 u3 e1 e2 e3, ortho u1 u2 u3 e1 e2 e3 -> mdet (M u1 u2 u3) = 1 -> is_rotation (M (nrm e1) (nrm e2) (nrm e3)).
Proof.
  intros u1 u2 u3 e1 e2 e3 O D. pose proof (volume_one _ _ _ _ _ _ O D) as VO.
  pose proof (vnorm_pos' e1 (o_11 _ _ _ _ _ _ O)) as P1; pose proof (vnorm_pos' e2 (o_22 _ _ _ _ _ _ O)) as P2; pose proof (vnorm_pos' e3 (o_33 _ _ _ _ _ _ O)) as P3.
  assert (S : forall e, 0 < vnorm e -> vdot (nrm e) (nrm e) = 1).
  { intros e P. unfold nrm. rewrite vdot_scale_l, vdot_scale_r, <- vnorm_sqr. field. lra. }
  assert (Q : forall a b, vdot a b = 0 -> vdot (nrm a) (nrm b) = 0).
  { intros a b E. unfold nrm. rewrite vdot_scale_l, vdot_scale_r, E. ring. }
  pose proof (S e1 P1) as S1; pose proof (S e2 P2) as S2; pose proof (S e3 P3) as S3.
  pose proof (Q _ _ (o_12 _ _ _ _ _ _ O)) as Q12; pose proof (Q _ _ (o_13 _ _ _ _ _ _ O)) as Q13; pose proof (Q _ _ (o_23 _ _ _ _ _ _ O)) as Q23.
  assert (DD : mdet (M (nrm e1) (nrm e2) (nrm e3)) = 1).
  { transitivity (/ vnorm e1 * / vnorm e2 * / vnorm e3 * mdet (M e1 e2 e3)).
    - unfold nrm, mdet, vdot, vcross, vscale; cbn; ring.
    - rewrite (o_det _ _ _ _ _ _ O), D. rewrite <- !Rinv_mult. rewrite VO. field. }
  split; auto. revert S1 S2 S3 Q12 Q13 Q23. clear.
  generalize (nrm e1) (nrm e2) (nrm e3). intros [a b c] [d e f] [g h i]. unfold vdot; cbn [vx vy vz]. intros.
  unfold mmul, mtrans, col0, col1, col2, mid, vdot; cbn. f_equal; f_equal; lra.
Qed.

Lemma expand : forall a b c x, is_rotation (M a b c) -> vadd (vadd (vscale (vdot x a) a) (vscale (vdot x b) b)) (vscale (vdot x c) c) = x.
Proof.
  intros a b c x Hr. pose proof (is_rotation_trans _ Hr) as T.
  transitivity (mapply (mmul (mtrans (M a b c)) (M a b c)) x).
  - rewrite mapply_mul. destruct a, b, c, x. unfold mapply, mtrans, col0, col1, col2, vdot, vadd, vscale; cbn. f_equal; ring.
  - rewrite T. apply mapply_id.
Qed.

(** Tiling of space by the cuboid: existence and uniqueness of the shift. *)
Definition zadd (a b : zvec) : zvec := let '(x, y, z) := a in let '(x', y', z') := b in (x + x', y + y', z + z')%Z.
Definition zscale (k : Z) (a : zvec) : zvec := let '(x, y, z) := a in (k * x, k * y, k * z)%Z.
Lemma real_add : forall a b, real (zadd a b) = vadd (real a) (real b).
Proof. intros [[x y] z] [[x' y'] z']. unfold real, vadd; cbn. rewrite !plus_IZR. auto. Qed.
Lemma real_scale : forall k a, real (zscale k a) = vscale (IZR k) (real a).
Proof. intros k [[x y] z]. unfold real, vscale; cbn. rewrite !mult_IZR. auto. Qed.
Lemma real_inj : forall a b, real a = real b -> a = b.
Proof. intros [[x y] z] [[x' y'] z'] H. unfold real in H. injection H as H1 H2 H3. apply eq_IZR in H1, H2, H3. congruence. Qed.

Definition half_open (e1 e2 e3 p : vec) : Prop :=
  0 <= vdot p e1 < vdot e1 e1 /\ 0 <= vdot p e2 < vdot e2 e2 /\ 0 <= vdot p e3 < vdot e3 e3.
Definition closed (e1 e2 e3 p : vec) : Prop :=
  0 <= vdot p e1 <= vdot e1 e1 /\ 0 <= vdot p e2 <= vdot e2 e2 /\ 0 <= vdot p e3 <= vdot e3 e3.

Lemma floor_reduce : forall x s, 0 < s -> 0 <= x - IZR (Rfloor (x / s)) * s < s.
Proof. intros x s H. pose proof (Rmod_range x s H) as M. unfold Rmod in M. lra. Qed.

Lemma tile_exists : forall u1 u2 u3 e1 e2 e3 p, ortho (real u1) (real u2) (real u3) e1 e2 e3 ->
  exists k, half_open e1 e2 e3 (vadd p (real k)).
Proof.
  intros u1 u2 u3 e1 e2 e3 p O. destruct O as [E1 P1 P2 P3 Q12 Q13 Q23 U12 U13 U23 U22 U33 _].
  set (m3 := Rfloor (vdot p e3 / vdot e3 e3)). pose proof (floor_reduce (vdot p e3) _ P3) as R3. fold m3 in R3.
  set (q := vdot p e2 - IZR m3 * vdot (real u3) e2).
  set (m2 := Rfloor (q / vdot e2 e2)). pose proof (floor_reduce q _ P2) as R2. fold m2 in R2. unfold q in R2.
  set (t := vdot p e1 - IZR m3 * vdot (real u3) e1 - IZR m2 * vdot (real u2) e1).
  set (m1 := Rfloor (t / vdot e1 e1)). pose proof (floor_reduce t _ P1) as R1. fold m1 in R1. unfold t in R1.
  exists (zadd (zscale (- m3) u3) (zadd (zscale (- m2) u2) (zscale (- m1) u1))).
  rewrite !real_add, !real_scale, !opp_IZR. unfold half_open. rewrite !vdot_add_l, !vdot_scale_l.
  rewrite U12, U13, U23, U22, U33. rewrite <- E1 at 1 2. lra.
Qed.

Lemma int_small : forall a s, 0 < s -> Rabs (IZR a * s) < s -> a = 0%Z.
Proof.
  intros a s P H. rewrite Rabs_mult, (Rabs_pos_eq s) in H by lra.
  assert (L : Rabs (IZR a) < 1) by nra. rewrite <- abs_IZR in L. apply lt_IZR in L. lia.
Qed.

Lemma lattice_coords : forall u1 u2 u3 k, zdet u1 u2 u3 = 1%Z ->
  real k = vadd (vadd (vscale (IZR (zdet k u2 u3)) (real u1)) (vscale (IZR (zdet u1 k u3)) (real u2))) (vscale (IZR (zdet u1 u2 k)) (real u3)).
Proof.
  intros u1 u2 u3 k D. apply (f_equal IZR) in D. rewrite <- det3_real in D. rewrite <- !det3_real.
  revert D. generalize (real u1) (real u2) (real u3) (real k). intros a b c v D.
  transitivity (vscale (det3 a b c) v). - rewrite D, vscale_1. auto.
  - unfold det3, vadd, vscale; cbn. f_equal; ring.
Qed.

Lemma tile_unique : forall u1 u2 u3 e1 e2 e3 p k l, unimodular u1 u2 u3 -> ortho (real u1) (real u2) (real u3) e1 e2 e3 ->
  half_open e1 e2 e3 (vadd p (real k)) -> half_open e1 e2 e3 (vadd p (real l)) -> k = l.
Proof.
  intros u1 u2 u3 e1 e2 e3 p k l D O Hk Hl. destruct O as [E1 P1 P2 P3 Q12 Q13 Q23 U12 U13 U23 U22 U33 _].
  set (d := zadd k (zscale (-1) l)). pose proof (lattice_coords u1 u2 u3 d D) as C.
  set (a1 := zdet d u2 u3) in *. set (a2 := zdet u1 d u3) in *. set (a3 := zdet u1 u2 d) in *.
  assert (DR : forall e, vdot (real d) e = vdot (real k) e - vdot (real l) e).
  { intros e. unfold d. rewrite real_add, real_scale, vdot_add_l, vdot_scale_l. lra. }
  unfold half_open in *. rewrite !vdot_add_l in *.
  assert (Z3 : a3 = 0%Z). { apply (int_small a3 (vdot e3 e3)); auto.
    replace (IZR a3 * vdot e3 e3) with (vdot (real d) e3). rewrite DR. apply Rabs_def1; lra.
    rewrite C, !vdot_add_l, !vdot_scale_l, U13, U23, U33. ring. }
  assert (Z2 : a2 = 0%Z). { apply (int_small a2 (vdot e2 e2)); auto.
    replace (IZR a2 * vdot e2 e2) with (vdot (real d) e2). rewrite DR. apply Rabs_def1; lra.
    rewrite C, Z3, !vdot_add_l, !vdot_scale_l, U12, U22. ring. }
  assert (Z1 : a1 = 0%Z). { apply (int_small a1 (vdot e1 e1)); auto.
    replace (IZR a1 * vdot e1 e1) with (vdot (real d) e1). rewrite DR. apply Rabs_def1; lra.
    rewrite C, Z3, Z2, !vdot_add_l, !vdot_scale_l, E1. ring. }
  apply real_inj. assert (R0 : real d = vzero). { rewrite C, Z1, Z2, Z3. unfold vadd, vscale, vzero; cbn [vx vy vz]; f_equal; ring. }
  unfold d in R0. rewrite real_add, real_scale in R0. unfold vadd, vscale, vzero in R0. injection R0 as A B E. apply vec_eq; lra.
Qed.
