(** Proofs about remapping: transform and inverse_transform; a rational shadow of the cells, to compute examples. *)
Require Import Reals Lra Lia ZArith QArith Qround Qreals List Bool String.
From Verif Require Import Base Vec3 Isometry_Model Isometry_Proof Sky_Model Sky_Proof Cutsky_Model Box_Model Box_Spec Box_Proof Box_Proof3
  Remap_Model Remap_Spec Remap_Proof Remap_Proof2.
Import ListNotations.
Close Scope Q_scope.
Open Scope R_scope.

Lemma Rdiv_1' : forall x, x / 1 = x. Proof. intros; field. Qed.

Definition cuboid_of (e1 e2 e3 size : vec) : cuboid :=
  let r := V (vnorm (vmul size (nrm e1))) (vnorm (vmul size (nrm e2))) (vnorm (vmul size (nrm e3))) in
  Cuboid size (nrm e1) (nrm e2) (nrm e3) r (vmul r (V (vnorm e1) (vnorm e2) (vnorm e3))) (cells e1 e2 e3).

Lemma cuboid_ok : forall u1 u2 u3 e1 e2 e3 size, det3 u1 u2 u3 = 1 -> gram_schmidt u1 u2 u3 e1 e2 e3 ->
  cuboid_new u1 u2 u3 size = Ok (cuboid_of e1 e2 e3 size).
Proof.
  intros u1 u2 u3 e1 e2 e3 size D G. unfold cuboid_new. destruct (Req_EM_T (det3 u1 u2 u3) 1); [|lra].
  assert (D' := D). rewrite det3_eq in D'. destruct (orthogonalize_gs u1 u2 u3 D') as (f1 & f2 & f3 & E & G').
  destruct (gs_unique _ _ _ _ _ _ _ _ _ D' G' G) as (-> & -> & ->). rewrite E. cbn [bind].
  pose proof (gs_ortho _ _ _ _ _ _ G D') as O.
  rewrite !unit_of_ok by (apply O). cbn [bind]. rewrite !rnorm_eq. reflexivity.
Qed.
Lemma gs_exists : forall u1 u2 u3, det3 u1 u2 u3 = 1 -> exists e1 e2 e3, gram_schmidt u1 u2 u3 e1 e2 e3.
Proof. intros u1 u2 u3 D. rewrite det3_eq in D. destruct (orthogonalize_gs _ _ _ D) as (e1 & e2 & e3 & _ & G). eauto. Qed.

Lemma det_rejected : forall u1 u2 u3 size, det3 u1 u2 u3 <> 1 -> cuboid_new u1 u2 u3 size = Err ValueError.
Proof. intros u1 u2 u3 size D. unfold cuboid_new. destruct (Req_EM_T (det3 u1 u2 u3) 1); [lra|auto]. Qed.

Lemma unimodular_det3 : forall u1 u2 u3, unimodular u1 u2 u3 -> det3 (real u1) (real u2) (real u3) = 1.
Proof. intros u1 u2 u3 U. rewrite det3_real, U. auto. Qed.

(** Sizes. *)
Lemma isotropic_norm : forall b n, 0 <= b -> vnorm (vmul (V b b b) n) = b * vnorm n.
Proof.
  intros b n B. replace (vmul (V b b b) n) with (vscale b n) by (unfold vmul, vscale; cbn; auto). rewrite vnorm_scale, Rabs_pos_eq; auto.
Qed.
Lemma nrm_unit : forall e, 0 < vnorm e -> vnorm (nrm e) = 1.
Proof.
  intros e P. unfold nrm. rewrite vnorm_scale, Rabs_pos_eq. - field; lra. - left; apply Rinv_0_lt_compat; auto.
Qed.

Lemma resize_pos : forall n size, positive size -> vnorm n = 1 -> 0 < vnorm (vmul size n).
Proof.
  intros [x y z] [a b c] (A & B & C) N. cbn in *. apply vnorm_pos. intros E. unfold vmul, vzero in E. cbn in E. injection E as E1 E2 E3.
  assert (x = 0) by (apply Rmult_integral in E1; lra). assert (y = 0) by (apply Rmult_integral in E2; lra).
  assert (z = 0) by (apply Rmult_integral in E3; lra). subst. change (V 0 0 0) with vzero in N. rewrite vnorm_vzero in N. lra.
Qed.

Lemma combine_project : forall e1 e2 e3 size x, is_rotation (M (nrm e1) (nrm e2) (nrm e3)) ->
  combine3 (cuboid_of e1 e2 e3 size) (project (cuboid_of e1 e2 e3 size) x) = x.
Proof.
  intros e1 e2 e3 size x Hr. unfold combine3, project; cbn [cu_n1 cu_n2 cu_n3 cuboid_of vx vy vz]. rewrite !rdot_eq, vadd_0_l. apply expand; auto.
Qed.

Lemma vdiv_ok : forall x s, vx s <> 0 -> vy s <> 0 -> vz s <> 0 -> vdiv_result x s = Ok (vdiv x s).
Proof. intros x s A B C. unfold vdiv_result. rewrite !fdiv_ok by auto. reflexivity. Qed.

Lemma in_unit : forall size x, positive size -> in_box size x -> in_box one (vdiv x size).
Proof.
  intros [a b c] [x y z] (A & B & C) (X & Y & Z). unfold in_box, one, vdiv; cbn in *.
  assert (F : forall s t, 0 < s -> 0 <= t <= s -> 0 <= t / s <= 1).
  { intros s t S T. split. - apply Rmult_le_pos; [lra|left; apply Rinv_0_lt_compat; auto].
    - apply Rmult_le_reg_r with s; auto. replace (t / s * s) with t by (field; lra). lra. }
  auto.
Qed.

(** transform: what it computes. *)
Lemma transform_ok : forall u1 u2 u3 e1 e2 e3 size x, unimodular u1 u2 u3 -> gram_schmidt (real u1) (real u2) (real u3) e1 e2 e3 ->
  positive size -> in_box size x ->
  exists k, cu_transform1 (cuboid_of e1 e2 e3 size) false x =
    Ok (vmul (project (cuboid_of e1 e2 e3 size) (vadd (vdiv x size) (real k))) (cu_resize (cuboid_of e1 e2 e3 size))) /\
    loop_cells (cells e1 e2 e3) (vdiv x size) = (true, vadd (vdiv x size) (real k)).
Proof.
  intros u1 u2 u3 e1 e2 e3 size x U G P B. pose proof (unimodular_det3 _ _ _ U) as D. rewrite det3_eq in D.
  pose proof (gs_ortho _ _ _ _ _ _ G D) as O. unfold cu_transform1. cbn [cu_boxsize cuboid_of cu_cells].
  destruct P as (A & A' & A''). rewrite vdiv_ok by lra. cbn [bind].
  destruct (loop_cells_ok _ _ _ _ _ _ O D (fun p => tile_exists u1 u2 u3 e1 e2 e3 p O) (vdiv x size) (in_unit size x (conj A (conj A' A'')) B)) as (k & E).
  exists k. rewrite E. auto.
Qed.

Lemma rmod_shift1 : forall x z, Rmod (x + IZR z) 1 = Rmod x 1.
Proof. intros. rewrite <- (Rmod_shift x 1 z) by lra. f_equal. ring. Qed.

Lemma inverse_ok : forall u1 u2 u3 e1 e2 e3 size p k, unimodular u1 u2 u3 -> gram_schmidt (real u1) (real u2) (real u3) e1 e2 e3 -> positive size ->
  cu_inverse1 (cuboid_of e1 e2 e3 size) false (vmul (project (cuboid_of e1 e2 e3 size) (vadd p (real k))) (cu_resize (cuboid_of e1 e2 e3 size))) =
  Ok (vmul (V (Rmod (vx p) 1) (Rmod (vy p) 1) (Rmod (vz p) 1)) size).
Proof.
  intros u1 u2 u3 e1 e2 e3 size p k U G P. pose proof (unimodular_det3 _ _ _ U) as D. rewrite det3_eq in D.
  pose proof (gs_ortho _ _ _ _ _ _ G D) as O.
  set (c := cuboid_of e1 e2 e3 size).
  assert (X : 0 < vx (cu_resize c)) by (cbn; apply resize_pos; auto; apply nrm_unit, vnorm_pos', O).
  assert (Y : 0 < vy (cu_resize c)) by (cbn; apply resize_pos; auto; apply nrm_unit, vnorm_pos', O).
  assert (Z : 0 < vz (cu_resize c)) by (cbn; apply resize_pos; auto; apply nrm_unit, vnorm_pos', O).
  unfold cu_inverse1. rewrite vdiv_ok by lra. cbn [bind].
  replace (vdiv (vmul (project c (vadd p (real k))) (cu_resize c)) (cu_resize c)) with (project c (vadd p (real k))).
  2:{ destruct (project c (vadd p (real k))) as [a b d], (cu_resize c) as [r s t]. unfold vdiv, vmul; cbn in *. f_equal; field; lra. }
  unfold c. rewrite !combine_project by (apply (nrm_rotation _ _ _ _ _ _ O D)).
  destruct k as [[k0 k1] k2]. unfold real, vadd; cbn [vx vy vz]. rewrite !rmod_shift1. reflexivity.
Qed.

Lemma half_open_in_box : forall size x, in_half_open_box size x -> in_box size x.
Proof. intros size x; unfold in_half_open_box, in_box; lra. Qed.

Lemma unit_mod : forall s x, 0 < s -> 0 <= x < s -> Rmod (x / s) 1 * s = x.
Proof.
  intros s x S X. rewrite Rmod_id. - field; lra.
  - split. + apply Rmult_le_pos; [lra|left; apply Rinv_0_lt_compat; auto].
    + apply Rmult_lt_reg_r with s; auto. replace (x / s * s) with x by (field; lra). lra.
Qed.
Lemma unit_mod_periodic : forall s x, 0 < s -> exists z, Rmod (x / s) 1 * s = x + IZR z * s /\ (0 <= x < s -> z = 0%Z).
Proof.
  intros s x S. exists (- Rfloor (x / s))%Z. split.
  - unfold Rmod. rewrite opp_IZR, Rdiv_1'. field. lra.
  - intros X. replace (Rfloor (x / s)) with 0%Z; auto. symmetry. apply Rfloor_unique. split.
    + cbn. apply Rmult_le_pos; [lra|left; apply Rinv_0_lt_compat; auto].
    + cbn. rewrite Rplus_0_l. apply Rmult_lt_reg_r with s; auto. replace (x / s * s) with x by (field; lra). lra.
Qed.

Lemma round_trip : forall u1 u2 u3 size, unimodular u1 u2 u3 -> positive size -> exists c, cuboid_new (real u1) (real u2) (real u3) size = Ok c /\
  forall x, in_box size x -> exists y x', cu_transform1 c false x = Ok y /\ cu_inverse1 c false y = Ok x' /\ same_periodic size x x' /\
    (in_half_open_box size x -> x' = x).
Proof.
  intros u1 u2 u3 size U P. pose proof (unimodular_det3 _ _ _ U) as D. destruct (gs_exists _ _ _ D) as (e1 & e2 & e3 & G).
  exists (cuboid_of e1 e2 e3 size). split; [apply (cuboid_ok _ _ _ _ _ _ size D G)|]. intros x B.
  destruct (transform_ok u1 u2 u3 e1 e2 e3 size x U G P B) as (k & E & _). do 2 eexists. split; [exact E|].
  split; [apply (inverse_ok u1 u2 u3 e1 e2 e3 size (vdiv x size) k U G P)|].
  destruct size as [a b c], x as [x y z], P as (A1 & A2 & A3). unfold in_half_open_box, vdiv, vmul; cbn in *.
  destruct (unit_mod_periodic a x A1) as (z1 & E1 & F1). destruct (unit_mod_periodic b y A2) as (z2 & E2 & F2).
  destruct (unit_mod_periodic c z A3) as (z3 & E3 & F3). rewrite E1, E2, E3. split.
  - exists (z1, z2, z3). unfold vadd, vmul, real; cbn. auto.
  - intros (H1 & H2 & H3). rewrite (F1 H1), (F2 H2), (F3 H3). f_equal; ring.
Qed.

Lemma velocity_round_trip : forall u1 u2 u3 size, unimodular u1 u2 u3 -> exists c, cuboid_new (real u1) (real u2) (real u3) size = Ok c /\
  forall v, exists w, cu_transform1 c true v = Ok w /\ cu_inverse1 c true w = Ok v /\ vnorm w = vnorm v.
Proof.
  intros u1 u2 u3 size U. pose proof (unimodular_det3 _ _ _ U) as D. destruct (gs_exists _ _ _ D) as (e1 & e2 & e3 & G).
  exists (cuboid_of e1 e2 e3 size). split; [apply (cuboid_ok _ _ _ _ _ _ size D G)|]. intros v.
  assert (D' := D). rewrite det3_eq in D'. pose proof (gs_ortho _ _ _ _ _ _ G D') as O. pose proof (nrm_rotation _ _ _ _ _ _ O D') as Hr.
  eexists. split; [reflexivity|]. split; [unfold cu_inverse1; rewrite combine_project by auto; auto|].
  unfold project; cbn [cu_n1 cu_n2 cu_n3 cuboid_of]. rewrite !rdot_eq.
  replace (V (vdot v (nrm e1)) (vdot v (nrm e2)) (vdot v (nrm e3))) with (mapply (M (nrm e1) (nrm e2) (nrm e3)) v).
  - apply rot_preserves_norm; auto. - unfold mapply; cbn [row0 row1 row2]. f_equal; apply vdot_comm.
Qed.

(** Landing in the cuboid. *)
Lemma closed_sides : forall e q r, 0 < vnorm e -> 0 <= r -> 0 <= vdot q e <= vdot e e -> 0 <= rdot q (nrm e) * r <= r * vnorm e.
Proof.
  intros e q r P R (A & B). rewrite rdot_eq. apply (side_lo e q P) in A. apply (side_hi e q P) in B. rewrite (vdot_comm q). nra.
Qed.
Lemma lands : forall u1 u2 u3 e1 e2 e3 size, unimodular u1 u2 u3 -> gram_schmidt (real u1) (real u2) (real u3) e1 e2 e3 -> positive size ->
  vdot e1 e1 <= reach e1 -> vdot e2 e2 <= reach e2 -> vdot e3 e3 <= reach e3 ->
  exists c, cuboid_new (real u1) (real u2) (real u3) size = Ok c /\
    forall x, in_box size x -> exists y, cu_transform1 c false x = Ok y /\ in_box (cu_size c) y.
Proof.
  intros u1 u2 u3 e1 e2 e3 size U G P R1 R2 R3. pose proof (unimodular_det3 _ _ _ U) as D.
  exists (cuboid_of e1 e2 e3 size). split; [apply (cuboid_ok _ _ _ _ _ _ size D G)|]. intros x B.
  destruct (transform_ok u1 u2 u3 e1 e2 e3 size x U G P B) as (k & E & L). eexists. split; [exact E|].
  assert (D' := D). rewrite det3_eq in D'. pose proof (gs_ortho _ _ _ _ _ _ G D') as O.
  pose proof (loop_in_cuboid _ _ _ _ _ _ O D' (fun p => tile_exists u1 u2 u3 e1 e2 e3 p O) R1 R2 R3 (vdiv x size) (in_unit size x P B)) as C.
  rewrite L in C. cbn [snd] in C. destruct C as (C1 & C2 & C3).
  unfold in_box, project; cbn [cuboid_of cu_size cu_resize cu_n1 cu_n2 cu_n3 vmul vx vy vz].
  assert (Pn : forall n, vnorm n = 1 -> 0 <= vnorm (vmul size n)) by (intros; apply vnorm_nonneg).
  split; [|split]; apply closed_sides; auto using vnorm_nonneg; apply vnorm_pos', O.
Qed.

(** The first cell that accepts a position puts it in the cuboid. *)
Lemma first_cell : forall u1 u2 u3 e1 e2 e3 p, unimodular u1 u2 u3 -> gram_schmidt (real u1) (real u2) (real u3) e1 e2 e3 -> in_box one p ->
  exists k, closed e1 e2 e3 (vadd p (real k)).
Proof.
  intros u1 u2 u3 e1 e2 e3 p U G B. pose proof (unimodular_det3 _ _ _ U) as D. rewrite det3_eq in D. pose proof (gs_ortho _ _ _ _ _ _ G D) as O.
  destruct (tile_exists u1 u2 u3 e1 e2 e3 p O) as (k & H). exists k. apply half_closed; auto.
Qed.

(** Tiling, in terms of the sizes and directions of the cuboid. *)
Lemma tiling : forall u1 u2 u3 b, unimodular u1 u2 u3 -> 0 < b -> exists c, cuboid_new (real u1) (real u2) (real u3) (V b b b) = Ok c /\
  forall p, exists k, in_half_open_box (cu_size c) (V (vdot (vadd p (vscale b (real k))) (cu_n1 c)) (vdot (vadd p (vscale b (real k))) (cu_n2 c)) (vdot (vadd p (vscale b (real k))) (cu_n3 c))) /\
    forall l, in_half_open_box (cu_size c) (V (vdot (vadd p (vscale b (real l))) (cu_n1 c)) (vdot (vadd p (vscale b (real l))) (cu_n2 c)) (vdot (vadd p (vscale b (real l))) (cu_n3 c))) -> l = k.
Proof.
  intros u1 u2 u3 b U B. pose proof (unimodular_det3 _ _ _ U) as D. destruct (gs_exists _ _ _ D) as (e1 & e2 & e3 & G).
  exists (cuboid_of e1 e2 e3 (V b b b)). split; [apply (cuboid_ok _ _ _ _ _ _ _ D G)|]. intros p.
  assert (D' := D). rewrite det3_eq in D'. pose proof (gs_ortho _ _ _ _ _ _ G D') as O.
  assert (S : forall e q, 0 < vnorm e -> (0 <= vdot (vadd p (vscale b q)) (nrm e) < vnorm (vmul (V b b b) (nrm e)) * vnorm e <->
     0 <= vdot (vadd (vscale (/ b) p) q) e < vdot e e)).
  { intros e q P. rewrite isotropic_norm, nrm_unit, Rmult_1_r by lra. rewrite dot_nrm by auto. rewrite <- vnorm_sqr.
    replace (vdot (vadd p (vscale b q)) e) with (b * vdot (vadd (vscale (/ b) p) q) e).
    2:{ unfold vdot, vadd, vscale; cbn. field. lra. }
    set (t := vdot (vadd (vscale (/ b) p) q) e). set (n := vnorm e) in *.
    replace (b * t / n) with (b * (t / n)) by (field; lra).
    assert (T : t = t / n * n) by (field; lra). set (w := t / n) in *. split; intros [H1 H2]; rewrite T in *; split; nra. }
  assert (Q : forall k, in_half_open_box (cu_size (cuboid_of e1 e2 e3 (V b b b)))
     (V (vdot (vadd p (vscale b (real k))) (nrm e1)) (vdot (vadd p (vscale b (real k))) (nrm e2)) (vdot (vadd p (vscale b (real k))) (nrm e3))) <->
     half_open e1 e2 e3 (vadd (vscale (/ b) p) (real k))).
  { intros k. unfold in_half_open_box, half_open; cbn [cuboid_of cu_size vmul vx vy vz].
    rewrite (S e1), (S e2), (S e3) by (apply vnorm_pos', O). tauto. }
  cbn [cu_n1 cu_n2 cu_n3 cuboid_of]. destruct (tile_exists u1 u2 u3 e1 e2 e3 (vscale (/ b) p) O) as (k & H). exists k. split; [apply Q; auto|].
  intros l L. apply Q in L. symmetry. eapply tile_unique; eauto.
Qed.

(** Rational shadow. *)
Record qvec : Type := QV { qx : Q; qy : Q; qz : Q }.
Definition qr (q : qvec) : vec := V (Q2R (qx q)) (Q2R (qy q)) (Q2R (qz q)).
Definition qdot (a b : qvec) : Q := (qx a * qx b + qy a * qy b + qz a * qz b)%Q.
Definition qadd (a b : qvec) : qvec := QV (qx a + qx b)%Q (qy a + qy b)%Q (qz a + qz b)%Q.
Definition qopp (a : qvec) : qvec := QV (- qx a)%Q (- qy a)%Q (- qz a)%Q.
Definition qz3 (i : ipos) : qvec := let '(a, b, c) := i in QV (inject_Z a) (inject_Z b) (inject_Z c).
Lemma qr_dot : forall a b, vdot (qr a) (qr b) = Q2R (qdot a b).
Proof. intros a b. unfold vdot, qr, qdot; cbn. rewrite !Q2R_plus, !Q2R_mult. auto. Qed.
Lemma qr_add : forall a b, qr (qadd a b) = vadd (qr a) (qr b).
Proof. intros. unfold qr, qadd, vadd; cbn. rewrite !Q2R_plus. auto. Qed.
Lemma qr_opp : forall a, qr (qopp a) = vopp (qr a).
Proof. intros. unfold qr, qopp, vopp; cbn. rewrite !Q2R_opp. auto. Qed.
Lemma Q2R_Z : forall z, Q2R (inject_Z z) = IZR z. Proof. intros; unfold Q2R, inject_Z; cbn. field. Qed.
Lemma qr_z : forall i, qr (qz3 i) = vec_of i. Proof. intros [[a b] c]. unfold qr, qz3, vec_of; cbn. rewrite !Q2R_Z. auto. Qed.

Definition qltb (a b : Q) : bool := negb (Qle_bool b a).
Lemma qltb_R : forall a b, qltb a b = Rltb (Q2R a) (Q2R b).
Proof.
  intros a b. unfold qltb. destruct (Qle_bool b a) eqn:E.
  - apply Qle_bool_iff, Qle_Rle in E. symmetry. apply Rltb_false. auto.
  - symmetry. apply Rltb_true. apply Qlt_Rlt. apply Qnot_le_lt. intros H. apply Qle_bool_iff in H. congruence.
Qed.
Lemma qleb_R : forall a b, Qle_bool a b = Rleb (Q2R a) (Q2R b).
Proof.
  intros a b. destruct (Qle_bool a b) eqn:E.
  - apply Qle_bool_iff, Qle_Rle in E. symmetry. apply Rleb_true. auto.
  - symmetry. apply Rleb_false. apply Qlt_Rlt. apply Qnot_le_lt. intros H. apply Qle_bool_iff in H. congruence.
Qed.
Lemma Qfloor_R : forall q, Rfloor (Q2R q) = Qfloor q.
Proof.
  intros q. apply Rfloor_unique. rewrite <- Q2R_Z. split; [apply Qle_Rle, Qfloor_le|].
  replace (Q2R (inject_Z (Qfloor q)) + 1) with (Q2R (inject_Z (Qfloor q + 1))) by (rewrite !Q2R_Z, plus_IZR; auto). apply Qlt_Rlt, Qlt_floor.
Qed.
Lemma Qceil_R : forall q, Rceil (Q2R q) = Qceiling q.
Proof. intros q. unfold Rceil, Qceiling. rewrite <- Q2R_opp, Qfloor_R. auto. Qed.

(** Planes up to a positive factor. *)
Record qplane : Type := QP { qn : qvec; qd : Q }.
Definition qtest (f : qplane) (x : qvec) : Q := (qdot (qn f) x + qd f)%Q.
Definition prel (f : plane) (g : qplane) : Prop := exists k, 0 < k /\ forall x, plane_test f (qr x) = k * Q2R (qtest g x).
Definition qcube : list qvec :=
  flat_map (fun x => flat_map (fun y => map (fun z => QV x y z) [0%Q; 1%Q]) [0%Q; 1%Q]) [0%Q; 1%Q].
Definition qtuc (g : qplane) : BinNums.Z :=
  let above := existsb (fun x => qltb 0 (qtest g x)) qcube in
  let below := existsb (fun x => qltb (qtest g x) 0) qcube in
  ((if above then 1 else 0) - (if below then 1 else 0))%Z.
Lemma qcube_R : cube = map qr qcube.
Proof. unfold cube, qcube, qr; cbn. rewrite RMicromega.Q2R_0, RMicromega.Q2R_1. reflexivity. Qed.
Lemma existsb_map : forall {A B} (f : A -> B) p l, existsb p (map f l) = existsb (fun x => p (f x)) l.
Proof. intros A B f p l; induction l; cbn; auto. rewrite IHl; auto. Qed.
Lemma existsb_ext' : forall {A} (p q : A -> bool) l, (forall x, p x = q x) -> existsb p l = existsb q l.
Proof. intros A p q l H; induction l; cbn; auto. rewrite H, IHl; auto. Qed.
Lemma scale_lt0 : forall k x, 0 < k -> Rltb 0 (k * x) = Rltb 0 x /\ Rltb (k * x) 0 = Rltb x 0 /\ Rleb 0 (k * x) = Rleb 0 x.
Proof.
  intros k x K. unfold Rltb, Rleb.
  repeat match goal with |- context [Rlt_dec ?a ?b] => destruct (Rlt_dec a b) | |- context [Rle_dec ?a ?b] => destruct (Rle_dec a b) end; repeat split; auto; exfalso; nra.
Qed.
Lemma tuc_R : forall f g, prel f g -> test_unit_cube f = qtuc g.
Proof.
  intros f g (k & K & H). unfold test_unit_cube, qtuc. rewrite qcube_R, !existsb_map.
  rewrite (existsb_ext' (fun x => Rltb 0 (plane_test f (qr x))) (fun x => qltb 0 (qtest g x))).
  2:{ intros x. rewrite H, qltb_R, RMicromega.Q2R_0. apply scale_lt0; auto. }
  rewrite (existsb_ext' (fun x => Rltb (plane_test f (qr x)) 0) (fun x => qltb (qtest g x) 0)).
  2:{ intros x. rewrite H, qltb_R, RMicromega.Q2R_0. apply scale_lt0; auto. }
  reflexivity.
Qed.

Fixpoint qkeep (l : list qplane) : option (list qplane) :=
  match l with
  | [] => Some []
  | f :: l =>
    let r := qtuc f in
    if (r =? -1)%Z then None else
    match qkeep l with
    | None => None
    | Some k => Some (if (r =? 0)%Z then f :: k else k)
    end
  end.
Lemma keep_R : forall l m, Forall2 prel l m -> match keep_faces l, qkeep m with
  | None, None => True | Some k, Some k' => Forall2 prel k k' | _, _ => False end.
Proof.
  intros l m H. induction H as [|f g l m P _ IH]; cbn; auto. rewrite (tuc_R f g P).
  destruct (qtuc g =? -1)%Z; auto. destruct (keep_faces l), (qkeep m); auto. destruct (qtuc g =? 0)%Z; auto.
Qed.

(** Faces with the edges instead of the unit vectors. *)
Definition qfaces (q1 q2 q3 : qvec) (i : ipos) : list qplane :=
  let s := qz3 i in
  [QP q1 (qdot q1 s); QP (qopp q1) (qdot q1 q1 - qdot q1 s)%Q; QP q2 (qdot q2 s); QP (qopp q2) (qdot q2 q2 - qdot q2 s)%Q;
   QP q3 (qdot q3 s); QP (qopp q3) (qdot q3 q3 - qdot q3 s)%Q].
Lemma faces_R : forall q1 q2 q3 i, 0 < vnorm (qr q1) -> 0 < vnorm (qr q2) -> 0 < vnorm (qr q3) ->
  Forall2 prel (tile_faces (qr q1) (qr q2) (qr q3) (nrm (qr q1)) (nrm (qr q2)) (nrm (qr q3)) i) (qfaces q1 q2 q3 i).
Proof.
  intros q1 q2 q3 i P1 P2 P3. unfold tile_faces, qfaces. cbn [nth vertices].
  assert (Lo : forall q, 0 < vnorm (qr q) -> prel (plane_new (vadd vzero (vopp (vec_of i))) (nrm (qr q))) (QP q (qdot q (qz3 i)))).
  { intros q P. exists (/ vnorm (qr q)). split; [apply Rinv_0_lt_compat; auto|]. intros x. rewrite lo_test. unfold qtest; cbn [qn qd].
    rewrite Q2R_plus, <- !qr_dot, qr_z. change (vec_of i) with (real i). unfold nrm. rewrite vdot_scale_l, vdot_add_r. ring. }
  assert (Hi : forall q, 0 < vnorm (qr q) -> prel (plane_new (vadd (vadd vzero (qr q)) (vopp (vec_of i))) (vopp (nrm (qr q)))) (QP (qopp q) (qdot q q - qdot q (qz3 i))%Q)).
  { intros q P. exists (/ vnorm (qr q)). split; [apply Rinv_0_lt_compat; auto|]. intros x. rewrite hi_test by auto. unfold qtest; cbn [qn qd].
    unfold Qminus. rewrite !Q2R_plus, Q2R_opp, <- !qr_dot, qr_z, qr_opp. change (vec_of i) with (real i). unfold nrm. rewrite vdot_scale_l, vdot_add_r.
    rewrite <- (vnorm_sqr (qr q)). replace (vdot (vopp (qr q)) (qr x)) with (- vdot (qr q) (qr x)) by (unfold vdot, vopp; cbn; ring). field. lra. }
  apply Forall2_cons; [apply Lo; auto|]. apply Forall2_cons; [apply Hi; auto|]. apply Forall2_cons; [apply Lo; auto|].
  apply Forall2_cons; [apply Hi; auto|]. apply Forall2_cons; [apply Lo; auto|]. apply Forall2_cons; [apply Hi; auto|]. apply Forall2_nil.
Qed.

Record qcell : Type := QC { qc_ipos : ipos; qc_faces : list qplane }.
Definition crel (c : cell) (d : qcell) : Prop := c_ipos c = qc_ipos d /\ Forall2 prel (c_faces c) (qc_faces d).
Definition qmin (a b : Q) : Q := if Qle_bool a b then a else b.
Definition qmax (a b : Q) : Q := if Qle_bool a b then b else a.
Definition qlist_min (l : list Q) : Q := match l with [] => 0%Q | x :: l => fold_left qmin l x end.
Definition qlist_max (l : list Q) : Q := match l with [] => 0%Q | x :: l => fold_left qmax l x end.
Lemma qmin_R : forall a b, Rmin (Q2R a) (Q2R b) = Q2R (qmin a b).
Proof. intros. unfold qmin. rewrite qleb_R. unfold Rmin, Rleb. destruct (Rle_dec (Q2R a) (Q2R b)); auto. Qed.
Lemma qmax_R : forall a b, Rmax (Q2R a) (Q2R b) = Q2R (qmax a b).
Proof. intros. unfold qmax. rewrite qleb_R. unfold Rmax, Rleb. destruct (Rle_dec (Q2R a) (Q2R b)); auto. Qed.
Lemma qlist_min_R : forall l, list_min (map Q2R l) = Q2R (qlist_min l).
Proof.
  intros [|a l]; cbn; [symmetry; apply RMicromega.Q2R_0|]. revert a. induction l as [|b l IH]; intros a; cbn; auto. rewrite qmin_R. auto.
Qed.
Lemma qlist_max_R : forall l, list_max (map Q2R l) = Q2R (qlist_max l).
Proof.
  intros [|a l]; cbn; [symmetry; apply RMicromega.Q2R_0|]. revert a. induction l as [|b l IH]; intros a; cbn; auto. rewrite qmax_R. auto.
Qed.
Definition qvertices (e1 e2 e3 : qvec) : list qvec :=
  let v0 := QV 0 0 0 in
  [v0; qadd v0 e3; qadd v0 e2; qadd (qadd v0 e2) e3; qadd v0 e1; qadd (qadd v0 e1) e3; qadd (qadd v0 e1) e2; qadd (qadd (qadd v0 e1) e2) e3].
Lemma qvertices_R : forall a b c, vertices (qr a) (qr b) (qr c) = map qr (qvertices a b c).
Proof.
  intros a b c. unfold vertices, qvertices; cbn [map]. rewrite !qr_add.
  replace (qr (QV 0 0 0)) with vzero by (unfold qr, vzero; cbn; rewrite RMicromega.Q2R_0; auto). reflexivity.
Qed.
Definition qirange (coord : qvec -> Q) (vs : list qvec) : list BinNums.Z := arange (Qfloor (qlist_min (map coord vs))) (Qceiling (qlist_max (map coord vs))).
Lemma qirange_R : forall f g vs, (forall q, f (qr q) = Q2R (g q)) -> irange f (map qr vs) = qirange g vs.
Proof.
  intros f g vs H. unfold irange, qirange. rewrite map_map.
  replace (map (fun x => f (qr x)) vs) with (map Q2R (map g vs)) by (rewrite map_map; apply map_ext; intros; rewrite H; auto).
  rewrite qlist_min_R, qlist_max_R, Qfloor_R, Qceil_R. auto.
Qed.
Definition qtile (q1 q2 q3 : qvec) (i : ipos) : list qcell :=
  match qkeep (qfaces q1 q2 q3 i) with None => [] | Some [] => [] | Some f => [QC i f] end.
Definition qcells (q1 q2 q3 : qvec) : list qcell :=
  let v := qvertices q1 q2 q3 in
  let l := flat_map (qtile q1 q2 q3) (iproduct (qirange qx v) (qirange qy v) (qirange qz v)) in
  match l with [] => [QC (0, 0, 0)%Z []] | _ => l end.

Lemma cells_R : forall q1 q2 q3, 0 < vnorm (qr q1) -> 0 < vnorm (qr q2) -> 0 < vnorm (qr q3) ->
  Forall2 crel (cells (qr q1) (qr q2) (qr q3)) (qcells q1 q2 q3).
Proof.
  intros q1 q2 q3 P1 P2 P3. unfold cells, cuboid_cells, qcells. rewrite qvertices_R.
  rewrite (qirange_R vx qx), (qirange_R vy qy), (qirange_R vz qz) by auto.
  set (idx := iproduct _ _ _).
  assert (T : Forall2 crel (flat_map (tile_cell (qr q1) (qr q2) (qr q3) (nrm (qr q1)) (nrm (qr q2)) (nrm (qr q3))) idx) (flat_map (qtile q1 q2 q3) idx)).
  { induction idx as [|i idx IH]; cbn [flat_map]; [constructor|]. apply Forall2_app; auto. unfold tile_cell, qtile.
    pose proof (keep_R _ _ (faces_R q1 q2 q3 i P1 P2 P3)) as K.
    destruct (keep_faces _) as [k|], (qkeep _) as [k'|]; try (destruct K; fail); [|constructor].
    inversion K; subst; [apply Forall2_nil|]. apply Forall2_cons; [split; auto|apply Forall2_nil]. }
  clearbody idx. revert T. generalize (flat_map (qtile q1 q2 q3) idx).
  match goal with |- context [match ?l with [] => _ | _ => _ end] => generalize l end. intros l l' T.
  destruct T; [|apply Forall2_cons; auto]. apply Forall2_cons; [split; [auto|apply Forall2_nil]|apply Forall2_nil].
Qed.

Definition qisin (c : qcell) (x : qvec) : bool := forallb (fun f => Qle_bool 0 (qtest f x)) (qc_faces c).
Lemma isin_R : forall c d x, crel c d -> isin c (qr x) = qisin d x.
Proof.
  intros c d x [_ H]. unfold isin, qisin. induction H as [|f g l m (k & K & E) _ IH]; cbn; auto. rewrite IH. f_equal.
  rewrite E, qleb_R, RMicromega.Q2R_0. apply scale_lt0; auto.
Qed.
Definition qloop (cells : list qcell) (x : qvec) : bool * qvec :=
  fold_left (fun '(m, p) c => if qisin c p then (true, qadd p (qz3 (qc_ipos c))) else (m, p)) cells (false, x).
Lemma loop_R : forall l m x, Forall2 crel l m -> loop_cells l (qr x) = (fst (qloop m x), qr (snd (qloop m x))).
Proof.
  intros l m x H. unfold loop_cells, qloop. revert x. generalize false. induction H as [|c d l m C _ IH]; intros b x; cbn; auto.
  rewrite (isin_R c d x C). destruct (qisin d x).
  - destruct C as [-> _]. rewrite <- qr_z, <- qr_add. apply IH. - apply IH.
Qed.

(** A computed transform that leaves the cuboid. *)
Lemma escape : forall u1 u2 u3 q1 q2 q3 x, unimodular u1 u2 u3 -> gram_schmidt (real u1) (real u2) (real u3) (qr q1) (qr q2) (qr q3) ->
  fst (qloop (qcells q1 q2 q3) x) = true -> qltb (qdot (snd (qloop (qcells q1 q2 q3) x)) q1) 0 = true \/ qltb (qdot q1 q1) (qdot (snd (qloop (qcells q1 q2 q3) x)) q1) = true ->
  exists c y, cuboid_new (real u1) (real u2) (real u3) (V 1 1 1) = Ok c /\ cu_transform1 c false (qr x) = Ok y /\ ~ in_box (cu_size c) y.
Proof.
  intros u1 u2 u3 q1 q2 q3 x U G T F. pose proof (unimodular_det3 _ _ _ U) as D.
  assert (D' := D). rewrite det3_eq in D'. pose proof (gs_ortho _ _ _ _ _ _ G D') as O.
  assert (P1 := vnorm_pos' _ (o_11 _ _ _ _ _ _ O)). assert (P2 := vnorm_pos' _ (o_22 _ _ _ _ _ _ O)). assert (P3 := vnorm_pos' _ (o_33 _ _ _ _ _ _ O)).
  exists (cuboid_of (qr q1) (qr q2) (qr q3) (V 1 1 1)). eexists. split; [apply (cuboid_ok _ _ _ _ _ _ _ D G)|].
  split.
  - unfold cu_transform1. rewrite vdiv_ok by (cbn; lra). cbn [bind].
    replace (vdiv (qr x) (cu_boxsize (cuboid_of (qr q1) (qr q2) (qr q3) (V 1 1 1)))) with (qr x).
    2:{ unfold vdiv, qr; cbn. rewrite !Rdiv_1'. auto. }
    cbn [cuboid_of cu_cells]. rewrite (loop_R _ _ x (cells_R q1 q2 q3 P1 P2 P3)), T. reflexivity.
  - set (p := snd (qloop (qcells q1 q2 q3) x)) in *. unfold in_box, project. cbn [vmul vx vy vz cuboid_of cu_size cu_resize cu_n1].
    intros (B & _). rewrite isotropic_norm, nrm_unit, !Rmult_1_l, Rmult_1_r, rdot_eq in B by (auto; lra). rewrite vdot_comm in B.
    destruct B as [B1 B2]. apply (side_lo _ _ P1) in B1. assert (B3 : 0 <= vnorm (qr q1) - vdot (nrm (qr q1)) (qr p)) by lra. apply (side_hi _ _ P1) in B3.
    rewrite !qr_dot in *. rewrite !qltb_R, RMicromega.Q2R_0, !Rltb_true in F. destruct F; lra.
Qed.
