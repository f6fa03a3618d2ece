(** Lemmas about the isometry model. *)
Require Import Reals Lra Lia ZArith List Bool String Nsatz.
From Verif Require Import Base Vec3 Isometry_Model Isometry_Spec.
Import ListNotations.
Open Scope R_scope.

(* ---------- vectors ---------- *)
Lemma distance_vnorm : forall v, distance v = vnorm v.
Proof. intros []. unfold distance, vnorm. vunfold. f_equal. ring. Qed.

Lemma dist3_vnorm : forall p q, dist3 p q = vnorm (vsub p q).
Proof. intros [] []. unfold dist3, vnorm. vunfold. f_equal. ring. Qed.

Lemma signed_volume_triple : forall p q r s,
  signed_volume p q r s = vtriple (vsub q p) (vsub r p) (vsub s p).
Proof. intros [] [] [] []. unfold signed_volume. vunfold. ring. Qed.

Lemma normalize_ok : forall v, v <> vzero -> normalize v = Ok (vscale (/ vnorm v) v).
Proof.
  intros v H. unfold normalize. rewrite distance_vnorm.
  destruct (Req_EM_T (vnorm v) 0) as [E|E].
  - apply vnorm_zero in E; contradiction.
  - f_equal. vsplit; unfold vscale; cbn; field; auto.
Qed.

Lemma normalize_zero : normalize vzero = Err ZeroDivision.
Proof. unfold normalize. rewrite distance_vnorm, vnorm_vzero. destruct (Req_EM_T 0 0); congruence. Qed.

Lemma normalize_inv : forall v u, normalize v = Ok u -> v <> vzero /\ u = vscale (/ vnorm v) v.
Proof.
  intros v u H. destruct (vec_dec v vzero) as [->|N].
  - rewrite normalize_zero in H; discriminate.
  - rewrite normalize_ok in H by auto. split; congruence.
Qed.

Lemma unit_scale : forall v, v <> vzero -> vdot (vscale (/ vnorm v) v) (vscale (/ vnorm v) v) = 1.
Proof.
  intros v H. rewrite vdot_scale_l, vdot_scale_r, <- vnorm_sqr. field.
  apply Rgt_not_eq, vnorm_pos; auto.
Qed.

Lemma normalize_unit : forall v u, normalize v = Ok u -> vdot u u = 1.
Proof. intros v u H; apply normalize_inv in H as [N ->]. apply unit_scale; auto. Qed.

Lemma unit_nonzero : forall u, vdot u u = 1 -> u <> vzero.
Proof. intros u H E; subst. vunfold. lra. Qed.

Lemma vnorm_unit : forall u, vdot u u = 1 -> vnorm u = 1.
Proof. intros u H. unfold vnorm. rewrite H. apply sqrt_1. Qed.

Lemma normalize_of_unit : forall u, vdot u u = 1 -> normalize u = Ok u.
Proof.
  intros u H. rewrite normalize_ok by (apply unit_nonzero; auto). f_equal.
  rewrite vnorm_unit by auto. rewrite Rinv_1. apply vscale_1.
Qed.

Lemma get_los_unit : forall ax v, get_los ax = Ok v -> vdot v v = 1.
Proof.
  intros ax v H. unfold get_los in H. destruct ax; cbn in H.
  - destruct (xyz_index s); cbn in H; try discriminate.
    destruct (np_index3 a); cbn in H; try discriminate. eapply normalize_unit; eauto.
  - destruct (np_index3 i); cbn in H; try discriminate. eapply normalize_unit; eauto.
  - eapply normalize_unit; eauto.
  - eapply normalize_unit; eauto.
Qed.

(* ---------- rotation matrices ---------- *)
(** Rotation about the unit vector [v], written with c = cos and s = sin. *)
Definition axis_rot (v : vec) (c s : R) : mat :=
  madd (madd (outer v) (mscale c (msub mid (outer v)))) (mscale s (cross_matrix v)).

Lemma axis_rot_rotation : forall v c s, vdot v v = 1 -> c * c + s * s = 1 -> is_rotation (axis_rot v c s).
Proof.
  intros [x y z] c s Hv Hcs. unfold axis_rot, outer, cross_matrix. vunfold.
  assert (Hz : z * z = 1 - x * x - y * y) by lra.
  assert (Hs : s * s = 1 - c * c) by lra.
  split; [vsplit|]; ring [Hz Hs].
Qed.

Lemma axis_rot_fixes : forall v c s, vdot v v = 1 -> mapply (axis_rot v c s) v = v.
Proof.
  intros [x y z] c s Hv. unfold axis_rot, outer, cross_matrix. vunfold.
  assert (Hz : z * z = 1 - x * x - y * y) by lra. vsplit; ring [Hz].
Qed.

Lemma axis_rot_mul : forall v c s c' s', vdot v v = 1 ->
  mmul (axis_rot v c s) (axis_rot v c' s') = axis_rot v (c * c' - s * s') (s * c' + c * s').
Proof.
  intros [x y z] c s c' s' Hv. unfold axis_rot, outer, cross_matrix. vunfold.
  assert (Hz : z * z = 1 - x * x - y * y) by lra. vsplit; ring [Hz].
Qed.

Lemma axis_rot_id : forall v, axis_rot v 1 0 = mid.
Proof. intros [x y z]. unfold axis_rot, outer, cross_matrix. vunfold. vsplit; ring. Qed.

Lemma rotation_matrix_eq : forall ax angle v, get_los ax = Ok v ->
  rotation_matrix_from_vector_angle ax angle = Ok (axis_rot v (cos (angle * PI / 180)) (sin (angle * PI / 180))).
Proof.
  intros ax angle v H. unfold rotation_matrix_from_vector_angle. rewrite H. cbn [bind].
  destruct (Req_EM_T (angle * PI / 180) 0) as [E|E]; [|reflexivity].
  rewrite E, cos_0, sin_0. rewrite axis_rot_id; auto.
Qed.

Lemma rotation_matrix_rotation : forall ax angle m,
  rotation_matrix_from_vector_angle ax angle = Ok m -> is_rotation m.
Proof.
  intros ax angle m H. destruct (get_los ax) as [v|e] eqn:E.
  - rewrite (rotation_matrix_eq ax angle v E) in H. injection H as <-.
    apply axis_rot_rotation. eapply get_los_unit; eauto.
    pose proof (sin2_cos2 (angle * PI / 180)). unfold Rsqr in *. lra.
  - unfold rotation_matrix_from_vector_angle in H. rewrite E in H. discriminate.
Qed.

(* ---------- two vectors ---------- *)
Definition rodrigues (n : vec) (c w : R) : mat :=
  madd (madd (mscale c mid) (cross_matrix n)) (mscale w (outer n)).

Lemma rodrigues_rotation : forall n c w, vdot n n = 1 - c * c -> w * (1 + c) = 1 -> is_rotation (rodrigues n c w).
Proof.
  intros [x y z] c w Hn Hw. unfold rodrigues, outer, cross_matrix. vunfold.
  assert (Hz : z * z = 1 - c * c - x * x - y * y) by lra.
  assert (Hwc : w * c = 1 - w) by lra.
  split; [vsplit|]; ring [Hz Hwc].
Qed.

Lemma two_vec_rodrigues : forall n c w, vdot n n = 1 - c * c -> w * (1 + c) = 1 ->
  madd (madd mid (cross_matrix n)) (mscale w (mmul (cross_matrix n) (cross_matrix n))) = rodrigues n c w.
Proof.
  intros [x y z] c w Hn Hw. unfold rodrigues, outer, cross_matrix. vunfold.
  assert (Hz : z * z = 1 - c * c - x * x - y * y) by lra.
  assert (Hwc : w * c = 1 - w) by lra.
  vsplit; ring [Hz Hwc].
Qed.

Lemma rodrigues_apply : forall n c w a, mapply (rodrigues n c w) a =
  vadd (vadd (vscale c a) (vcross n a)) (vscale (w * vdot n a) n).
Proof. intros n c w a. unfold rodrigues, outer, cross_matrix. revert n c w a. vring. Qed.

Lemma cross_cross : forall a b, vcross (vcross a b) a = vsub (vscale (vdot a a) b) (vscale (vdot a b) a).
Proof. vring. Qed.
Lemma cross_perp : forall a b, vdot (vcross a b) a = 0.
Proof. vring. Qed.

Lemma two_vec_rotation : forall a b, vdot a a = 1 -> vdot b b = 1 -> vcross a b <> vzero ->
  let k := cross_matrix (vcross a b) in
  let m := madd (madd mid k) (mscale ((1 - vdot a b) / (distance (vcross a b)) ^ 2) (mmul k k)) in
  is_rotation m /\ mapply m a = b.
Proof.
  intros a b Ha Hb Hn k m.
  assert (N : vdot (vcross a b) (vcross a b) = 1 - vdot a b * vdot a b).
  { pose proof (vdot_lagrange a b). nra. }
  assert (S : distance (vcross a b) ^ 2 = 1 - vdot a b * vdot a b).
  { rewrite distance_vnorm. rewrite <- Rsqr_pow2. unfold Rsqr. rewrite vnorm_sqr. auto. }
  assert (P : 0 < 1 - vdot a b * vdot a b).
  { rewrite <- S. rewrite distance_vnorm. apply pow_lt, vnorm_pos; auto. }
  subst m. rewrite S.
  assert (C : 1 + vdot a b <> 0) by nra.
  assert (C' : 1 - vdot a b <> 0) by nra.
  replace ((1 - vdot a b) / (1 - vdot a b * vdot a b)) with (/ (1 + vdot a b)) by (field; split; nra).
  subst k. set (w := / (1 + vdot a b)). assert (W : w * (1 + vdot a b) = 1) by (unfold w; field; auto).
  rewrite (two_vec_rodrigues (vcross a b) (vdot a b) w N W). split.
  - apply rodrigues_rotation; auto.
  - rewrite rodrigues_apply, cross_perp, cross_cross, Ha, Rmult_0_r, vscale_0.
    generalize (vdot a b). revert a b Ha Hb Hn N S P C C' w W. clear. intros a b _ _ _ _ _ _ _ _ _ _ c. revert a b c. vring.
Qed.

Lemma rm2v_ok : forall a b, a <> vzero -> b <> vzero -> vcross a b <> vzero ->
  exists m a' b', rotation_matrix_from_two_vectors a b = Ok (m, a', b') /\ is_rotation m /\
    same_direction (mapply m a) b.
Proof.
  intros a b Ha Hb Hc. unfold rotation_matrix_from_two_vectors.
  rewrite (normalize_ok a Ha), (normalize_ok b Hb). cbn [bind].
  set (a' := vscale (/ vnorm a) a). set (b' := vscale (/ vnorm b) b).
  assert (Na : vnorm a <> 0) by (apply Rgt_not_eq, vnorm_pos; auto).
  assert (Nb : vnorm b <> 0) by (apply Rgt_not_eq, vnorm_pos; auto).
  assert (C : vcross a' b' <> vzero).
  { intros E. apply Hc. unfold a', b' in E.
    assert (vcross (vscale (/ vnorm a) a) (vscale (/ vnorm b) b) = vscale (/ vnorm a * / vnorm b) (vcross a b)) as X by (clear; generalize (/ vnorm a), (/ vnorm b); intros; revert a b; vring).
    rewrite X in E. assert (Y : vscale (vnorm a * vnorm b) (vscale (/ vnorm a * / vnorm b) (vcross a b)) = vzero).
    { rewrite E. apply vscale_zero. }
    rewrite vscale_scale in Y.
    replace (vnorm a * vnorm b * (/ vnorm a * / vnorm b)) with 1 in Y by (field; auto).
    rewrite vscale_1 in Y. auto. }
  destruct (Req_EM_T (distance (vcross a' b')) 0) as [E|E].
  - rewrite distance_vnorm in E. apply vnorm_zero in E. contradiction.
  - destruct (two_vec_rotation a' b' (unit_scale a Ha) (unit_scale b Hb) C) as [R1 R2].
    eexists _, a', b'. split; [reflexivity|]. split; [exact R1|].
    exists (vnorm b / vnorm a). split.
    { apply Rdiv_lt_0_compat; apply vnorm_pos; auto. }
    replace (vnorm b / vnorm a) with (vnorm b * / vnorm a) by reflexivity.
    rewrite <- vscale_scale, <- mapply_scale. fold a'. rewrite R2. unfold b'.
    rewrite vscale_scale. replace (vnorm b * / vnorm b) with 1 by (field; auto). apply vscale_1.
Qed.

Lemma rm2v_parallel : forall a k, a <> vzero -> 0 < k ->
  exists a' b', rotation_matrix_from_two_vectors a (vscale k a) = Ok (mid, a', b').
Proof.
  intros a k Ha Hk. unfold rotation_matrix_from_two_vectors.
  assert (Hb : vscale k a <> vzero).
  { intros E. apply Ha. assert (X : vscale (/ k) (vscale k a) = vzero) by (rewrite E; apply vscale_zero).
    rewrite vscale_scale, Rinv_l, vscale_1 in X; auto; lra. }
  rewrite (normalize_ok a Ha), (normalize_ok _ Hb). cbn [bind].
  replace (vcross (vscale (/ vnorm a) a) (vscale (/ vnorm (vscale k a)) (vscale k a))) with vzero
    by (generalize (/ vnorm a), (/ vnorm (vscale k a)); clear; intros; revert a; vring).
  rewrite distance_vnorm, vnorm_vzero. destruct (Req_EM_T 0 0); [|congruence]. eauto.
Qed.

Lemma rm2v_opposite : forall a k, a <> vzero -> k < 0 ->
  exists a' b', rotation_matrix_from_two_vectors a (vscale k a) = Ok (mid, a', b').
Proof.
  intros a k Ha Hk. unfold rotation_matrix_from_two_vectors.
  assert (Hb : vscale k a <> vzero).
  { intros E. apply Ha. assert (X : vscale (/ k) (vscale k a) = vzero) by (rewrite E; apply vscale_zero).
    rewrite vscale_scale, Rinv_l, vscale_1 in X; auto; lra. }
  rewrite (normalize_ok a Ha), (normalize_ok _ Hb). cbn [bind].
  replace (vcross (vscale (/ vnorm a) a) (vscale (/ vnorm (vscale k a)) (vscale k a))) with vzero
    by (generalize (/ vnorm a), (/ vnorm (vscale k a)); clear; intros; revert a; vring).
  rewrite distance_vnorm, vnorm_vzero. destruct (Req_EM_T 0 0); [|congruence]. eauto.
Qed.

Lemma collinear_cases : forall a b, a <> vzero -> vcross a b = vzero -> exists k, b = vscale k a.
Proof.
  intros a b Ha Hc. exists (vdot a b / vdot a a).
  assert (P := vdot_self_pos a Ha).
  assert (E : vscale (vdot a a) b = vscale (vdot a b) a).
  { pose proof (cross_cross a b) as X. rewrite Hc in X.
    replace (vcross vzero a) with vzero in X by (clear; revert a; vring).
    apply (f_equal (vadd (vscale (vdot a b) a))) in X. rewrite vadd_0_r in X. rewrite X.
    generalize (vdot a a), (vdot a b); clear; intros; revert a b; vring. }
  unfold Rdiv. rewrite Rmult_comm, <- vscale_scale, <- E, vscale_scale, Rinv_l, vscale_1; auto; lra.
Qed.

(* ---------- rigid motions ---------- *)
Lemma rot_preserves_norm : forall m v, is_rotation m -> vnorm (mapply m v) = vnorm v.
Proof.
  intros m v H. unfold vnorm. f_equal. rewrite vdot_mapply, <- mapply_mul, (is_rotation_trans m H), mapply_id. reflexivity.
Qed.

Lemma transform_sub : forall s p q, vsub (transform s false p) (transform s false q) = transform s true (vsub p q).
Proof. intros [m t] p q. unfold transform. cbn. revert m t p q. vring. Qed.

Lemma transform_rigid : forall s, is_rotation (rot s) -> rigid_motion (transform s false).
Proof.
  intros s H. split.
  - intros p q. rewrite !dist3_vnorm, transform_sub. unfold transform, tensordot1. apply rot_preserves_norm; auto.
  - intros p q r t. rewrite !signed_volume_triple, !transform_sub. unfold transform, tensordot1.
    rewrite vtriple_mapply. destruct H as [_ ->]. ring.
Qed.

Lemma is_rotation_mid : is_rotation mid.
Proof. vunfold. split; [vsplit|]; ring. Qed.

Lemma is_rotation_mul : forall a b, is_rotation a -> is_rotation b -> is_rotation (mmul a b).
Proof.
  intros a b [A DA] [B DB]. split.
  - rewrite mtrans_mul. rewrite <- (mmul_assoc a b). rewrite (mmul_assoc b). rewrite B, mmul_id_l. auto.
  - rewrite mdet_mul, DA, DB. ring.
Qed.

Lemma iso_rotation_rot : forall s angle ax d fr s', iso_rotation s angle ax d fr = (s', Ok tt) ->
  is_rotation (rot s) -> is_rotation (rot s').
Proof.
  intros s angle ax d fr s' H R1. unfold iso_rotation in H.
  destruct (get_los ax) as [v|]; [|discriminate].
  destruct (rotation_matrix_from_vector_angle (AxVec v) (if d then angle else angle * 180 / PI)) as [m|] eqn:E; [|discriminate].
  apply rotation_matrix_rotation in E. unfold iso_dot in H. cbn in H. injection H as <-. cbn.
  apply is_rotation_mul; auto.
Qed.

Lemma iso_concat_rot_gen : forall l s, is_rotation (rot s) -> Forall (fun x => is_rotation (rot x)) l ->
  is_rotation (rot (fold_left iso_concat_step l s)).
Proof.
  induction l; intros s H F; cbn; auto. inversion F; subst. apply IHl; auto. cbn. apply is_rotation_mul; auto.
Qed.

Lemma iso_concat_rot : forall l, Forall (fun x => is_rotation (rot x)) l -> is_rotation (rot (iso_concatenate l)).
Proof. intros; apply iso_concat_rot_gen; auto. apply is_rotation_mid. Qed.

(** The caller passes proper rotation matrices to dot(), as documented (make_survey.py:121). *)
Definition rotation_given (c : cmd) : Prop := match c with CDot _ m _ => is_rotation m | _ => True end.

Definition all_rot (st : store) : Prop := forall i o, env st i = Some o -> is_rotation (o_rot o).

Lemma view_rot : forall st i s, all_rot st -> view st i = Some s -> is_rotation (rot s).
Proof. intros st i s A H. unfold view in H. destruct (env st i) eqn:E; inversion H; subst. cbn. eapply A; eauto. Qed.

Lemma views_rot : forall js st l, all_rot st -> views st js = Some l -> Forall (fun x => is_rotation (rot x)) l.
Proof.
  induction js; intros st l A H; cbn in H.
  - injection H as <-; constructor.
  - destruct (view st a) eqn:E; [|discriminate]. destruct (views st js) eqn:F; [|discriminate].
    injection H as <-. constructor; eauto using view_rot.
Qed.

Lemma bind_fresh_rot : forall st i s, all_rot st -> is_rotation (rot s) -> all_rot (bind_fresh st i s).
Proof.
  intros st i s A H j o E. cbn in E. unfold upd in E. destruct (Nat.eqb j i); [injection E as <-; auto | eauto].
Qed.
Lemma write_rot_rot : forall st i m, all_rot st -> is_rotation m -> all_rot (write_rot st i m).
Proof.
  intros st i m A H. unfold write_rot. destruct (env st i) as [o0|] eqn:Ei; auto.
  intros j o E. cbn in E. unfold upd in E. destruct (Nat.eqb j i); [injection E as <-; auto | eauto].
Qed.
Lemma write_tra_rot : forall st i t, all_rot st -> all_rot (write_tra st i t).
Proof. intros st i t A. unfold write_tra. destruct (env st i); auto. Qed.

Lemma iso_dot_rot : forall s m fr, is_rotation m -> is_rotation (rot s) -> is_rotation (rot (fst (iso_dot s m fr))).
Proof.
  intros. unfold iso_dot. destruct (String.eqb fr "origin"); [|destruct (String.eqb fr "current")]; cbn; apply is_rotation_mul; auto.
Qed.
Lemma iso_reset_rot : forall s fr, is_rotation (rot s) -> is_rotation (rot (fst (iso_reset_rotation s fr))).
Proof.
  intros. unfold iso_reset_rotation. destruct (String.eqb fr "origin"); [|destruct (String.eqb fr "current")]; cbn; auto using is_rotation_mid.
Qed.

Lemma exec_rot : forall st c, all_rot st -> rotation_given c -> all_rot (exec st c).
Proof.
  intros st c A G. destruct c; cbn [exec rotation_given] in *.
  - apply bind_fresh_rot; auto. apply is_rotation_mid.
  - unfold do_dot. destruct (view st i) eqn:E; auto. pose proof (view_rot _ _ _ A E).
    destruct (String.eqb frame "origin"); [apply bind_fresh_rot | apply write_rot_rot]; auto using iso_dot_rot.
  - destruct (view st i) eqn:E; auto. destruct (iso_rotation i0 angle axis degree frame) as [s' [[]|]] eqn:F; auto.
    apply bind_fresh_rot; auto. eapply iso_rotation_rot; eauto. eapply view_rot; eauto.
  - destruct (view st i) eqn:E; auto. apply write_tra_rot; auto.
  - destruct (view st i) eqn:E; auto. pose proof (view_rot _ _ _ A E).
    destruct (String.eqb frame "origin"); [apply bind_fresh_rot | apply write_rot_rot]; auto using iso_reset_rot.
  - destruct (view st i) eqn:E; auto. apply write_tra_rot; auto.
  - destruct (views st js) eqn:E; auto. apply bind_fresh_rot; auto. apply iso_concat_rot. eapply views_rot; eauto.
  - destruct (views st [i; j]) eqn:E; auto. apply bind_fresh_rot; auto. apply iso_concat_rot. eapply views_rot; eauto.
  - destruct (views st [i; j]) eqn:E; auto. apply bind_fresh_rot; auto. apply iso_concat_rot. eapply views_rot; eauto.
  - destruct (env st i) eqn:E; auto. intros j o' F. cbn in F. unfold upd in F. destruct (Nat.eqb j k); [injection F as <-|]; eauto.
Qed.

Lemma run_rot_gen : forall cs st, all_rot st -> Forall rotation_given cs -> all_rot (fold_left exec cs st).
Proof. induction cs; intros st A F; cbn; auto. inversion F; subst. apply IHcs; auto. apply exec_rot; auto. Qed.

Lemma run_rot : forall cs, Forall rotation_given cs -> all_rot (run cs).
Proof. intros; apply run_rot_gen; auto. intros i o E; discriminate. Qed.

(* ---------- concatenation ---------- *)
Lemma concat_step_transform : forall a b ti v, transform (iso_concat_step a b) ti v = transform b ti (transform a ti v).
Proof. intros [ma ta] [mb tb] ti v. unfold transform, iso_concat_step; destruct ti; cbn; revert ma ta mb tb v; vring. Qed.

Lemma concat_fold : forall l s ti v, transform (fold_left iso_concat_step l s) ti v =
  fold_left (fun p i => transform i ti p) l (transform s ti v).
Proof. induction l; intros; cbn; auto. rewrite IHl, concat_step_transform. reflexivity. Qed.

Lemma transform_new : forall ti v, transform iso_new ti v = v.
Proof. intros [] v; unfold transform, iso_new; cbn; revert v; vring. Qed.

Lemma concat_transform : forall l ti v, transform (iso_concatenate l) ti v = fold_left (fun p i => transform i ti p) l v.
Proof. intros. unfold iso_concatenate. rewrite concat_fold, transform_new. reflexivity. Qed.

(* ---------- sharing ---------- *)
Definition target (c : cmd) : nat :=
  match c with
  | CNew i | CDot i _ _ | CRotation i _ _ _ _ | CTranslation i _ _ _ | CResetRotation i _ | CResetTranslate i
  | CConcat i _ | CExtend i _ | CAdd i _ _ | CRadd0 i _ => i
  end.
Definition no_share (c : cmd) : Prop := match c with CRadd0 _ _ => False | _ => True end.

Definition separated (st : store) : Prop :=
  (forall i o, env st i = Some o -> (o_tra o < next st)%nat) /\
  (forall i j oi oj, i <> j -> env st i = Some oi -> env st j = Some oj -> o_tra oi <> o_tra oj).

Lemma bind_fresh_sep : forall st i s, separated st -> separated (bind_fresh st i s).
Proof.
  intros st i s [B D]. split.
  - intros j o E. cbn in *. unfold upd in E. destruct (Nat.eqb j i); [injection E as <-; cbn; lia|]. apply B in E; lia.
  - intros j k oj ok N Ej Ek. cbn in *. unfold upd in *.
    destruct (Nat.eqb_spec j i), (Nat.eqb_spec k i); subst; try congruence.
    + injection Ej as <-. apply B in Ek. cbn. lia.
    + injection Ek as <-. apply B in Ej. cbn. lia.
    + eapply (D j k); eauto.
Qed.
Lemma write_rot_sep : forall st i m, separated st -> separated (write_rot st i m).
Proof.
  intros st i m [B D]. unfold write_rot. destruct (env st i) as [o0|] eqn:E0; [|split; auto]. split.
  - intros j o E. cbn in *. unfold upd in E. destruct (Nat.eqb_spec j i); [injection E as <-; cbn; subst; eauto|]. eauto.
  - intros j k oj ok N Ej Ek. cbn in *. unfold upd in *.
    destruct (Nat.eqb_spec j i), (Nat.eqb_spec k i); subst; try congruence.
    + injection Ej as <-. cbn. eapply (D i k); eauto.
    + injection Ek as <-. cbn. eapply (D j i); eauto.
    + eapply (D j k); eauto.
Qed.
Lemma write_tra_sep : forall st i t, separated st -> separated (write_tra st i t).
Proof. intros st i t H. unfold write_tra. destruct (env st i); auto. Qed.

Lemma exec_sep : forall st c, separated st -> no_share c -> separated (exec st c).
Proof.
  intros st c A G. destruct c; cbn [exec no_share] in *; try contradiction.
  - apply bind_fresh_sep; auto.
  - unfold do_dot. destruct (view st i); auto. destruct (String.eqb frame "origin"); auto using bind_fresh_sep, write_rot_sep.
  - destruct (view st i); auto. destruct (iso_rotation i0 angle axis degree frame) as [s' [[]|]]; auto using bind_fresh_sep.
  - destruct (view st i); auto using write_tra_sep.
  - destruct (view st i); auto. destruct (String.eqb frame "origin"); auto using bind_fresh_sep, write_rot_sep.
  - destruct (view st i); auto using write_tra_sep.
  - destruct (views st js); auto using bind_fresh_sep.
  - destruct (views st [i; j]); auto using bind_fresh_sep.
  - destruct (views st [i; j]); auto using bind_fresh_sep.
Qed.

Lemma run_sep : forall cs, Forall no_share cs -> separated (run cs).
Proof.
  unfold run. intros cs. assert (S0 : separated store_init) by (split; [intros ? ? E | intros ? ? ? ? _ E]; discriminate).
  revert S0. generalize store_init. induction cs; intros st S F; cbn; auto. inversion F; subst. apply IHcs; auto. apply exec_sep; auto.
Qed.

Lemma bind_fresh_view : forall st i j s, separated st -> i <> j -> view (bind_fresh st i s) j = view st j.
Proof.
  intros st i j s [B D] N. unfold view, bind_fresh, upd; cbn. destruct (Nat.eqb_spec j i); [congruence|].
  destruct (env st j) eqn:E; auto. apply B in E. destruct (Nat.eqb_spec (o_tra o) (next st)); [lia|reflexivity].
Qed.
Lemma bind_fresh_view_same : forall st i s, view (bind_fresh st i s) i = Some s.
Proof. intros st i [m t]. unfold view, bind_fresh, upd; cbn. rewrite !Nat.eqb_refl. reflexivity. Qed.
Lemma write_rot_view : forall st i j m, i <> j -> view (write_rot st i m) j = view st j.
Proof.
  intros st i j m N. unfold view, write_rot, upd. destruct (env st i); auto. cbn. destruct (Nat.eqb_spec j i); [congruence|]. reflexivity.
Qed.
Lemma write_tra_view : forall st i j t, separated st -> i <> j -> view (write_tra st i t) j = view st j.
Proof.
  intros st i j t [B D] N. unfold view, write_tra, upd. destruct (env st i) eqn:Ei; auto. cbn.
  destruct (env st j) eqn:Ej; auto. destruct (Nat.eqb_spec (o_tra o0) (o_tra o)); auto.
  exfalso. eapply (D i j); eauto.
Qed.

Lemma exec_other : forall st c i, separated st -> no_share c -> target c <> i -> view (exec st c) i = view st i.
Proof.
  intros st c i0 A G N. destruct c; cbn [exec no_share target] in *; try contradiction.
  - apply bind_fresh_view; auto.
  - unfold do_dot. destruct (view st i); auto. destruct (String.eqb frame "origin"); auto using bind_fresh_view, write_rot_view.
  - destruct (view st i); auto. destruct (iso_rotation i1 angle axis degree frame) as [s' [[]|]]; auto using bind_fresh_view.
  - destruct (view st i); auto using write_tra_view.
  - destruct (view st i); auto. destruct (String.eqb frame "origin"); auto using bind_fresh_view, write_rot_view.
  - destruct (view st i); auto using write_tra_view.
  - destruct (views st js); auto using bind_fresh_view.
  - destruct (views st [i; j]); auto using bind_fresh_view.
  - destruct (views st [i; j]); auto using bind_fresh_view.
Qed.

(* ---------- lemmas behind the theorems of C02, C03, C05, C06 ---------- *)
Lemma velocity_rotated : forall s p v, transform s true v = vsub (transform s false (vadd p v)) (transform s false p).
Proof. intros [m t] p v; unfold transform; cbn; revert m t p v; vring. Qed.

Lemma vsub_0_r : forall v, vsub v vzero = v. Proof. vring. Qed.

Lemma velocity_norm : forall s v, is_rotation (rot s) -> dist3 (transform s true v) vzero = dist3 v vzero.
Proof. intros s v H. rewrite !dist3_vnorm, !vsub_0_r. apply rot_preserves_norm; auto. Qed.

Lemma translation_keeps_rot : forall s sh ax fr, rot (fst (iso_translation s sh ax fr)) = rot s.
Proof.
  intros. unfold iso_translation. destruct (shift_vector sh ax); auto.
  destruct (String.eqb fr "current"); auto. destruct (String.eqb fr "origin"); auto.
Qed.

Lemma transform_true_rot : forall s s' v, rot s = rot s' -> transform s true v = transform s' true v.
Proof. intros s s' v H. unfold transform. rewrite H. reflexivity. Qed.

(** Two isometries with the same action are the same. *)
Lemma iso_ext : forall a b, (forall ti v, transform a ti v = transform b ti v) -> a = b.
Proof.
  intros [[a0 a1 a2] ta] [[b0 b1 b2] tb] H.
  pose proof (H true (V 1 0 0)) as H1. pose proof (H true (V 0 1 0)) as H2. pose proof (H true (V 0 0 1)) as H3.
  pose proof (H false vzero) as H0. unfold transform in *. cbn in *. vdestr. vunfold.
  injection H0; intros; injection H1; intros; injection H2; intros; injection H3; intros.
  repeat f_equal; lra.
Qed.

Lemma concat_app : forall l1 l2, iso_concatenate (l1 ++ l2) = iso_concatenate [iso_concatenate l1; iso_concatenate l2].
Proof.
  intros. apply iso_ext. intros. rewrite !concat_transform. rewrite fold_left_app. cbn [fold_left].
  rewrite !concat_transform. reflexivity.
Qed.

Lemma concat_single : forall s, iso_concatenate [s] = s.
Proof. intros. apply iso_ext. intros. rewrite concat_transform. reflexivity. Qed.

Lemma add_assoc : forall a b c, iso_add (iso_add a b) c = iso_add a (iso_add b c).
Proof. intros. apply iso_ext. intros. unfold iso_add. rewrite !concat_transform. cbn [fold_left]. rewrite !concat_transform. reflexivity. Qed.

Lemma add_id_l : forall a, iso_add iso_new a = a.
Proof. intros. apply iso_ext. intros. unfold iso_add. rewrite !concat_transform. cbn [fold_left]. rewrite transform_new. reflexivity. Qed.
Lemma add_id_r : forall a, iso_add a iso_new = a.
Proof. intros. apply iso_ext. intros. unfold iso_add. rewrite !concat_transform. cbn [fold_left]. rewrite transform_new. reflexivity. Qed.

Lemma axis_rot_apply : forall v c s u, mapply (axis_rot v c s) u =
  vadd (vadd (vscale (vdot v u) v) (vscale c (vsub u (vscale (vdot v u) v)))) (vscale s (vcross v u)).
Proof. intros. unfold axis_rot, outer, cross_matrix. revert v c s u. vring. Qed.

Lemma rmva_rodrigues : forall ax angle v u, get_los ax = Ok v ->
  exists m, rotation_matrix_from_vector_angle ax angle = Ok m /\
    mapply m u = vadd (vadd (vscale (vdot v u) v) (vscale (cos (angle * PI / 180)) (vsub u (vscale (vdot v u) v))))
                   (vscale (sin (angle * PI / 180)) (vcross v u)).
Proof. intros. eexists. split. apply rotation_matrix_eq; eauto. apply axis_rot_apply. Qed.

Lemma rmva_fixes : forall ax angle m v, get_los ax = Ok v -> rotation_matrix_from_vector_angle ax angle = Ok m -> mapply m v = v.
Proof.
  intros ax angle m v H E. rewrite (rotation_matrix_eq _ _ _ H) in E. injection E as <-. apply axis_rot_fixes. eapply get_los_unit; eauto.
Qed.

Lemma rmva_add : forall ax a b ma mb mab,
  rotation_matrix_from_vector_angle ax a = Ok ma -> rotation_matrix_from_vector_angle ax b = Ok mb ->
  rotation_matrix_from_vector_angle ax (a + b) = Ok mab -> mmul ma mb = mab.
Proof.
  intros ax a b ma mb mab Ha Hb Hab. destruct (get_los ax) as [v|] eqn:E.
  2: { unfold rotation_matrix_from_vector_angle in Ha. rewrite E in Ha. discriminate. }
  rewrite (rotation_matrix_eq _ _ _ E) in Ha. rewrite (rotation_matrix_eq _ _ _ E) in Hb. rewrite (rotation_matrix_eq _ _ _ E) in Hab.
  injection Ha as <-. injection Hb as <-. injection Hab as <-.
  rewrite axis_rot_mul by (eapply get_los_unit; eauto).
  replace ((a + b) * PI / 180) with (a * PI / 180 + b * PI / 180) by field.
  rewrite cos_plus, sin_plus. f_equal; ring.
Qed.

Lemma rmva_zero : forall ax m, rotation_matrix_from_vector_angle ax 0 = Ok m -> m = mid.
Proof.
  intros ax m H. unfold rotation_matrix_from_vector_angle in H. destruct (get_los ax); [|discriminate]. cbn in H.
  destruct (Req_EM_T (0 * PI / 180) 0) as [|N]; [congruence|]. exfalso; apply N. field.
Qed.

Lemma get_los_axis : forall i, (i < 3)%nat ->
  get_los (AxIdx (Z.of_nat i)) = Ok (vset vzero i 1) /\
  get_los (AxStr (List.nth i ["x"; "y"; "z"] "")%string) = Ok (vset vzero i 1).
Proof.
  intros i H. unfold get_los, xyz_index.
  assert (U : forall v, vdot v v = 1 -> normalize v = Ok v) by apply normalize_of_unit.
  destruct i as [|[|[|]]]; [| | |lia]; cbn; (split; apply U; vunfold; ring).
Qed.

Lemma get_los_scalar_vec : forall v, v <> vzero -> get_los (AxVec v) = Ok (vscale (/ vnorm v) v).
Proof. intros; cbn; apply normalize_ok; auto. Qed.

Lemma iso_rotation_ok : forall s angle ax fr m, rotation_matrix_from_vector_angle ax angle = Ok m ->
  iso_rotation s angle ax true fr = (Iso (mmul m (rot s)) (mapply m (tra s)), Ok tt).
Proof.
  intros s angle ax fr m H. unfold iso_rotation. destruct (get_los ax) as [v|] eqn:E.
  - assert (V1 : get_los (AxVec v) = Ok v) by (cbn; apply normalize_of_unit; eapply get_los_unit; eauto).
    rewrite (rotation_matrix_eq _ _ _ V1). rewrite (rotation_matrix_eq _ _ _ E) in H. injection H as <-. reflexivity.
  - unfold rotation_matrix_from_vector_angle in H. rewrite E in H. discriminate.
Qed.

Lemma dot_origin : forall s m p, transform (fst (iso_dot s m "origin")) false p = mapply m (transform s false p).
Proof. intros [r t] m p. unfold transform, iso_dot; cbn. revert r t m p. vring. Qed.

Lemma dot_current : forall s m p, transform (fst (iso_dot s m "current")) false p =
  turn_about (transform s false vzero) (mapply m) (transform s false p).
Proof. intros [r t] m p. unfold transform, iso_dot, turn_about; cbn. revert r t m p. vring. Qed.

Lemma translation_origin : forall s sh ax v p, shift_vector sh ax = Ok v ->
  transform (fst (iso_translation s sh ax "origin")) false p = vadd (transform s false p) v.
Proof. intros [r t] sh ax v p H. unfold iso_translation. rewrite H. unfold transform; cbn. clear. revert r t v p. vring. Qed.

Lemma translation_current : forall s sh ax v p, shift_vector sh ax = Ok v ->
  transform (fst (iso_translation s sh ax "current")) false p = transform s false (vadd p v).
Proof. intros [r t] sh ax v p H. unfold iso_translation. rewrite H. unfold transform; cbn. clear. revert r t v p. vring. Qed.

Lemma reset_origin : forall s p, is_rotation (rot s) ->
  transform s true (transform (fst (iso_reset_rotation s "origin")) false p) = transform s false p.
Proof.
  intros [r t] p H. unfold transform, iso_reset_rotation; cbn. cbn in H. unfold tensordot1.
  rewrite mapply_id, mapply_add. f_equal. rewrite <- mapply_mul. destruct H as [-> _]. apply mapply_id.
Qed.

Lemma reset_current : forall s p, transform (fst (iso_reset_rotation s "current")) false p = vadd p (transform s false vzero).
Proof. intros [r t] p. unfold transform, iso_reset_rotation; cbn. revert r t p. vring. Qed.

Lemma translation_bad_frame : forall s sh ax fr, fr <> "origin"%string -> fr <> "current"%string ->
  exists e, iso_translation s sh ax fr = (s, Err e).
Proof.
  intros s sh ax fr H1 H2. unfold iso_translation. destruct (shift_vector sh ax); eauto.
  rewrite (proj2 (String.eqb_neq _ _) H2), (proj2 (String.eqb_neq _ _) H1). eauto.
Qed.
Lemma reset_bad_frame : forall s fr, fr <> "origin"%string -> fr <> "current"%string ->
  iso_reset_rotation s fr = (s, Err IsometryError).
Proof.
  intros s fr H1 H2. unfold iso_reset_rotation.
  rewrite (proj2 (String.eqb_neq _ _) H2), (proj2 (String.eqb_neq _ _) H1). eauto.
Qed.

Lemma half_pi_deg : 90 * PI / 180 = PI / 2. Proof. field. Qed.

Lemma rot90z : rotation_matrix_from_vector_angle (AxStr "z") 90 = Ok (M (V 0 (-1) 0) (V 1 0 0) (V 0 0 1)).
Proof.
  assert (E : get_los (AxStr "z") = Ok (V 0 0 1)) by (apply (get_los_axis 2); lia).
  rewrite (rotation_matrix_eq _ _ _ E), half_pi_deg, cos_PI2, sin_PI2. f_equal.
  unfold axis_rot, outer, cross_matrix; vunfold; vsplit; ring.
Qed.
Lemma rot90x : rotation_matrix_from_vector_angle (AxStr "x") 90 = Ok (M (V 1 0 0) (V 0 0 (-1)) (V 0 1 0)).
Proof.
  assert (E : get_los (AxStr "x") = Ok (V 1 0 0)) by (apply (get_los_axis 0); lia).
  rewrite (rotation_matrix_eq _ _ _ E), half_pi_deg, cos_PI2, sin_PI2. f_equal.
  unfold axis_rot, outer, cross_matrix; vunfold; vsplit; ring.
Qed.
Lemma rot90y : rotation_matrix_from_vector_angle (AxStr "y") 90 = Ok (M (V 0 0 1) (V 0 1 0) (V (-1) 0 0)).
Proof.
  assert (E : get_los (AxStr "y") = Ok (V 0 1 0)) by (apply (get_los_axis 1); lia).
  rewrite (rotation_matrix_eq _ _ _ E), half_pi_deg, cos_PI2, sin_PI2. f_equal.
  unfold axis_rot, outer, cross_matrix; vunfold; vsplit; ring.
Qed.

Lemma shift_means_vector : forall sh ax v, shift_means sh ax v -> shift_vector sh ax = Ok v.
Proof.
  intros sh ax v H. destruct H; unfold shift_vector, xyz_index; cbn;
    match goal with |- Ok ?a = Ok ?b => replace a with b; [reflexivity|] end;
    change (Pos.to_nat 1) with 1%nat; change (Pos.to_nat 2) with 2%nat; unfold vzero, vset; vdestr; vunfold; vsplit; ring.
Qed.
