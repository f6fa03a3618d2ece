(** Theorems C01-C06, C54, C55: isometries and rotation matrices. *)
Require Import Reals Lra Lia ZArith List Bool String.
From Verif Require Import Base Vec3 Isometry_Model Isometry_Spec Isometry_Proof.
Import ListNotations.
Open Scope R_scope.

(** C01. Whatever calls a program makes, every isometry object it holds acts as a rigid motion.
    [rotation_given]: matrices passed to dot() are rotations, as its documentation requires. *)
Theorem C01_history_rigid : forall cs i s,
  Forall rotation_given cs -> view (run cs) i = Some s -> rigid_motion (transform s false).
Proof. intros cs i s F H. exact (transform_rigid s (view_rot _ _ _ (run_rot cs F) H)). Qed.
Print Assumptions C01_history_rigid.

Example C01_case : exists s,
  view (run [CNew 0; CRotation 0 30 (AxVec (V 1 2 3)) true "origin"; CTranslation 0 (ShScalar 2) (AxStr "y") "current";
             CNew 1; CConcat 2 [0; 1; 0]%nat; CRadd0 3 2]) 3 = Some s.
Proof.
  unfold run. cbn [fold_left exec]. cbn [view env bind_fresh upd Nat.eqb].
  assert (N : V 1 2 3 <> vzero) by (unfold vzero; intros E; injection E; intros; lra).
  unfold iso_rotation. rewrite (get_los_scalar_vec _ N).
  rewrite (rotation_matrix_eq (AxVec (vscale (/ vnorm (V 1 2 3)) (V 1 2 3))) 30 (vscale (/ vnorm (V 1 2 3)) (V 1 2 3))
    (normalize_of_unit _ (unit_scale _ N))).
  cbn. eexists; reflexivity.
Qed.

(** C02. Velocities: transform with translational_invariant=True is the change of the transform when a point moves
    by that vector; it keeps lengths; no translation call changes it. *)
Theorem C02_velocity_is_difference : forall s p v,
  transform s true v = vsub (transform s false (vadd p v)) (transform s false p).
Proof. exact velocity_rotated. Qed.
Print Assumptions C02_velocity_is_difference.

Theorem C02_velocity_keeps_length : forall cs i s v,
  Forall rotation_given cs -> view (run cs) i = Some s -> dist3 (transform s true v) vzero = dist3 v vzero.
Proof. intros cs i s v F H. exact (velocity_norm s v (view_rot _ _ _ (run_rot cs F) H)). Qed.
Print Assumptions C02_velocity_keeps_length.

Theorem C02_translation_irrelevant : forall s shift axis frame v,
  transform (fst (iso_translation s shift axis frame)) true v = transform s true v /\
  transform (fst (iso_reset_translate s)) true v = transform s true v.
Proof. intros. exact (conj (transform_true_rot _ _ v (translation_keeps_rot s shift axis frame)) eq_refl). Qed.
Print Assumptions C02_translation_irrelevant.

(** C03. concatenate(i1, ..., in) acts as i1, then ..., then in. *)
Theorem C03_concatenate_applies_in_order : forall l ti v,
  transform (iso_concatenate l) ti v = fold_left (fun p i => transform i ti p) l v.
Proof. exact concat_transform. Qed.
Print Assumptions C03_concatenate_applies_in_order.

Theorem C03_grouping_and_identity : forall a b c,
  iso_add (iso_add a b) c = iso_add a (iso_add b c) /\ iso_add iso_new a = a /\ iso_add a iso_new = a.
Proof. intros. exact (conj (add_assoc a b c) (conj (add_id_l a) (add_id_r a))). Qed.
Print Assumptions C03_grouping_and_identity.

(** The same through the objects of a program: i.extend(j), i += j and k = i + j. *)
Theorem C03_extend_and_add : forall st i j k a b v,
  view st i = Some a -> view st j = Some b ->
  exists e d, view (exec st (CExtend i j)) i = Some e /\ view (exec st (CAdd k i j)) k = Some d /\
    transform e false v = transform b false (transform a false v) /\
    transform d false v = transform b false (transform a false v).
Proof.
  intros st i j k a b v Ha Hb. exists (iso_concatenate [a; b]), (iso_concatenate [a; b]).
  cbn [exec views]. rewrite Ha, Hb.
  exact (conj (bind_fresh_view_same _ _ _) (conj (bind_fresh_view_same _ _ _)
    (conj (concat_transform [a; b] false v) (concat_transform [a; b] false v)))).
Qed.
Print Assumptions C03_extend_and_add.

(** C04. For non-zero a and b that do not point in opposite directions the matrix is a rotation taking
    the direction of a onto that of b. Missing for the full property: opposite directions, where it is false. *)
Lemma rm2v_not_opposite : forall a b, a <> vzero -> b <> vzero ->
  (forall k, k < 0 -> b <> vscale k a) ->
  exists m a' b', rotation_matrix_from_two_vectors a b = Ok (m, a', b') /\ is_rotation m /\ same_direction (mapply m a) b.
Proof.
  intros a b Ha Hb Ho. destruct (vec_dec (vcross a b) vzero) as [E|E].
  - destruct (collinear_cases a b Ha E) as [k ->].
    assert (0 < k). { destruct (Rtotal_order k 0) as [L|[->|L]]; auto; exfalso. eapply Ho; eauto. apply Hb. apply vscale_0. }
    destruct (rm2v_parallel a k Ha H) as (a' & b' & ->). exists mid, a', b'.
    split; auto. split. apply is_rotation_mid. exists k. rewrite mapply_id. auto.
  - apply rm2v_ok; auto.
Qed.
Theorem C04_two_vectors_partial : forall a b, a <> vzero -> b <> vzero ->
  (forall k, k < 0 -> b <> vscale k a) ->
  exists m a' b', rotation_matrix_from_two_vectors a b = Ok (m, a', b') /\ is_rotation m /\ same_direction (mapply m a) b.
Proof. exact rm2v_not_opposite. Qed.
Print Assumptions C04_two_vectors_partial.

Example C04_case : V 0 1 2 <> vzero /\ V 0 2 1 <> vzero /\ (forall k, k < 0 -> V 0 2 1 <> vscale k (V 0 1 2)).
Proof.
  unfold vzero, vscale; cbn. repeat split; try (intros E; injection E; intros; lra).
  intros k Hk E; injection E; intros; lra.
Qed.

(** For every non-zero a, the matrix from a to an opposite vector is the identity, which leaves a pointing away from b. *)
Lemma rm2v_opposite_wrong : forall a k, a <> vzero -> k < 0 ->
  exists a' b', rotation_matrix_from_two_vectors a (vscale k a) = Ok (mid, a', b') /\ ~ same_direction (mapply mid a) (vscale k a).
Proof.
  intros a k Ha Hk. destruct (rm2v_opposite a k Ha Hk) as (a' & b' & ->). exists a', b'. split; auto.
  intros (l & Hl & E). rewrite mapply_id in E. apply Ha.
  assert (X : vscale (l - k) a = vzero).
  { transitivity (vsub (vscale l a) (vscale k a)). clear; revert l k a; vring. rewrite E. apply vsub_self. }
  assert (Y : vscale (/ (l - k)) (vscale (l - k) a) = vzero) by (rewrite X; apply vscale_zero).
  rewrite vscale_scale, Rinv_l, vscale_1 in Y by lra. auto.
Qed.
Theorem C04_two_vectors_refuted : forall a k, a <> vzero -> k < 0 ->
  exists a' b', rotation_matrix_from_two_vectors a (vscale k a) = Ok (mid, a', b') /\ ~ same_direction (mapply mid a) (vscale k a).
Proof. exact rm2v_opposite_wrong. Qed.
Print Assumptions C04_two_vectors_refuted.

(** C05. Rotation about an axis by an angle (degrees): Rodrigues' formula for the unit vector [v] along the axis, i.e. the
    component along v is kept, the rest is turned by the angle counter-clockwise about v. *)
Theorem C05_axis_angle_formula : forall ax angle v u, get_los ax = Ok v ->
  exists m, rotation_matrix_from_vector_angle ax angle = Ok m /\
    mapply m u = vadd (vadd (vscale (vdot v u) v) (vscale (cos (angle * PI / 180)) (vsub u (vscale (vdot v u) v))))
                   (vscale (sin (angle * PI / 180)) (vcross v u)).
Proof. exact rmva_rodrigues. Qed.
Print Assumptions C05_axis_angle_formula.

Theorem C05_is_rotation_fixing_axis : forall ax angle m v,
  get_los ax = Ok v -> rotation_matrix_from_vector_angle ax angle = Ok m -> is_rotation m /\ mapply m v = v.
Proof. intros ax angle m v H E. exact (conj (rotation_matrix_rotation ax angle m E) (rmva_fixes ax angle m v H E)). Qed.
Print Assumptions C05_is_rotation_fixing_axis.

(** The axis argument: a non-zero vector means its direction; 0, 1, 2 and 'x', 'y', 'z' mean the coordinate axes. *)
Lemma axis_meaning : forall v i, v <> vzero -> (i < 3)%nat ->
  (exists u, get_los (AxVec v) = Ok u /\ same_direction v u /\ vdot u u = 1) /\
  get_los (AxIdx (Z.of_nat i)) = Ok (List.nth i [V 1 0 0; V 0 1 0; V 0 0 1] vzero) /\
  get_los (AxStr (List.nth i ["x"; "y"; "z"] "")%string) = Ok (List.nth i [V 1 0 0; V 0 1 0; V 0 0 1] vzero).
Proof.
  intros v i Hv Hi. split.
  - exists (vscale (/ vnorm v) v). split; [apply get_los_scalar_vec; auto|]. split; [|apply unit_scale; auto].
    exists (/ vnorm v). split; auto. apply Rinv_0_lt_compat, vnorm_pos; auto.
  - destruct (get_los_axis i Hi) as [-> ->]. destruct i as [|[|[|]]]; [| | |lia]; split; reflexivity.
Qed.
Theorem C05_axis_meaning : forall v i, v <> vzero -> (i < 3)%nat ->
  (exists u, get_los (AxVec v) = Ok u /\ same_direction v u /\ vdot u u = 1) /\
  get_los (AxIdx (Z.of_nat i)) = Ok (List.nth i [V 1 0 0; V 0 1 0; V 0 0 1] vzero) /\
  get_los (AxStr (List.nth i ["x"; "y"; "z"] "")%string) = Ok (List.nth i [V 1 0 0; V 0 1 0; V 0 0 1] vzero).
Proof. exact axis_meaning. Qed.
Print Assumptions C05_axis_meaning.

Theorem C05_angles_add : forall ax a b ma mb mab,
  rotation_matrix_from_vector_angle ax a = Ok ma -> rotation_matrix_from_vector_angle ax b = Ok mb ->
  rotation_matrix_from_vector_angle ax (a + b) = Ok mab -> mmul ma mb = mab.
Proof. exact rmva_add. Qed.
Print Assumptions C05_angles_add.

Theorem C05_zero_angle_identity : forall ax m, rotation_matrix_from_vector_angle ax 0 = Ok m -> m = mid.
Proof. exact rmva_zero. Qed.
Print Assumptions C05_zero_angle_identity.

(** Right-hand rule: a quarter turn about x takes y to z, about y takes z to x, about z takes x to y. *)
Lemma right_hand : 
  (exists m, rotation_matrix_from_vector_angle (AxStr "x") 90 = Ok m /\ mapply m (V 0 1 0) = V 0 0 1) /\
  (exists m, rotation_matrix_from_vector_angle (AxStr "y") 90 = Ok m /\ mapply m (V 0 0 1) = V 1 0 0) /\
  (exists m, rotation_matrix_from_vector_angle (AxStr "z") 90 = Ok m /\ mapply m (V 1 0 0) = V 0 1 0).
Proof.
  split; [|split]; eexists; (split; [first [apply rot90x | apply rot90y | apply rot90z] | vunfold; vsplit; ring]).
Qed.
Theorem C05_right_hand_rule :
  (exists m, rotation_matrix_from_vector_angle (AxStr "x") 90 = Ok m /\ mapply m (V 0 1 0) = V 0 0 1) /\
  (exists m, rotation_matrix_from_vector_angle (AxStr "y") 90 = Ok m /\ mapply m (V 0 0 1) = V 1 0 0) /\
  (exists m, rotation_matrix_from_vector_angle (AxStr "z") 90 = Ok m /\ mapply m (V 1 0 0) = V 0 1 0).
Proof. exact right_hand. Qed.
Print Assumptions C05_right_hand_rule.

(** C06. frame='origin': a rotation turns the moved points about the origin; 'current': about the image of the origin. *)
Theorem C06_dot_frames : forall s m p,
  transform (fst (iso_dot s m "origin")) false p = turn_about vzero (mapply m) (transform s false p) /\
  transform (fst (iso_dot s m "current")) false p = turn_about (transform s false vzero) (mapply m) (transform s false p).
Proof.
  intros s m p. refine (conj _ (dot_current s m p)). rewrite dot_origin. unfold turn_about.
  rewrite vsub_0_r, vadd_0_l. exact eq_refl.
Qed.
Print Assumptions C06_dot_frames.

(** frame='origin': a translation adds the shift after the motion (fixed axes); 'current': before it (rotated axes). *)
Theorem C06_translation_frames : forall s shift axis v p, shift_means shift axis v ->
  transform (fst (iso_translation s shift axis "origin")) false p = vadd (transform s false p) v /\
  transform (fst (iso_translation s shift axis "current")) false p = transform s false (vadd p v).
Proof. intros s sh ax v p H. exact (conj (translation_origin s sh ax v p (shift_means_vector _ _ _ H)) (translation_current s sh ax v p (shift_means_vector _ _ _ H))). Qed.
Print Assumptions C06_translation_frames.
Example C06_case_shift : shift_means (ShScalar 3) (AxStr "y") (V 0 3 0).
Proof. constructor. Qed.

(** reset_rotation('origin') gives the motion which, turned back by the linear part, is the old one;
    reset_rotation('current') is a pure shift to the current centre. *)
Theorem C06_reset_rotation_frames : forall cs i s p, Forall rotation_given cs -> view (run cs) i = Some s ->
  transform s true (transform (fst (iso_reset_rotation s "origin")) false p) = transform s false p /\
  transform (fst (iso_reset_rotation s "current")) false p = vadd p (transform s false vzero).
Proof. intros cs i s p F H. exact (conj (reset_origin s p (view_rot _ _ _ (run_rot cs F) H)) (reset_current s p)). Qed.
Print Assumptions C06_reset_rotation_frames.

(** An invalid frame raises and leaves the isometry as it was: true of translation and reset_rotation ... *)
Theorem C06_bad_frame_partial : forall s shift axis frame, frame <> "origin"%string -> frame <> "current"%string ->
  (exists e, iso_translation s shift axis frame = (s, Err e)) /\
  iso_reset_rotation s frame = (s, Err IsometryError).
Proof. intros s sh ax fr H1 H2. exact (conj (translation_bad_frame s sh ax fr H1 H2) (reset_bad_frame s fr H1 H2)). Qed.
Print Assumptions C06_bad_frame_partial.

(** ... but dot() raises after having rotated. *)
Lemma dot_not_atomic : exists s m frame e, is_rotation m /\ snd (iso_dot s m frame) = Err e /\ fst (iso_dot s m frame) <> s.
Proof.
  exists iso_new, (M (V 0 (-1) 0) (V 1 0 0) (V 0 0 1)), "bad"%string, IsometryError. split; [|split; [reflexivity|]].
  - vunfold. split; [vsplit|]; ring.
  - cbn. intros E. injection E. vunfold. intros; lra.
Qed.
Theorem C06_dot_atomic_refuted : exists s m frame e,
  is_rotation m /\ snd (iso_dot s m frame) = Err e /\ fst (iso_dot s m frame) <> s.
Proof. exact dot_not_atomic. Qed.
Print Assumptions C06_dot_atomic_refuted.

(** rotation() ignores its frame argument: every frame, valid or not, gives the same result, without an error, ... *)
Theorem C06_rotation_ignores_frame : forall s angle axis degree frame,
  iso_rotation s angle axis degree frame = iso_rotation s angle axis degree "origin".
Proof. intros. exact eq_refl. Qed.
Print Assumptions C06_rotation_ignores_frame.

(** ... so that rotation(frame='current') does not turn about the current centre. *)
Lemma rotation_current_wrong : exists s m p,
  rotation_matrix_from_vector_angle (AxStr "z") 90 = Ok m /\
  transform (fst (iso_rotation s 90 (AxStr "z") true "current")) false p <>
  turn_about (transform s false vzero) (mapply m) (transform s false p).
Proof.
  exists (Iso mid (V 1 0 0)), (M (V 0 (-1) 0) (V 1 0 0) (V 0 0 1)), vzero. split. apply rot90z.
  rewrite (iso_rotation_ok _ _ _ _ _ rot90z). unfold transform, turn_about; cbn. vunfold. intros E; injection E; intros; lra.
Qed.
Theorem C06_rotation_current_refuted : exists s m p,
  rotation_matrix_from_vector_angle (AxStr "z") 90 = Ok m /\
  transform (fst (iso_rotation s 90 (AxStr "z") true "current")) false p <>
  turn_about (transform s false vzero) (mapply m) (transform s false p).
Proof. exact rotation_current_wrong. Qed.
Print Assumptions C06_rotation_current_refuted.

(** With frame='origin', rotation() turns about the origin. *)
Theorem C06_rotation_origin : forall s angle axis m p, rotation_matrix_from_vector_angle axis angle = Ok m ->
  transform (fst (iso_rotation s angle axis true "origin")) false p = mapply m (transform s false p).
Proof. intros s angle axis m p H. rewrite (iso_rotation_ok s angle axis "origin" m H). exact (dot_origin s m p). Qed.
Print Assumptions C06_rotation_origin.

(** C54. Objects are independent: a call on one object does not move another one. True as long as no object was obtained
    as [0 + other] (e.g. by sum of one isometry). *)
Theorem C54_independent_partial : forall cs c i,
  Forall no_share (cs ++ [c]) -> target c <> i -> view (exec (run cs) c) i = view (run cs) i.
Proof.
  intros cs c i F N. apply Forall_app in F as [F G]. inversion G as [|? ? Gc _]; subst.
  exact (exec_other (run cs) c i (run_sep cs F) Gc N).
Qed.
Print Assumptions C54_independent_partial.

Example C54_case : Forall no_share ([CNew 0; CNew 1] ++ [CTranslation 1 (ShScalar 1) AxNone "origin"]) /\
  target (CTranslation 1 (ShScalar 1) AxNone "origin") <> 0%nat.
Proof. split; [repeat constructor | discriminate]. Qed.

(** k = 0 + i shares the translation array: moving k moves i. *)
Lemma radd_shares : exists cs c i, target c <> i /\ view (exec (run cs) c) i <> view (run cs) i.
Proof.
  exists [CNew 0; CRadd0 1 0], (CTranslation 1 (ShScalar 1) AxNone "origin"), 0%nat. split; [discriminate|].
  cbn. intros E. injection E. vunfold. intros; lra.
Qed.
Theorem C54_radd_copy_refuted : exists cs c i, target c <> i /\ view (exec (run cs) c) i <> view (run cs) i.
Proof. exact radd_shares. Qed.
Print Assumptions C54_radd_copy_refuted.

(** C55. rotation_matrix_from_two_vectors leaves its arguments as they were: false, it overwrites them by unit vectors. *)
Lemma rm2v_mutates : exists a b m a' b', rotation_matrix_from_two_vectors a b = Ok (m, a', b') /\ a' <> a.
Proof.
  exists (V 2 0 0), (V 2 0 0). unfold rotation_matrix_from_two_vectors.
  assert (N : V 2 0 0 <> vzero) by (unfold vzero; intros E; injection E; lra).
  rewrite (normalize_ok _ N). cbn [bind]. 
  assert (S : vnorm (V 2 0 0) = 2).
  { unfold vnorm. vunfold. replace (2 * 2 + 0 * 0 + 0 * 0) with (2 * 2) by ring. apply sqrt_square; lra. }
  rewrite S. destruct Req_EM_T; do 3 eexists; (split; [reflexivity|]); vunfold; intros E; injection E; intros; lra.
Qed.
Theorem C55_arguments_unchanged_refuted : exists a b m a' b',
  rotation_matrix_from_two_vectors a b = Ok (m, a', b') /\ a' <> a.
Proof. exact rm2v_mutates. Qed.
Print Assumptions C55_arguments_unchanged_refuted.
