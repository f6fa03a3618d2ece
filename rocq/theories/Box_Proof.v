Require Import Reals Lra Lia ZArith List Bool String Sorted Permutation.
From Verif Require Import Base Vec3 Isometry_Model Isometry_Spec Isometry_Proof Sky_Model Sky_Spec Sky_Proof
  Cutsky_Model Cutsky_Spec Cutsky_Proof Box_Model Box_Spec.
Import ListNotations.
Open Scope R_scope.

(* ---------- columns ---------- *)
Lemma mem_In : forall s l, mem s l = true <-> In s l.
Proof.
  intros s l. unfold mem. rewrite existsb_exists. split.
  - intros (x & H & E). apply String.eqb_eq in E. subst; auto.
  - intros H. exists s. split; auto. apply String.eqb_refl.
Qed.
Lemma mem_nIn : forall s l, mem s l = false <-> ~ In s l.
Proof. intros s l. rewrite <- mem_In. destruct (mem s l); split; intros; congruence. Qed.

Lemma lookup_In : forall n d x, lookup n d = Some x -> In (n, x) d.
Proof.
  induction d as [|[m c] d IH]; intros x H; [discriminate|]. cbn in H. destruct (String.eqb n m) eqn:E.
  - apply String.eqb_eq in E. injection H as <-. subst. left; auto.
  - right; auto.
Qed.

Lemma map_cols_spec : forall f d d', map_cols f d = Ok d' ->
  map fst d' = map fst d /\
  forall n, match lookup n d with Some c => exists c', f n c = Ok c' /\ lookup n d' = Some c' | None => lookup n d' = None end.
Proof.
  induction d as [|[m c] d IH]; intros d' H; cbn in H.
  - injection H as <-. split; auto. intros; reflexivity.
  - destruct (f m c) as [c'|] eqn:F; [|discriminate]. cbn [bind] in H. destruct (map_cols f d) as [d0|]; [|discriminate].
    cbn [bind] in H. injection H as <-. destruct (IH d0 eq_refl) as [A B]. split; [cbn; congruence|].
    intros n. cbn. destruct (String.eqb n m) eqn:E; [|apply B]. apply String.eqb_eq in E. subst. eauto.
Qed.
Lemma map_cols_ok : forall f d, (forall n c, In (n, c) d -> exists c', f n c = Ok c') -> exists d', map_cols f d = Ok d'.
Proof.
  induction d as [|[m c] d IH]; intros H; [eexists; reflexivity|]. cbn. destruct (H m c (or_introl eq_refl)) as [c' ->]. cbn [bind].
  destruct IH as [d' ->]; [intros; apply H; right; auto|]. cbn [bind]. eauto.
Qed.

(* ---------- transform_vectors ---------- *)
Lemma tv_ok : forall s c, vectors_ok c -> exists c', transform_vectors s c = Ok c'.
Proof.
  intros s c H. unfold transform_vectors.
  destruct (map_cols_ok (fun n x => if mem n (pc_vectors c) then transform_col s (mem n (pc_invariants c)) x else Ok x) (pc_data c)) as [d' ->].
  - intros n x I. destruct (mem n (pc_vectors c)) eqn:M; [|eauto]. apply mem_In in M. destruct (H _ _ I M) as [l ->]. cbn. eauto.
  - cbn [bind]. eauto.
Qed.
Lemma tv_spec : forall s c c', transform_vectors s c = Ok c' ->
  names c' = names c /\ pc_vectors c' = pc_vectors c /\ pc_invariants c' = pc_invariants c /\ pc_position c' = pc_position c /\
  pc_velocity c' = pc_velocity c /\
  (forall n, column c n = None -> column c' n = None) /\
  (forall n x, column c n = Some x -> ~ In n (pc_vectors c) -> column c' n = Some x) /\
  (forall n l, column c n = Some (ColV l) -> moves c n -> column c' n = Some (ColV (map (transform s false) l))) /\
  (forall n l, column c n = Some (ColV l) -> In n (pc_vectors c) -> In n (pc_invariants c) -> column c' n = Some (ColV (map (transform s true) l))).
Proof.
  intros s c c' H. unfold transform_vectors in H.
  match type of H with (do d <- ?X; _) = _ => destruct X as [d|] eqn:E end; [|discriminate]. cbn [bind] in H. injection H as <-.
  apply map_cols_spec in E. destruct E as [N L]. unfold names, column, moves. cbn [pc_data pc_vectors pc_invariants pc_position pc_velocity].
  repeat split; auto.
  - intros n K. specialize (L n). rewrite K in L. auto.
  - intros n x K NI. specialize (L n). rewrite K in L. destruct L as (x' & F & ->). apply mem_nIn in NI. rewrite NI in F. congruence.
  - intros n l K [I NI]. specialize (L n). rewrite K in L. destruct L as (x' & F & ->). apply mem_In in I. apply mem_nIn in NI.
    rewrite I, NI in F. cbn in F. unfold transform_all in F. congruence.
  - intros n l K I I2. specialize (L n). rewrite K in L. destruct L as (x' & F & ->). apply mem_In in I. apply mem_In in I2.
    rewrite I, I2 in F. cbn in F. unfold transform_all in F. congruence.
Qed.

(* ---------- translate ---------- *)
Lemma shift_means_ok : forall sh ax v, shift_means sh ax v -> iso_translation iso_new sh ax "origin" = (Iso mid v, Ok tt).
Proof.
  intros sh ax v H. destruct H; unfold iso_translation, shift_vector, xyz_index; cbn;
    match goal with |- (Iso mid ?a, _) = (Iso mid ?b, _) => replace a with b; [reflexivity|] end;
    change (Pos.to_nat 1) with 1%nat; change (Pos.to_nat 2) with 2%nat; unfold vzero, vset; vdestr; vunfold; vsplit; ring.
Qed.
Lemma transform_shift : forall v p, transform (Iso mid v) false p = vadd p v.
Proof. intros. unfold transform, rot, tra. revert v p. vring. Qed.
Lemma transform_shift_inv : forall v p, transform (Iso mid v) true p = p.
Proof. intros. unfold transform, rot, tra. revert v p. vring. Qed.

Lemma column_in_vec : forall c n x, vectors_ok c -> column c n = Some x -> In n (pc_vectors c) -> exists l, x = ColV l.
Proof. intros c n x H K I. apply (H n x); auto. apply lookup_In; auto. Qed.

Lemma translate_thm : forall c sh ax v, shift_means sh ax v -> vectors_ok (bc_cat c) ->
  exists c', translate c sh ax = Ok c' /\ boxsize c' = boxsize c /\ boxcenter c' = vadd (boxcenter c) v /\
    names (bc_cat c') = names (bc_cat c) /\
    (forall n l, column (bc_cat c) n = Some (ColV l) -> moves (bc_cat c) n -> column (bc_cat c') n = Some (ColV (map (fun p => vadd p v) l))) /\
    (forall n x, column (bc_cat c) n = Some x -> ~ moves (bc_cat c) n -> column (bc_cat c') n = Some x).
Proof.
  intros c sh ax v M W. unfold translate. rewrite (shift_means_ok _ _ _ M). cbn [iso_ok bind].
  destruct (tv_ok (Iso mid v) (bc_cat c) W) as [c' E]. rewrite E. cbn [bind]. eexists; split; [reflexivity|].
  cbn [boxsize boxcenter bc_cat]. destruct (tv_spec _ _ _ E) as (N & _ & _ & _ & _ & _ & A & B & C).
  split; auto. split; [apply transform_shift|]. split; auto. split.
  - intros n l K I. rewrite (B n l K I). do 2 f_equal. apply map_ext. intros; apply transform_shift.
  - intros n x K NM. destruct (in_dec string_dec n (pc_vectors (bc_cat c))) as [I|I]; [|auto].
    destruct (column_in_vec _ _ _ W K I) as [l ->].
    destruct (in_dec string_dec n (pc_invariants (bc_cat c))) as [J|J].
    + rewrite (C n l K I J). do 2 f_equal. rewrite <- (map_id l) at 2. apply map_ext. intros; apply transform_shift_inv.
    + exfalso; apply NM; split; auto.
Qed.
Lemma recenter_thm : forall c, vectors_ok (bc_cat c) -> exists c', recenter c = Ok c' /\ translate c (ShVec (vopp (boxcenter c))) AxNone = Ok c' /\ boxcenter c' = vzero /\ boxsize c' = boxsize c.
Proof.
  intros c W. destruct (translate_thm c _ _ _ (sm_vec (vopp (boxcenter c))) W) as (c' & E & S & K & _).
  exists c'. unfold recenter. repeat split; auto. rewrite K. destruct (boxcenter c). unfold vopp, vzero. vunfold. vsplit; ring.
Qed.
Lemma contained_shift : forall size ctr p v, contained size (vadd ctr v) (vadd p v) <-> contained size ctr p.
Proof.
  intros size [cx cy cz] [x y z] [a b d]. unfold contained, vadd; cbn [vx vy vz].
  replace (x + a - (cx + a)) with (x - cx) by ring. replace (y + b - (cy + b)) with (y - cy) by ring. replace (z + d - (cz + d)) with (z - cz) by ring. tauto.
Qed.

(* ---------- rotate ---------- *)
Definition los_of (a : axis3) : vec := match a with X => V 1 0 0 | Y => V 0 1 0 | Z => V 0 0 1 end.
Lemma axis_means_los : forall a ax, axis_means a ax -> get_los ax = Ok (los_of a).
Proof.
  intros a ax H. destruct a; cbn in H; destruct H as [-> | ->]; cbn [los_of].
  - apply (get_los_axis 0); lia.
  - apply (get_los_axis 0); lia.
  - apply (get_los_axis 1); lia.
  - apply (get_los_axis 1); lia.
  - apply (get_los_axis 2); lia.
  - apply (get_los_axis 2); lia.
Qed.

Lemma quarter_turn_angle : forall k, exists r, (0 <= r < 4)%Z /\ (k mod 4 = r)%Z /\
  cos (IZR k * PI / 2) = cos (IZR r * PI / 2) /\ sin (IZR k * PI / 2) = sin (IZR r * PI / 2).
Proof.
  intros k. exists (k mod 4)%Z. pose proof (Z.mod_pos_bound k 4 ltac:(lia)). split; [lia|]. split; auto.
  pose proof (Z.div_mod k 4 ltac:(lia)) as E.
  assert (A : IZR k * PI / 2 = IZR (k mod 4) * PI / 2 + IZR (k / 4) * (2 * PI)).
  { rewrite E at 1. rewrite plus_IZR, mult_IZR. field. }
  rewrite A, cos_period_Z, sin_period_Z. auto.
Qed.

Ltac quarter_solve a p :=
  change (Z.to_nat 0) with 0%nat; change (Z.to_nat 1) with 1%nat; change (Z.to_nat 2) with 2%nat; change (Z.to_nat 3) with 3%nat;
  destruct a, p; unfold axis_rot, outer, cross_matrix, los_of; unfold Nat.iter, nat_rect, quarter; vunfold; vsplit; ring.

Lemma axis_rot_quarters : forall a k p,
  mapply (axis_rot (los_of a) (cos (IZR k * PI / 2)) (sin (IZR k * PI / 2))) p = quarters a k p.
Proof.
  intros a k p. destruct (quarter_turn_angle k) as (r & R & M & -> & ->). unfold quarters. rewrite M.
  assert (r = 0 \/ r = 1 \/ r = 2 \/ r = 3)%Z as [->|[->|[->| ->]]] by lia.
  - replace (0 * PI / 2) with 0 by field. rewrite cos_0, sin_0. quarter_solve a p.
  - replace (1 * PI / 2) with (PI / 2) by field. rewrite cos_PI2, sin_PI2. quarter_solve a p.
  - replace (2 * PI / 2) with PI by field. rewrite cos_PI, sin_PI. quarter_solve a p.
  - replace (3 * PI / 2) with (3 * (PI / 2)) by field. rewrite cos_3PI2, sin_3PI2. quarter_solve a p.
Qed.

Lemma iso_rotation_rad : forall s angle ax fr v, get_los ax = Ok v ->
  iso_rotation s angle ax false fr = (Iso (mmul (axis_rot v (cos angle) (sin angle)) (rot s)) (mapply (axis_rot v (cos angle) (sin angle)) (tra s)), Ok tt).
Proof.
  intros s angle ax fr v E. pose proof PI_neq0. unfold iso_rotation. rewrite E.
  assert (V1 : get_los (AxVec v) = Ok v) by (cbn; apply normalize_of_unit; eapply get_los_unit; eauto).
  rewrite (rotation_matrix_eq _ _ _ V1). replace (angle * 180 / PI * PI / 180) with angle by (field; auto). reflexivity.
Qed.

Lemma transform_linear : forall m p b, transform (Iso (mmul m mid) (mapply m vzero)) b p = mapply m p.
Proof.
  intros m p b. unfold transform, tensordot1; cbn [rot tra]. rewrite mmul_id_r, mapply_zero. destruct b; auto. apply vadd_0_r.
Qed.

Lemma rotate_thm : forall c k a ax, axis_means a ax -> vectors_ok (bc_cat c) ->
  exists c', rotate c k ax = Ok c' /\ boxsize c' = vabs (quarters a k (boxsize c)) /\ boxcenter c' = quarters a k (boxcenter c) /\
    names (bc_cat c') = names (bc_cat c) /\
    (forall n l, column (bc_cat c) n = Some (ColV l) -> In n (pc_vectors (bc_cat c)) -> column (bc_cat c') n = Some (ColV (map (quarters a k) l))) /\
    (forall n x, column (bc_cat c) n = Some x -> ~ In n (pc_vectors (bc_cat c)) -> column (bc_cat c') n = Some x).
Proof.
  intros c k a ax M W. unfold rotate. rewrite (iso_rotation_rad _ _ _ _ _ (axis_means_los _ _ M)). cbn [iso_ok bind rot tra iso_new].
  set (m := axis_rot (los_of a) (cos (IZR k * PI / 2)) (sin (IZR k * PI / 2))).
  destruct (tv_ok (Iso (mmul m mid) (mapply m vzero)) (bc_cat c) W) as [c' E]. unfold iso_new, rot, tra in *. rewrite E. cbn [bind].
  eexists; split; [reflexivity|]. cbn [boxsize boxcenter bc_cat]. rewrite !transform_linear. unfold m at 1 2. rewrite !axis_rot_quarters.
  destruct (tv_spec _ _ _ E) as (N & _ & _ & _ & _ & _ & A & B & C). split; auto. split; auto. split; auto. split; auto.
  intros n l K I. destruct (in_dec string_dec n (pc_invariants (bc_cat c))) as [J|J].
  - rewrite (C n l K I J). do 2 f_equal. apply map_ext. intros; rewrite transform_linear; apply axis_rot_quarters.
  - rewrite (B n l K (conj I J)). do 2 f_equal. apply map_ext. intros; rewrite transform_linear; apply axis_rot_quarters.
Qed.

Lemma quarters_cases : forall a k, exists r, (r < 4)%nat /\ forall p, quarters a k p = Nat.iter r (quarter a) p.
Proof. intros a k. exists (Z.to_nat (k mod 4)). pose proof (Z.mod_pos_bound k 4 ltac:(lia)). split; [lia|]. reflexivity. Qed.

Lemma quarter_contained : forall a size ctr p, contained (vabs (quarter a size)) (quarter a ctr) (quarter a p) <-> contained (vabs size) ctr p.
Proof.
  intros a [sx sy sz] [cx cy cz] [x y z]. unfold contained, vabs.
  destruct a; cbn [quarter vx vy vz]; rewrite ?Rabs_Ropp.
  - replace (- z - - cz) with (- (z - cz)) by ring. rewrite Rabs_Ropp. tauto.
  - replace (- x - - cx) with (- (x - cx)) by ring. rewrite Rabs_Ropp. tauto.
  - replace (- y - - cy) with (- (y - cy)) by ring. rewrite Rabs_Ropp. tauto.
Qed.
Lemma vabs_nonneg : forall s, 0 <= vx s -> 0 <= vy s -> 0 <= vz s -> vabs s = s.
Proof. intros [x y z]; cbn; intros. unfold vabs; cbn. rewrite !Rabs_right by lra. auto. Qed.
Lemma quarters_contained : forall a k size ctr p, 0 <= vx size -> 0 <= vy size -> 0 <= vz size ->
  contained (vabs (quarters a k size)) (quarters a k ctr) (quarters a k p) <-> contained size ctr p.
Proof.
  intros a k size ctr p H1 H2 H3. destruct (quarters_cases a k) as (r & _ & E). rewrite !E. clear E.
  induction r as [|r IH]; cbn [Nat.iter nat_rect]; [rewrite vabs_nonneg by auto; tauto|].
  change (nat_rect (fun _ : nat => vec) size (fun _ : nat => quarter a) r) with (Nat.iter r (quarter a) size).
  change (nat_rect (fun _ : nat => vec) ctr (fun _ : nat => quarter a) r) with (Nat.iter r (quarter a) ctr).
  change (nat_rect (fun _ : nat => vec) p (fun _ : nat => quarter a) r) with (Nat.iter r (quarter a) p).
  rewrite quarter_contained. exact IH.
Qed.
Lemma quarters_volume : forall a k size, 0 <= vx size -> 0 <= vy size -> 0 <= vz size ->
  volume (vabs (quarters a k size)) = volume size /\ Permutation (sides (vabs (quarters a k size))) (sides size).
Proof.
  intros a k size H1 H2 H3. destruct (quarters_cases a k) as (r & Rr & E). rewrite !E. clear E. destruct size as [x y z]; cbn [vx vy vz] in *.
  assert (K : forall x, 0 <= x -> Rabs (- x) = x) by (intros; rewrite Rabs_Ropp, Rabs_right; lra).
  assert (K' : forall x, 0 <= x -> Rabs x = x) by (intros; rewrite Rabs_right; lra).
  assert (K2 : forall x, 0 <= x -> Rabs (- - x) = x) by (intros; rewrite Ropp_involutive, Rabs_right; lra).
  unfold volume, sides.
  assert (P1 : forall a b c : R, Permutation [a; c; b] [a; b; c]) by (intros; apply perm_skip, perm_swap).
  assert (P2 : forall a b c : R, Permutation [b; a; c] [a; b; c]) by (intros; apply perm_swap).
  assert (P3 : forall a b c : R, Permutation [c; b; a] [a; b; c])
    by (intros; eapply perm_trans; [apply perm_swap|]; eapply perm_trans; [apply perm_skip, perm_swap|]; apply perm_swap).
  destruct r as [|[|[|[|]]]]; [| | | |lia]; destruct a; cbn; rewrite ?Ropp_involutive; rewrite ?K, ?K' by lra; (split; [ring|]);
    first [apply Permutation_refl | apply P1 | apply P2 | apply P3].
Qed.
