(** Change of unit: isometries, catalogs, cut skies, remappings. *)
Require Import Reals Lra Lia ZArith String List Bool FunctionalExtensionality.
From Verif Require Import Base Vec3 Isometry_Model Sky_Model Cutsky_Model Box_Model Rsd_Model Mock_Model Mesh_Model Remap_Model Unit_Spec Density_Proof Ens_Proof Unit_Proof Unit_Proof2.
Import ListNotations.
Open Scope R_scope.

Section Proof.
  Variable s : R.
  Hypothesis Hs : 0 < s.
  Local Notation vs := (vscale s).

  (** Isometries. *)
  Lemma transform_scale : forall i ti v, transform (iso_u s i) ti (vs v) = vs (transform i ti v).
  Proof. intros. unfold transform, tensordot1, iso_u; cbn [rot tra]. rewrite mapply_scale. destruct ti; auto. apply vscale_add. Qed.
  Lemma transform_ti : forall i v, transform (iso_u s i) true v = transform i true v. Proof. reflexivity. Qed.
  Lemma concat_scale : forall l, iso_concatenate (map (iso_u s) l) = iso_u s (iso_concatenate l).
  Proof.
    intros. unfold iso_concatenate. assert (E : iso_new = iso_u s iso_new) by (unfold iso_new, iso_u; cbn [rot tra]; rewrite vscale_zero; reflexivity).
    rewrite E at 1. generalize iso_new. induction l as [|i l IH]; intros a; cbn [map fold_left]; auto.
    rewrite <- IH. f_equal. unfold iso_concat_step, iso_u; cbn [rot tra]. f_equal. unfold tensordot1. rewrite mapply_scale. apply vscale_add.
  Qed.
  Lemma shift_scale : forall shift axis, shift_vector (shift_u s shift) axis = result_map vs (shift_vector shift axis).
  Proof.
    intros [r|v] axis; destruct axis; cbn [shift_u shift_vector result_map]; auto.
    - destruct (Isometry_Model.xyz_index s0) as [i|e]; cbn [bind result_map]; auto. destruct (np_index3 i) as [n|e]; cbn [bind result_map]; auto.
      f_equal. destruct n as [|[|n]]; unfold vset, vscale, vzero; cbn [vx vy vz]; rewrite !Rmult_0_r; reflexivity.
    - cbn [bind]. destruct (np_index3 i) as [n|e]; cbn [bind result_map]; auto.
      f_equal. destruct n as [|[|n]]; unfold vset, vscale, vzero; cbn [vx vy vz]; rewrite !Rmult_0_r; reflexivity.
  Qed.
  Lemma translation_scale : forall i shift axis frame, iso_translation (iso_u s i) (shift_u s shift) axis frame =
    (iso_u s (fst (iso_translation i shift axis frame)), snd (iso_translation i shift axis frame)).
  Proof.
    intros. unfold iso_translation. rewrite shift_scale. destruct (shift_vector shift axis) as [v|e]; cbn [result_map]; auto.
    destruct (String.eqb frame "current"); [|destruct (String.eqb frame "origin"); auto];
      cbn [fst snd]; f_equal; unfold iso_u, tensordot1; cbn [rot tra]; rewrite <- ?mapply_scale, ?vscale_add, ?mapply_scale, ?vscale_add; reflexivity.
  Qed.
  Lemma dot_scale : forall i m frame, iso_dot (iso_u s i) m frame = (iso_u s (fst (iso_dot i m frame)), snd (iso_dot i m frame)).
  Proof.
    intros. unfold iso_dot. cbn [rot tra]. destruct (String.eqb frame "origin"); [|destruct (String.eqb frame "current"); reflexivity].
    cbn [fst snd]. f_equal. unfold iso_u; cbn [rot tra]. rewrite mapply_scale. reflexivity.
  Qed.
  Lemma rotation_scale : forall i a axis deg frame, iso_rotation (iso_u s i) a axis deg frame =
    (iso_u s (fst (iso_rotation i a axis deg frame)), snd (iso_rotation i a axis deg frame)).
  Proof.
    intros. unfold iso_rotation. destruct (get_los axis) as [v|e]; auto. destruct (rotation_matrix_from_vector_angle _ _) as [m|e]; auto. apply dot_scale.
  Qed.
  Lemma reset_scale : forall i frame, iso_reset_rotation (iso_u s i) frame = (iso_u s (fst (iso_reset_rotation i frame)), snd (iso_reset_rotation i frame)).
  Proof.
    intros. unfold iso_reset_rotation. destruct (String.eqb frame "origin"); [|destruct (String.eqb frame "current"); reflexivity].
    cbn [fst snd]. f_equal. unfold iso_u; cbn [rot tra]. rewrite mapply_scale. reflexivity.
  Qed.
  Lemma new_iso_scale : iso_u s iso_new = iso_new.
  Proof. unfold iso_new, iso_u; cbn [rot tra]. rewrite vscale_zero. reflexivity. Qed.
  (** Programs. *)
  Definition store_u (st : store) : store := Store (env st) (fun a => vs (heap st a)) (next st).
  Lemma view_scale : forall st i, view (store_u st) i = option_map (iso_u s) (view st i).
  Proof. intros. unfold view, store_u; cbn [env heap]. destruct (env st i); reflexivity. Qed.
  Lemma views_scale : forall st js, views (store_u st) js = option_map (map (iso_u s)) (views st js).
  Proof. intros st js. induction js as [|j js IH]; cbn [views]; auto. rewrite view_scale, IH. destruct (view st j), (views st js); reflexivity. Qed.
  Lemma upd_scale : forall (h : nat -> vec) i t, upd (fun a => vs (h a)) i (vs t) = fun a => vs (upd h i t a).
  Proof. intros. extensionality a. unfold upd. destruct (Nat.eqb a i); reflexivity. Qed.
  Lemma bind_fresh_scale : forall st i a, bind_fresh (store_u st) i (iso_u s a) = store_u (bind_fresh st i a).
  Proof. intros. unfold bind_fresh, store_u; cbn [env heap next iso_u rot tra]. rewrite upd_scale. reflexivity. Qed.
  Lemma write_tra_scale : forall st i t, write_tra (store_u st) i (vs t) = store_u (write_tra st i t).
  Proof. intros. unfold write_tra, store_u; cbn [env heap next]. destruct (env st i); auto. cbn [env heap next]. rewrite upd_scale. reflexivity. Qed.
  Lemma write_rot_scale : forall st i m, write_rot (store_u st) i m = store_u (write_rot st i m).
  Proof. intros. unfold write_rot, store_u; cbn [env heap next]. destruct (env st i); reflexivity. Qed.
  Lemma exec_scale : forall st c, exec (store_u st) (cmd_u s c) = store_u (exec st c).
  Proof.
    intros st c. destruct c as [i|i m frame|i a axis deg frame|i shift axis frame|i frame|i|i js|i j|k i j|k i]; cbn [cmd_u exec].
    - rewrite <- bind_fresh_scale, new_iso_scale. reflexivity.
    - unfold do_dot. rewrite view_scale. destruct (view st i) as [a|]; cbn [option_map]; auto. rewrite dot_scale. cbn [fst].
      destruct (String.eqb frame "origin"); [apply bind_fresh_scale|apply write_rot_scale].
    - rewrite view_scale. destruct (view st i) as [b|]; cbn [option_map]; auto. rewrite rotation_scale. destruct (iso_rotation b a axis deg frame) as [b' [u|e]]; cbn [fst snd]; auto.
      apply bind_fresh_scale.
    - rewrite view_scale. destruct (view st i) as [b|]; cbn [option_map]; auto. rewrite translation_scale. cbn [fst]. apply write_tra_scale.
    - rewrite view_scale. destruct (view st i) as [b|]; cbn [option_map]; auto. rewrite reset_scale. cbn [fst].
      destruct (String.eqb frame "origin"); [apply bind_fresh_scale|apply write_rot_scale].
    - rewrite view_scale. destruct (view st i) as [b|]; cbn [option_map]; auto. rewrite <- write_tra_scale. cbn. rewrite vscale_zero. reflexivity.
    - rewrite views_scale. destruct (views st js) as [l|]; cbn [option_map]; auto. rewrite concat_scale. apply bind_fresh_scale.
    - rewrite views_scale. destruct (views st [i; j]) as [l|]; cbn [option_map]; auto. rewrite concat_scale. apply bind_fresh_scale.
    - rewrite views_scale. destruct (views st [i; j]) as [l|]; cbn [option_map]; auto. rewrite concat_scale. apply bind_fresh_scale.
    - unfold store_u at 1; cbn [env]. destruct (env st i); reflexivity.
  Qed.
  Lemma program_scale : forall cs, Isometry_Model.run (map (cmd_u s) cs) = store_u (Isometry_Model.run cs).
  Proof.
    intros. unfold Isometry_Model.run. assert (E : store_init = store_u store_init) by (unfold store_init, store_u; cbn; f_equal; extensionality a; rewrite vscale_zero; reflexivity).
    rewrite E at 1. generalize store_init. induction cs as [|c cs IH]; intros st; cbn [map fold_left]; auto. rewrite exec_scale. apply IH.
  Qed.

  (** Catalogs. *)
  Variable L : string -> bool.
  Local Notation cu n c := (if L n then col_u s c else c).
  Lemma map_cols_scale : forall f f' d, (forall n c, In (n, c) d -> f' n (cu n c) = result_map (fun c => cu n c) (f n c)) ->
    map_cols f' (data_u s L d) = result_map (data_u s L) (map_cols f d).
  Proof.
    intros f f' d. induction d as [|[n c] d IH]; intros H; cbn [data_u map map_cols fst snd]; auto. rewrite H by (left; auto).
    destruct (f n c) as [c'|e]; cbn [bind result_map]; auto. fold (data_u s L d). rewrite IH by (intros; apply H; right; auto). destruct (map_cols f d); reflexivity.
  Qed.
  Lemma lookup_scale : forall n d, lookup n (data_u s L d) = option_map (fun c => cu n c) (lookup n d).
  Proof. intros n d. induction d as [|[m c] d IH]; cbn [data_u map lookup fst snd]; auto. destruct (String.eqb_spec n m) as [->|]; auto. Qed.
  Lemma get_vec_scale : forall n d, L n = true -> get_vec n (data_u s L d) = result_map (map vs) (get_vec n d).
  Proof. intros n d H. unfold get_vec. rewrite lookup_scale. destruct (lookup n d) as [[l|l]|]; cbn [option_map]; rewrite ?H; reflexivity. Qed.
  Lemma position_scale : forall c, lengths_ok L c -> position (pcat_u s L c) = result_map (map vs) (position c).
  Proof. intros c [H _]. apply get_vec_scale; auto. Qed.
  Lemma transform_all_scale : forall i ti l, transform_all (iso_u s i) ti (map vs l) = map vs (transform_all i ti l).
  Proof. intros. unfold transform_all. rewrite !map_map. apply map_ext. intros; apply transform_scale. Qed.
  Lemma transform_vectors_scale : forall i c, lengths_ok L c -> transform_vectors (iso_u s i) (pcat_u s L c) = result_map (pcat_u s L) (transform_vectors i c).
  Proof.
    intros i c [_ H]. unfold transform_vectors. cbn [pcat_u pc_data pc_vectors pc_invariants pc_position pc_velocity].
    rewrite (map_cols_scale (fun n x => if mem n (pc_vectors c) then transform_col i (mem n (pc_invariants c)) x else Ok x)).
    - destruct (map_cols _ _); reflexivity.
    - intros n x _. destruct (mem n (pc_vectors c)) eqn:E; auto. destruct (mem n (pc_invariants c)) eqn:K.
      + destruct x as [l|l]; destruct (L n); cbn [col_u transform_col result_map]; auto. rewrite transform_all_scale. reflexivity.
      + rewrite (H n E K). destruct x as [l|l]; cbn [col_u transform_col result_map]; auto. rewrite transform_all_scale. reflexivity.
  Qed.
  Lemma lengths_transform : forall i c c', lengths_ok L c -> transform_vectors i c = Ok c' -> lengths_ok L c'.
  Proof. intros i c c' H E. unfold transform_vectors in E. destruct (map_cols _ _); inversion E; subst. exact H. Qed.
  Lemma iso_ok_scale : forall i r, iso_ok (iso_u s i, r) = result_map (iso_u s) (iso_ok (i, r)).
  Proof. intros i [u|e]; reflexivity. Qed.
  Lemma translate_scale : forall c shift axis, lengths_ok L (bc_cat c) -> translate (boxcat_u s L c) (shift_u s shift) axis = result_map (boxcat_u s L) (translate c shift axis).
  Proof.
    intros c shift axis H. unfold translate. rewrite <- new_iso_scale at 1. rewrite translation_scale, iso_ok_scale, <- surjective_pairing.
    rewrite bind_map, map_bind. apply bind_ext. intros i. cbn [boxcat_u bc_cat boxcenter boxsize]. rewrite transform_vectors_scale, bind_map, map_bind by auto.
    apply bind_ext. intros c'. rewrite transform_scale. reflexivity.
  Qed.
  Lemma recenter_scale : forall c, lengths_ok L (bc_cat c) -> recenter (boxcat_u s L c) = result_map (boxcat_u s L) (recenter c).
  Proof.
    intros c H. unfold recenter. rewrite <- translate_scale by auto. f_equal. cbn [shift_u boxcat_u boxcenter]. f_equal. vring.
  Qed.
  Lemma rotate_scale : forall c a axis, lengths_ok L (bc_cat c) -> rotate (boxcat_u s L c) a axis = result_map (boxcat_u s L) (rotate c a axis).
  Proof.
    intros c a axis H. unfold rotate. cbv zeta. rewrite <- new_iso_scale at 1. rewrite rotation_scale, iso_ok_scale, <- surjective_pairing.
    rewrite bind_map, map_bind. apply bind_ext. intros i. cbn [boxcat_u bc_cat boxcenter boxsize]. rewrite transform_vectors_scale, bind_map, map_bind by auto.
    apply bind_ext. intros c'. rewrite !transform_scale. cbn [result_map]. unfold boxcat_u; cbn [bc_cat boxsize boxcenter]. do 2 f_equal.
    unfold vabs, vscale; cbn [vx vy vz]. rewrite !Rabs_mult, !(Rabs_right s) by lra. reflexivity.
  Qed.

  (** Rows kept. *)
  Lemma select_map : forall {A B} (h : A -> B) mask l, select mask (map h l) = result_map (map h) (select mask l).
  Proof. intros A B h mask. induction mask as [|b mask IH]; intros [|a l]; cbn [map select]; auto. rewrite IH. destruct (select mask l); cbn; auto. destruct b; reflexivity. Qed.
  Lemma select_col_scale : forall mask c, select_col mask (col_u s c) = result_map (col_u s) (select_col mask c).
  Proof. intros mask [l|l]; cbn [col_u select_col]; rewrite select_map; destruct (select mask l); reflexivity. Qed.
  Lemma select_data_scale : forall mask d, map_cols (fun _ x => select_col mask x) (data_u s L d) = result_map (data_u s L) (map_cols (fun _ x => select_col mask x) d).
  Proof. intros. apply map_cols_scale. intros n c _. destruct (L n); [apply select_col_scale|]. destruct (select_col mask c); reflexivity. Qed.
  Lemma select_rows_scale : forall mask c, select_rows mask (pcat_u s L c) = result_map (pcat_u s L) (select_rows mask c).
  Proof. intros. unfold select_rows. cbn [pcat_u pc_data]. rewrite select_data_scale. destruct (map_cols _ _); reflexivity. Qed.
  Lemma Rmax_scale : forall a b, Rmax (s * a) (s * b) = s * Rmax a b. Proof. intros. apply RmaxRmult. lra. Qed.
  Lemma Rmin_scale : forall a b, Rmin (s * a) (s * b) = s * Rmin a b.
  Proof. intros. unfold Rmin. destruct (Rle_dec (s * a) (s * b)) as [H|H], (Rle_dec a b) as [K|K]; auto; rewrite (le_scale s Hs) in H; contradiction. Qed.
  Lemma low_scale : forall c, boxlow (boxcat_u s L c) = vs (boxlow c). Proof. intros. unfold boxlow. cbn [boxcat_u boxcenter boxsize]. vring. Qed.
  Lemma high_scale : forall c, boxhigh (boxcat_u s L c) = vs (boxhigh c). Proof. intros. unfold boxhigh. cbn [boxcat_u boxcenter boxsize]. vring. Qed.
  Lemma subbox_scale : forall c ranges u, lengths_ok L (bc_cat c) -> subbox (boxcat_u s L c) (ranges_u s u ranges) u = result_map (boxcat_u s L) (subbox c ranges u).
  Proof.
    intros c ranges u H. unfold subbox.
    assert (E : match ranges_u s u ranges with ROne lo hi => Ok [(lo, hi); (lo, hi); (lo, hi)] | RList [] => Err IndexError | RList l => Ok l end =
      result_map (fun l => if u then l else map (range_u s) l) match ranges with ROne lo hi => Ok [(lo, hi); (lo, hi); (lo, hi)] | RList [] => Err IndexError | RList l => Ok l end).
    { unfold ranges_u. destruct u; [destruct ranges as [|[|]]; reflexivity|]. destruct ranges as [lo hi|[|r l]]; reflexivity. }
    rewrite E, bind_map, map_bind. apply bind_ext. intros l. clear E.
    destruct l as [|r0 [|r1 [|r2 [|r3 l]]]]; try (destruct u; reflexivity).
    replace (if u then [r0; r1; r2] else map (range_u s) [r0; r1; r2]) with [if u then r0 else range_u s r0; if u then r1 else range_u s r1; if u then r2 else range_u s r2] by (destruct u; reflexivity).
    rewrite low_scale, high_scale. cbv zeta.
    assert (F : forall size off r, (if u then (s * size * fst (if u then r else range_u s r) + s * off, s * size * snd (if u then r else range_u s r) + s * off) else (if u then r else range_u s r)) =
      range_u s (if u then (size * fst r + off, size * snd r + off) else r)) by (intros; destruct u; unfold range_u; cbn [fst snd]; f_equal; ring).
    cbn [boxcat_u boxsize bc_cat vscale vx vy vz]. rewrite !F. clear F.
    set (q0 := if u then (vx (boxsize c) * fst r0 + vx (boxlow c), vx (boxsize c) * snd r0 + vx (boxlow c)) else r0).
    set (q1 := if u then (vy (boxsize c) * fst r1 + vy (boxlow c), vy (boxsize c) * snd r1 + vy (boxlow c)) else r1).
    set (q2 := if u then (vz (boxsize c) * fst r2 + vz (boxlow c), vz (boxsize c) * snd r2 + vz (boxlow c)) else r2).
    rewrite position_scale, bind_map, map_bind by auto. apply bind_ext. intros pos.
    rewrite map_map. unfold range_u; cbn [fst snd].
    rewrite (map_ext _ (fun p => Rleb (fst q0) (vx p) && Rltb (vx p) (snd q0) && (Rleb (fst q1) (vy p) && Rltb (vy p) (snd q1)) && (Rleb (fst q2) (vz p) && Rltb (vz p) (snd q2))))
      by (intros p; cbn [vscale vx vy vz]; rewrite !(Rleb_scale s Hs), !(Rltb_scale s Hs); reflexivity).
    rewrite select_rows_scale, bind_map, map_bind. apply bind_ext. intros c'. cbn [result_map]. unfold boxcat_u; cbn [bc_cat boxsize boxcenter]. rewrite !Rmax_scale, !Rmin_scale.
    do 2 f_equal; vring.
  Qed.

  (** Padding. *)
  Lemma pad_shift_scale : forall size l, pad_shift (vs size) l = result_map vs (pad_shift size l).
  Proof. intros. unfold pad_shift. destruct l as [|a [|b [|c [|]]]]; cbn [result_map]; auto; f_equal; unfold vscale; cbn [vx vy vz]; f_equal; ring. Qed.
  Lemma closed_scale : forall low high p, in_closed_box (vs low) (vs high) (vs p) = in_closed_box low high p.
  Proof. intros. unfold in_closed_box. cbn [vscale vx vy vz]. rewrite !(Rleb_scale s Hs). reflexivity. Qed.
  Lemma pad_pass_scale : forall c low high l, lengths_ok L (bc_cat c) -> pad_pass (boxcat_u s L c) (vs low) (vs high) l = result_map (data_u s L) (pad_pass c low high l).
  Proof.
    intros c low high l H. unfold pad_pass. cbn [boxcat_u boxsize bc_cat pcat_u pc_data pc_vectors pc_invariants pc_position].
    rewrite pad_shift_scale, bind_map, map_bind. apply bind_ext. intros v.
    rewrite (map_cols_scale (fun n x => if mem n (pc_vectors (bc_cat c)) && negb (mem n (pc_invariants (bc_cat c))) then add_col v x else Ok x)).
    - rewrite bind_map, map_bind. apply bind_ext. intros d. destruct H as [H _]. rewrite get_vec_scale, bind_map, map_bind by auto. apply bind_ext. intros pos.
      rewrite map_map, (map_ext _ (in_closed_box low high)) by (intros; apply closed_scale). apply select_data_scale.
    - intros n x _. destruct H as [_ H]. destruct (mem n (pc_vectors (bc_cat c))) eqn:E; cbn [andb]; auto. destruct (mem n (pc_invariants (bc_cat c))) eqn:K; cbn [negb]; auto.
      rewrite (H n E K). destruct x as [xs|xs]; cbn [col_u add_col result_map]; auto. rewrite !map_map. do 2 f_equal. apply map_ext. intros; apply vscale_add.
  Qed.
  Lemma concat_data_scale : forall a b, concat_data (data_u s L a) (data_u s L b) = result_map (data_u s L) (concat_data a b).
  Proof.
    intros. unfold concat_data. apply map_cols_scale. intros n x _. rewrite lookup_scale. destruct (lookup n b) as [y|]; cbn [option_map]; auto.
    destruct (L n); [|destruct (concat_col x y); reflexivity]. destruct x, y; cbn [col_u concat_col result_map]; auto; rewrite map_app; reflexivity.
  Qed.
  Lemma pad_scale : forall c f, lengths_ok L (bc_cat c) -> pad (boxcat_u s L c) f = result_map (boxcat_u s L) (pad c f).
  Proof.
    intros c f H. unfold pad. cbv zeta.
    change (boxsize (boxcat_u s L c)) with (vs (boxsize c)). change (boxcenter (boxcat_u s L c)) with (vs (boxcenter c)). rewrite vmul_scale_l.
    rewrite !(vscale_swap (1 / 2) s), vscale_sub, vscale_add.
    rewrite pad_pass_scale, bind_map, map_bind by auto. apply bind_ext. intros d0.
    rewrite pad_pass_scale, bind_map, map_bind by auto. apply bind_ext. intros d1.
    rewrite pad_pass_scale, bind_map, map_bind by auto. apply bind_ext. intros d2.
    rewrite concat_data_scale, bind_map, map_bind. apply bind_ext. intros d01. rewrite concat_data_scale, bind_map, map_bind. apply bind_ext. intros d. reflexivity.
  Qed.

  (** Remappings. *)
  Lemma rnorm_scale : forall v, rnorm (vs v) = s * rnorm v.
  Proof.
    intros [x y z]. unfold rnorm, rsquare, rdot, vscale; cbn [vx vy vz].
    replace (0 + s * x * (s * x) + s * y * (s * y) + s * z * (s * z)) with (s ^ 2 * (0 + x * x + y * y + z * z)) by ring.
    rewrite sqrt_mult_alt by (apply pow2_ge_0). rewrite sqrt_pow2 by lra. reflexivity.
  Qed.
  Lemma cuboid_scale : forall u1 u2 u3 b, cuboid_new u1 u2 u3 (vs b) = result_map (cuboid_u s) (cuboid_new u1 u2 u3 b).
  Proof.
    intros. unfold cuboid_new. destruct (Req_EM_T (det3 u1 u2 u3) 1); [|reflexivity]. rewrite map_bind. apply bind_ext. intros [[e1 e2] e3].
    rewrite map_bind. apply bind_ext. intros n1. rewrite map_bind. apply bind_ext. intros n2. rewrite map_bind. apply bind_ext. intros n3.
    cbn [result_map]. cbv zeta. rewrite !vmul_scale_l, !rnorm_scale. unfold cuboid_u; cbn [cu_boxsize cu_n1 cu_n2 cu_n3 cu_resize cu_size cu_cells]. f_equal.
    unfold vscale; cbn [vx vy vz]. f_equal; f_equal; ring.
  Qed.
  Lemma remap_cuboid_scale : forall b a, remap_cuboid (vs b) (remap_u s a) = result_map (cuboid_u s) (remap_cuboid b a).
  Proof. intros b [c|[|u1 [|u2 [|u3 [|]]]]]; cbn [remap_u remap_cuboid result_map]; auto; apply cuboid_scale. Qed.
  Lemma fdiv_scale : forall a b, fdiv (s * a) (s * b) = fdiv a b.
  Proof.
    intros. unfold fdiv. pose proof (s_neq s Hs) as Ns. rewrite (ratio_scale s Hs).
    destruct (Req_EM_T (s * b) 0) as [H|H], (Req_EM_T b 0) as [K|K]; auto. apply Rmult_integral in H; tauto. rewrite K, Rmult_0_r in H; lra.
  Qed.
  Lemma vdiv_result_scale : forall a b, vdiv_result (vs a) (vs b) = vdiv_result a b.
  Proof. intros. unfold vdiv_result. cbn [vscale vx vy vz]. rewrite !fdiv_scale. reflexivity. Qed.
  Lemma project_linear : forall c t x, project c (vscale t x) = vscale t (project c x).
  Proof. intros. unfold project, rdot, vscale; cbn [vx vy vz]. f_equal; ring. Qed.
  Lemma cu_transform1_scale : forall c ti x, cu_transform1 (cuboid_u s c) ti (vs x) = result_map vs (cu_transform1 c ti x).
  Proof.
    intros. unfold cu_transform1. change (project (cuboid_u s c)) with (project c). destruct ti; cbn [result_map]; [rewrite project_linear; reflexivity|].
    cbn [cuboid_u cu_boxsize cu_cells cu_resize]. rewrite vdiv_result_scale, map_bind. apply bind_ext. intros p. destruct (loop_cells (cu_cells c) p) as [[|] q]; cbn [result_map]; auto.
    rewrite vmul_scale. reflexivity.
  Qed.
  Lemma cu_inverse1_scale : forall c ti x, cu_inverse1 (cuboid_u s c) ti (vs x) = result_map vs (cu_inverse1 c ti x).
  Proof.
    intros. unfold cu_inverse1. change (combine3 (cuboid_u s c)) with (combine3 c). destruct ti; cbn [result_map].
    - f_equal. unfold combine3, vscale, vadd, vzero; cbn [vx vy vz]. f_equal; ring.
    - cbn [cuboid_u cu_boxsize cu_cells cu_resize]. rewrite vdiv_result_scale, map_bind. apply bind_ext. intros p. cbn [result_map]. rewrite vmul_scale. reflexivity.
  Qed.
  Lemma cu_transform_scale : forall c ti l, cu_transform (cuboid_u s c) ti (map vs l) = result_map (map vs) (cu_transform c ti l).
  Proof. intros. unfold cu_transform. apply map_result_map. intros; apply cu_transform1_scale. Qed.
  Lemma remap_scale : forall c a, lengths_ok L (bc_cat c) -> remap (boxcat_u s L c) (remap_u s a) = result_map (boxcat_u s L) (remap c a).
  Proof.
    intros c a [_ H]. unfold remap. change (boxsize (boxcat_u s L c)) with (vs (boxsize c)). change (boxcenter (boxcat_u s L c)) with (vs (boxcenter c)).
    rewrite remap_cuboid_scale, bind_map, map_bind. apply bind_ext. intros k. cbv zeta. cbn [cuboid_u cu_size boxcat_u bc_cat pcat_u pc_data pc_vectors pc_invariants pc_position pc_velocity].
    rewrite !(vscale_swap (1 / 2) s), !vscale_sub. fold (cuboid_u s k).
    set (off := vsub (boxcenter c) (vscale (1 / 2) (boxsize c))). set (coff := vsub (boxcenter c) (vscale (1 / 2) (cu_size k))).
    rewrite (map_cols_scale (fun n x => if mem n (pc_vectors (bc_cat c)) then remap_col k off coff (mem n (pc_invariants (bc_cat c))) x else Ok x)).
    - destruct (map_cols _ _); reflexivity.
    - intros n x _. destruct (mem n (pc_vectors (bc_cat c))) eqn:E; auto. destruct (mem n (pc_invariants (bc_cat c))) eqn:K.
      + destruct (L n); destruct x as [l|l]; cbn [col_u remap_col result_map]; auto.
        * rewrite cu_transform_scale. destruct (cu_transform k true l); reflexivity.
        * unfold cu_transform. assert (E1 : map_result (cu_transform1 (cuboid_u s k) true) l = map_result (cu_transform1 k true) l) by reflexivity. rewrite E1.
          destruct (map_result _ l); reflexivity.
      + rewrite (H n E K). destruct x as [l|l]; cbn [col_u remap_col result_map]; auto.
        rewrite map_map, (map_ext _ (fun x => vs (vsub x off))) by (intros; apply vscale_sub). rewrite <- (map_map (fun x => vsub x off) vs), cu_transform_scale, bind_map, map_bind.
        apply bind_ext. intros l'. cbn [result_map col_u]. rewrite !map_map. do 2 f_equal. apply map_ext. intros; apply vscale_add.
  Qed.

  (** Sequences of calls. *)
  Lemma box_step_scale : forall c o, lengths_ok L (bc_cat c) -> box_step (boxcat_u s L c) (box_call_u s o) = result_map (boxcat_u s L) (box_step c o).
  Proof.
    intros c [] H; cbn [box_call_u box_step]; [apply translate_scale|apply recenter_scale|apply rotate_scale|apply subbox_scale|apply pad_scale|apply remap_scale]; auto.
  Qed.
  Lemma lengths_step : forall c o c', lengths_ok L (bc_cat c) -> box_step c o = Ok c' -> lengths_ok L (bc_cat c').
  Proof.
    intros c o c' H E.
    assert (T : forall i x x', lengths_ok L x -> transform_vectors i x = Ok x' -> lengths_ok L x') by (intros; eapply lengths_transform; eauto).
    destruct o; cbn [box_step] in E.
    - unfold translate in E. destruct (iso_ok _); cbn [bind] in E; [|discriminate]. destruct (transform_vectors _ _) eqn:F; cbn [bind] in E; inversion E; subst. eapply T; eauto.
    - unfold recenter, translate in E. destruct (iso_ok _); cbn [bind] in E; [|discriminate]. destruct (transform_vectors _ _) eqn:F; cbn [bind] in E; inversion E; subst. eapply T; eauto.
    - unfold rotate in E. destruct (iso_ok _); cbn [bind] in E; [|discriminate]. destruct (transform_vectors _ _) eqn:F; cbn [bind] in E; inversion E; subst. eapply T; eauto.
    - unfold subbox in E. destruct (match ranges with ROne lo hi => _ | RList l => _ end) as [l|]; cbn [bind] in E; [|discriminate].
      destruct l as [|r0 [|r1 [|r2 [|]]]]; try discriminate. destruct (position _); cbn [bind] in E; [|discriminate].
      destruct (select_rows _ _) eqn:F; cbn [bind] in E; inversion E; subst. cbn [bc_cat]. unfold select_rows in F. destruct (map_cols _ _); inversion F; subst. exact H.
    - unfold pad in E. repeat match type of E with context [do _ <- ?e; _] => destruct e; cbn [bind] in E; [|discriminate] end. inversion E; subst. exact H.
    - unfold remap in E. repeat match type of E with context [do _ <- ?e; _] => destruct e; cbn [bind] in E; [|discriminate] end. inversion E; subst. exact H.
  Qed.
  Lemma box_run_scale : forall l c, lengths_ok L (bc_cat c) -> box_run (boxcat_u s L c) (map (box_call_u s) l) = result_map (boxcat_u s L) (box_run c l).
  Proof.
    intros l. induction l as [|o l IH]; intros c H; cbn [map box_run]; auto. rewrite box_step_scale by auto.
    destruct (box_step c o) as [c'|e] eqn:E; cbn [bind result_map]; auto. apply IH. eapply lengths_step; eauto.
  Qed.

  (** Redshift space distortions. *)
  Lemma rsd_scale : forall c f los, lengths_ok L c -> L (pc_velocity c) = true -> rsd_position (pcat_u s L c) (factor_u s f) los = result_map (map vs) (rsd_position c f los).
  Proof.
    intros c f los H V. unfold rsd_position. rewrite position_scale, bind_map, map_bind by auto. apply bind_ext. intros pos.
    change (velocity (pcat_u s L c)) with (get_vec (pc_velocity c) (data_u s L (pc_data c))). rewrite get_vec_scale by auto. fold (velocity c).
    destruct (velocity c) as [vel|e] eqn:E; cbn [bind result_map].
    - pose proof (lagrangian_scale s Hs pos vel f los) as K. unfold lagrangian_set_rsd in K. exact K.
    - rewrite (map_result_map local_los local_los vs (fun x => x)) by (intros a; rewrite (local_los_scale s Hs), result_map_id; auto).
      rewrite (result_map_id (map (fun x : vec => x))) by (intros; apply map_id). destruct (match los with Some a => _ | None => _ end); reflexivity.
  Qed.

  (** Cut skies. *)
  Lemma fdiv_out : forall a b, fdiv (s * a) b = result_map (Rmult s) (fdiv a b).
  Proof. intros. unfold fdiv. destruct (Req_EM_T b 0); cbn; auto. f_equal. unfold Rdiv; ring. Qed.
  Lemma half_scale : forall b, s * b / 2 = s * (b / 2). Proof. intros; lra. Qed.
  Lemma lt1_scale : forall a b (P Q : result (R * R)), (if Rlt_dec (s * a) (s * b) then P else Q) = (if Rlt_dec a b then P else Q).
  Proof. intros. destruct (Rlt_dec (s * a) (s * b)) as [H|H], (Rlt_dec a b) as [K|K]; auto; rewrite (lt_scale s Hs) in H; contradiction. Qed.
  Lemma inside_scale : forall b1 b2 dx dmax, btc_inside (s * b1) (s * b2) (s * dx) (s * dmax) = btc_inside b1 b2 dx dmax.
  Proof. intros. unfold btc_inside. rewrite !half_scale, !fdiv_scale, Rabs_mult, (Rabs_right s), fdiv_scale by lra. reflexivity. Qed.
  Lemma inside_zero : forall b1 b2 dx dmax r, btc_inside b1 b2 dx dmax = Ok r -> fst (fst r) = 0.
  Proof.
    intros b1 b2 dx dmax r E. unfold btc_inside in E.
    destruct (fdiv (b1 / 2) dmax); cbn [bind] in E; [|discriminate]. destruct (fdiv (b2 / 2) dmax); cbn [bind] in E; [|discriminate]. destruct (Rlt_dec _ 1).
    - repeat match type of E with context [do _ <- ?e; _] => destruct e; cbn [bind] in E; [|discriminate] end. inversion E; reflexivity.
    - destruct (fdiv (Rabs dx) dmax); cbn [bind] in E; [|discriminate].
      destruct (if Rlt_dec _ 1 then _ else Ok PI); cbn [bind] in E; [|discriminate]. destruct (if Rlt_dec _ 1 then _ else _); cbn [bind] in E; [|discriminate]. inversion E; reflexivity.
  Qed.
  Lemma outside_scale : forall b1 b2 dx dmax dmin, btc_outside (s * b1) (s * b2) (s * dx) (s * dmax) (s * dmin) =
    result_map (fun r => (s * fst (fst r), snd (fst r), snd r)) (btc_outside b1 b2 dx dmax dmin).
  Proof.
    intros. unfold btc_outside. rewrite !half_scale.
    replace (sqrt ((s * dx) ^ 2 + (s * (b1 / 2)) ^ 2)) with (s * sqrt (dx ^ 2 + (b1 / 2) ^ 2)).
    2: { replace ((s * dx) ^ 2 + (s * (b1 / 2)) ^ 2) with (s ^ 2 * (dx ^ 2 + (b1 / 2) ^ 2)) by ring. rewrite sqrt_mult_alt by (apply pow2_ge_0). rewrite sqrt_pow2 by lra. reflexivity. }
    rewrite !lt1_scale, !fdiv_scale.
    assert (E : (if Rlt_dec (sqrt (dx ^ 2 + (b1 / 2) ^ 2)) dmax then do q <- fdiv (b1 / 2) dmax; do a <- np_arcsin q; do m <- fdiv (s * dx) (cos a); Ok (m, a)
       else if Rlt_dec dmin dx then Err ValueError else do q <- fdiv dx dmin; do a <- np_arccos q; Ok (s * dmin, a)) =
      result_map (fun r => (s * fst r, snd r)) (if Rlt_dec (sqrt (dx ^ 2 + (b1 / 2) ^ 2)) dmax then do q <- fdiv (b1 / 2) dmax; do a <- np_arcsin q; do m <- fdiv dx (cos a); Ok (m, a)
       else if Rlt_dec dmin dx then Err ValueError else do q <- fdiv dx dmin; do a <- np_arccos q; Ok (dmin, a))).
    { destruct (Rlt_dec _ dmax).
      - rewrite map_bind. apply bind_ext. intros q. rewrite map_bind. apply bind_ext. intros a. rewrite fdiv_out, bind_map, map_bind. apply bind_ext. reflexivity.
      - destruct (Rlt_dec dmin dx); auto. rewrite map_bind. apply bind_ext. intros q. rewrite map_bind. apply bind_ext. reflexivity. }
    rewrite E, bind_map, map_bind. apply bind_ext. intros [m d0]. cbn [fst snd]. rewrite map_bind. apply bind_ext. intros q. rewrite map_bind. apply bind_ext. intros t.
    rewrite fdiv_scale, map_bind. apply bind_ext. intros q'. rewrite map_bind. apply bind_ext. reflexivity.
  Qed.
  Lemma box_to_cutsky_scale : forall b dmax dmin, box_to_cutsky (vs b) (s * dmax) (s * dmin) = result_map (fun r => (range_u s (fst (fst r)), snd (fst r), snd r)) (box_to_cutsky b dmax dmin).
  Proof.
    intros. unfold box_to_cutsky. cbn [vscale vx vy vz]. rewrite (Rltb_scale s Hs). cbv zeta.
    replace (s * dmax - s * vx b) with (s * (dmax - vx b)) by ring.
    replace (if Rltb (vy b) (vz b) then s * vz b else s * vy b) with (s * (if Rltb (vy b) (vz b) then vz b else vy b)) by (destruct (Rltb _ _); reflexivity).
    replace (if Rltb (vy b) (vz b) then s * vy b else s * vz b) with (s * (if Rltb (vy b) (vz b) then vy b else vz b)) by (destruct (Rltb _ _); reflexivity).
    set (b1 := if Rltb (vy b) (vz b) then vz b else vy b). set (b2 := if Rltb (vy b) (vz b) then vy b else vz b).
    assert (E : (if Rle_dec (s * (dmax - vx b)) 0 then btc_inside (s * b1) (s * b2) (s * (dmax - vx b)) (s * dmax) else btc_outside (s * b1) (s * b2) (s * (dmax - vx b)) (s * dmax) (s * dmin)) =
      result_map (fun r => (s * fst (fst r), snd (fst r), snd r)) (if Rle_dec (dmax - vx b) 0 then btc_inside b1 b2 (dmax - vx b) dmax else btc_outside b1 b2 (dmax - vx b) dmax dmin)).
    { destruct (Rle_dec (s * (dmax - vx b)) 0) as [H|H], (Rle_dec (dmax - vx b) 0) as [K|K]; try (exfalso; rewrite <- (Rmult_0_r s), (le_scale s Hs) in H; contradiction).
      - rewrite inside_scale. destruct (btc_inside b1 b2 (dmax - vx b) dmax) as [r|e] eqn:E; cbn [result_map]; auto. pose proof (inside_zero _ _ _ _ _ E) as Z.
        destruct r as [[m d0] d1]; cbn [fst snd] in *. subst m. rewrite Rmult_0_r. reflexivity.
      - apply outside_scale. }
    rewrite E, bind_map, map_bind. apply bind_ext. intros [[m d0] d1]. cbn [fst snd]. destruct (Rltb (vy b) (vz b)); reflexivity.
  Qed.
  Lemma ctb_boxsize_scale : forall d ra dec, ctb_boxsize (range_u s d) ra dec = vs (ctb_boxsize d ra dec).
  Proof. intros. unfold ctb_boxsize, range_u, vscale; cbn [fst snd vx vy vz]. f_equal; ring. Qed.
  Lemma iso_then_scale : forall i r k k', (forall i, k' (iso_u s i) = (iso_u s (fst (k i)), snd (k i))) ->
    iso_then (iso_u s i, r) k' = (iso_u s (fst (iso_then (i, r) k)), snd (iso_then (i, r) k)).
  Proof. intros i [u|e] k k' H; cbn [iso_then]; auto. Qed.
  Lemma cutsky_to_box_scale : forall d ra dec, cutsky_to_box (range_u s d) ra dec = result_map (fun r => (vs (fst r), iso_u s (snd r))) (cutsky_to_box d ra dec).
  Proof.
    intros. unfold cutsky_to_box. rewrite ctb_boxsize_scale. cbv zeta.
    replace (ShScalar (snd (range_u s d) - vx (vs (ctb_boxsize d ra dec)) / 2)) with (shift_u s (ShScalar (snd d - vx (ctb_boxsize d ra dec) / 2)))
      by (cbn [shift_u range_u snd vscale vx]; f_equal; lra).
    rewrite <- new_iso_scale at 1. rewrite translation_scale. destruct (iso_translation iso_new (ShScalar (snd d - vx (ctb_boxsize d ra dec) / 2)) (AxStr "x") "origin") as [i r]. cbn [fst snd].
    rewrite (iso_then_scale i r (fun i => iso_rotation i (- (fst dec + snd dec) / 2) (AxStr "y") true "origin")) by (intros; apply rotation_scale).
    destruct (iso_then (i, r) _) as [i1 r1]. cbn [fst snd].
    rewrite (iso_then_scale i1 r1 (fun i => iso_rotation i ((fst (ctb_rarange ra) + snd (ctb_rarange ra)) / 2) (AxStr "z") true "origin")) by (intros; apply rotation_scale).
    destruct (iso_then (i1, r1) _) as [i2 [u|e]]; reflexivity.
  Qed.
End Proof.
