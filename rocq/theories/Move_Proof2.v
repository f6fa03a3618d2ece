(** A box somewhere else: catalogs. *)
Require Import Reals Lra Lia ZArith String List Bool FunctionalExtensionality.
From Verif Require Import Base Vec3 Isometry_Model Sky_Model Cutsky_Model Box_Model Rsd_Model Mock_Model Mesh_Model Remap_Model Unit_Spec Unit_Proof2 Move_Spec Move_Proof.
Import ListNotations.
Open Scope R_scope.

Ltac mring := unfold moved, vadd, vsub, vscale, vopp; cbn [vx vy vz]; f_equal; ring.
Lemma map_cols_two : forall f f' h h' d, (forall n c, In (n, c) d -> f' n (h n c) = result_map (h' n) (f n c)) ->
  map_cols f' (map (fun x => (fst x, h (fst x) (snd x))) d) = result_map (map (fun x : string * col => (fst x, h' (fst x) (snd x)))) (map_cols f d).
Proof.
  intros f f' h h' d. induction d as [|[n c] d IH]; intros H; cbn [map map_cols fst snd]; auto. rewrite H by (left; auto).
  destruct (f n c) as [c'|e]; cbn [bind result_map]; auto. rewrite IH by (intros; apply H; right; auto). destruct (map_cols f d); reflexivity.
Qed.
Definition col_at (c : pcat) (t : vec) (n : string) (x : col) : col := if moves c n then col_m t x else x.
Lemma data_at : forall c t d, data_m t (moves c) d = map (fun x => (fst x, col_at c t (fst x) (snd x))) d. Proof. reflexivity. Qed.
Lemma lookup_move : forall t ms n d, lookup n (data_m t ms d) = option_map (fun c => if ms n then col_m t c else c) (lookup n d).
Proof. intros t ms n d. induction d as [|[m c] d IH]; cbn [data_m map lookup fst snd]; auto. destruct (String.eqb_spec n m) as [->|]; auto. Qed.
Lemma get_vec_move : forall t ms n d, ms n = true -> get_vec n (data_m t ms d) = result_map (map (moved t)) (get_vec n d).
Proof. intros t ms n d H. unfold get_vec. rewrite lookup_move, H. destruct (lookup n d) as [[l|l]|]; reflexivity. Qed.
Lemma get_vec_still : forall t ms n d, ms n = false -> get_vec n (data_m t ms d) = get_vec n d.
Proof. intros t ms n d H. unfold get_vec. rewrite lookup_move, H. destruct (lookup n d) as [[l|l]|]; reflexivity. Qed.
Lemma moves_position : forall c, moves_ok c -> moves c (pc_position c) = true.
Proof. intros c (A & B & _). unfold moves. rewrite A, B. reflexivity. Qed.
Lemma position_move : forall t c, moves_ok c -> position (pcat_m t c) = result_map (map (moved t)) (position c).
Proof. intros t c H. unfold position. cbn [pcat_m pc_position pc_data]. apply get_vec_move, moves_position; auto. Qed.
Lemma velocity_still : forall t c, moves_ok c -> velocity (pcat_m t c) = velocity c.
Proof. intros t c (_ & _ & H). unfold velocity. cbn [pcat_m pc_velocity pc_data]. apply get_vec_still. unfold moves. rewrite H. apply andb_false_r. Qed.
Lemma moved_zero : forall p, moved vzero p = p. Proof. intros [x y z]. unfold moved, vadd, vzero; cbn. f_equal; ring. Qed.

(** An isometry: points moved by [t] are moved by [rot t] after it. *)
Lemma transform_move : forall s t p, transform s false (moved t p) = moved (transform s true t) (transform s false p).
Proof. intros s t p. unfold transform, tensordot1, moved. destruct s as [r a]. cbn [rot tra]. revert r a t p. vring. Qed.
Lemma transform_vectors_move : forall s t c, transform_vectors s (pcat_m t c) = result_map (pcat_m (transform s true t)) (transform_vectors s c).
Proof.
  intros s t c. unfold transform_vectors. cbn [pcat_m pc_data pc_vectors pc_invariants pc_position pc_velocity]. rewrite data_at.
  rewrite (map_cols_two (fun n x => if mem n (pc_vectors c) then transform_col s (mem n (pc_invariants c)) x else Ok x) _ _ (fun n x => col_at c (transform s true t) n x)).
  - destruct (map_cols _ (pc_data c)); reflexivity.
  - intros n x _. unfold col_at, moves. destruct (mem n (pc_vectors c)); cbn [andb]; [|reflexivity]. destruct (mem n (pc_invariants c)); cbn [negb result_map].
    + destruct (transform_col s true x); reflexivity.
    + destruct x as [l|l]; cbn [col_m transform_col result_map]; auto. unfold transform_all. rewrite !map_map. do 2 f_equal. apply map_ext. intros; apply transform_move.
Qed.
Lemma mapply_mid : forall v, mapply mid v = v. Proof. vring. Qed.
Lemma translation_rot : forall shift axis s, iso_ok (iso_translation iso_new shift axis "origin") = Ok s -> rot s = mid.
Proof. intros shift axis s H. unfold iso_translation in H. destruct (shift_vector shift axis); cbn in H; [|discriminate]. injection H as <-. reflexivity. Qed.
Lemma translate_move : forall t c shift axis, translate (boxcat_m t c) shift axis = result_map (boxcat_m t) (translate c shift axis).
Proof.
  intros t c shift axis. unfold translate. destruct (iso_ok _) as [s|e] eqn:E; cbn [bind result_map]; auto. apply translation_rot in E.
  assert (K : transform s true t = t) by (unfold transform, tensordot1; rewrite E; apply mapply_mid).
  cbn [boxcat_m bc_cat boxsize boxcenter]. rewrite transform_move, transform_vectors_move, K. destruct (transform_vectors s (bc_cat c)); reflexivity.
Qed.
Lemma translation_vec : forall v, iso_ok (iso_translation iso_new (ShVec v) AxNone "origin") = Ok (Iso mid v).
Proof. intros v. unfold iso_translation. cbn [shift_vector]. change (String.eqb "origin" "current") with false. change (String.eqb "origin" "origin") with true. cbn [iso_ok iso_new rot tra].
  apply (f_equal Ok), (f_equal (Iso mid)). cbn [make_array3]. destruct v as [x y z]. unfold vadd, vzero; cbn [vx vy vz]. f_equal; ring. Qed.
Lemma transform_mid : forall v p, transform (Iso mid v) false p = vadd p v. Proof. intros. unfold transform, tensordot1; cbn [rot tra]. rewrite mapply_mid. reflexivity. Qed.
Lemma transform_mid_ti : forall v p, transform (Iso mid v) true p = p. Proof. intros. unfold transform, tensordot1; cbn [rot tra]. apply mapply_mid. Qed.
(** A move undone by an isometry. *)
Lemma transform_vectors_undo : forall s s' t c, rot s' = rot s -> (forall p, transform s' false (moved t p) = transform s false p) ->
  transform_vectors s' (pcat_m t c) = transform_vectors s c.
Proof.
  intros s s' t c R H. unfold transform_vectors. cbn [pcat_m pc_data pc_vectors pc_invariants pc_position pc_velocity]. rewrite data_at.
  rewrite (map_cols_two (fun n x => if mem n (pc_vectors c) then transform_col s (mem n (pc_invariants c)) x else Ok x) _ _ (fun n x => x)).
  - destruct (map_cols _ (pc_data c)) as [d|]; cbn [result_map bind]; auto. do 2 f_equal. rewrite <- (map_id d) at 2. apply map_ext. intros []; reflexivity.
  - intros n x _. unfold col_at, moves. destruct (mem n (pc_vectors c)); cbn [andb]; [|reflexivity]. destruct (mem n (pc_invariants c)); cbn [negb].
    + destruct x as [l|l]; cbn [transform_col result_map]; auto. do 2 f_equal. unfold transform_all. apply map_ext. intros p. unfold transform. rewrite R. reflexivity.
    + destruct x as [l|l]; cbn [col_m transform_col result_map]; auto. unfold transform_all. rewrite !map_map. do 2 f_equal. apply map_ext. auto.
Qed.
Lemma boxcat_zero : forall c, boxcat_m vzero c = c.
Proof.
  intros [[d p v vs is] b c]. unfold boxcat_m, pcat_m; cbn [bc_cat boxsize boxcenter pc_data pc_position pc_velocity pc_vectors pc_invariants]. rewrite moved_zero. f_equal. f_equal.
  unfold data_m. rewrite <- (map_id d) at 2. apply map_ext. intros [n x]; cbn [fst snd]. destruct (moves _ n); auto. f_equal. destruct x as [l|l]; cbn [col_m]; auto. f_equal.
  rewrite <- (map_id l) at 2. apply map_ext. apply moved_zero.
Qed.
Lemma recenter_move : forall t c, recenter (boxcat_m t c) = recenter c.
Proof.
  intros t c. unfold recenter, translate. rewrite !translation_vec. cbn [bind boxcat_m boxcenter bc_cat boxsize]. rewrite !transform_mid.
  rewrite (transform_vectors_undo (Iso mid (vopp (boxcenter c))) (Iso mid (vopp (moved t (boxcenter c)))) t); [|reflexivity|].
  - destruct (transform_vectors _ _); cbn [bind]; auto. do 2 f_equal. mring.
  - intros p. rewrite !transform_mid. mring.
Qed.
Lemma rotate_move : forall t c a axis, rotate (boxcat_m t c) a axis = result_map (boxcat_m (turned a axis t)) (rotate c a axis).
Proof.
  intros t c a axis. unfold rotate, turned. destruct (iso_rotation iso_new (IZR a * PI / 2) axis false "origin") as [s [u|e]]; cbn [iso_ok bind result_map]; auto.
  cbn [boxcat_m bc_cat boxsize boxcenter]. rewrite transform_move, transform_vectors_move. destruct (transform_vectors s (bc_cat c)); reflexivity.
Qed.

(** Cuts. *)
Lemma select_map : forall {A B} (f : A -> B) mask l, select mask (map f l) = result_map (map f) (select mask l).
Proof. induction mask as [|b mask IH]; intros [|a l]; cbn [map select result_map]; auto. rewrite IH. destruct (select mask l); cbn [bind result_map]; auto. destruct b; reflexivity. Qed.
Lemma select_col_move : forall t mask x, select_col mask (col_m t x) = result_map (col_m t) (select_col mask x).
Proof. intros t mask [l|l]; cbn [select_col col_m]; [rewrite select_map|]; destruct (select mask l); reflexivity. Qed.
Lemma select_data_move : forall c t mask d, map_cols (fun _ x => select_col mask x) (data_m t (moves c) d) = result_map (data_m t (moves c)) (map_cols (fun _ x => select_col mask x) d).
Proof. intros c t mask d. rewrite data_at. apply (map_cols_two _ _ (col_at c t) (col_at c t)). intros n x _. unfold col_at. destruct (moves c n); [apply select_col_move|destruct (select_col mask x); reflexivity]. Qed.
Lemma select_rows_move : forall t mask c, select_rows mask (pcat_m t c) = result_map (pcat_m t) (select_rows mask c).
Proof. intros t mask c. unfold select_rows. cbn [pcat_m pc_data pc_vectors pc_invariants pc_position pc_velocity]. rewrite select_data_move. destruct (map_cols _ (pc_data c)); reflexivity. Qed.
Lemma Rleb_add : forall a b u, Rleb (a + u) (b + u) = Rleb a b. Proof. intros. unfold Rleb. destruct (Rle_dec (a + u) (b + u)), (Rle_dec a b); auto; lra. Qed.
Lemma Rltb_add : forall a b u, Rltb (a + u) (b + u) = Rltb a b. Proof. intros. unfold Rltb. destruct (Rlt_dec (a + u) (b + u)), (Rlt_dec a b); auto; lra. Qed.
Lemma Rmax_add : forall a b u, Rmax (a + u) (b + u) = Rmax a b + u. Proof. intros. unfold Rmax. destruct (Rle_dec (a + u) (b + u)), (Rle_dec a b); lra. Qed.
Lemma Rmin_add : forall a b u, Rmin (a + u) (b + u) = Rmin a b + u. Proof. intros. unfold Rmin. destruct (Rle_dec (a + u) (b + u)), (Rle_dec a b); lra. Qed.
Lemma low_move : forall t c, boxlow (boxcat_m t c) = moved t (boxlow c). Proof. intros. unfold boxlow; cbn [boxcat_m boxcenter boxsize]. mring. Qed.
Lemma high_move : forall t c, boxhigh (boxcat_m t c) = moved t (boxhigh c). Proof. intros. unfold boxhigh; cbn [boxcat_m boxcenter boxsize]. mring. Qed.
Lemma subbox_move : forall t c ranges u, moves_ok (bc_cat c) -> subbox (boxcat_m t c) (ranges_m t u ranges) u = result_map (boxcat_m t) (subbox c ranges u).
Proof.
  intros t c ranges u H. unfold subbox.
  set (mvr := fun l : list (R * R) => match l with [r0; r1; r2] => [limits_m (vx t) r0; limits_m (vy t) r1; limits_m (vz t) r2] | l => l end).
  assert (E : match ranges_m t u ranges with ROne lo hi => Ok [(lo, hi); (lo, hi); (lo, hi)] | RList [] => Err IndexError | RList l => Ok l end =
    result_map (fun l => if u then l else mvr l) match ranges with ROne lo hi => Ok [(lo, hi); (lo, hi); (lo, hi)] | RList [] => Err IndexError | RList l => Ok l end).
  { unfold ranges_m. destruct u; [destruct ranges as [|[|]]; reflexivity|]. destruct ranges as [lo hi|[|r0 [|r1 [|r2 [|r3 l]]]]]; reflexivity. }
  rewrite E, bind_map, map_bind. apply bind_ext. intros l. clear E.
  destruct l as [|r0 [|r1 [|r2 [|r3 l]]]]; try (destruct u; reflexivity).
  replace (if u then [r0; r1; r2] else mvr [r0; r1; r2]) with [if u then r0 else limits_m (vx t) r0; if u then r1 else limits_m (vy t) r1; if u then r2 else limits_m (vz t) r2] by (destruct u; reflexivity).
  rewrite low_move, high_move. cbv zeta.
  assert (F : forall a size off r, (if u then (size * fst (if u then r else limits_m a r) + (off + a), size * snd (if u then r else limits_m a r) + (off + a)) else (if u then r else limits_m a r)) =
    limits_m a (if u then (size * fst r + off, size * snd r + off) else r)) by (intros; destruct u; unfold limits_m; cbn [fst snd]; f_equal; ring).
  change (vx (moved t (boxlow c))) with (vx (boxlow c) + vx t). change (vy (moved t (boxlow c))) with (vy (boxlow c) + vy t). change (vz (moved t (boxlow c))) with (vz (boxlow c) + vz t).
  change (vx (moved t (boxhigh c))) with (vx (boxhigh c) + vx t). change (vy (moved t (boxhigh c))) with (vy (boxhigh c) + vy t). change (vz (moved t (boxhigh c))) with (vz (boxhigh c) + vz t).
  cbn [boxcat_m boxsize bc_cat]. rewrite !F. clear F.
  set (q0 := if u then (vx (boxsize c) * fst r0 + vx (boxlow c), vx (boxsize c) * snd r0 + vx (boxlow c)) else r0).
  set (q1 := if u then (vy (boxsize c) * fst r1 + vy (boxlow c), vy (boxsize c) * snd r1 + vy (boxlow c)) else r1).
  set (q2 := if u then (vz (boxsize c) * fst r2 + vz (boxlow c), vz (boxsize c) * snd r2 + vz (boxlow c)) else r2).
  rewrite position_move, bind_map, map_bind by auto. apply bind_ext. intros pos.
  rewrite map_map. unfold limits_m; cbn [fst snd].
  rewrite (map_ext _ (fun p => Rleb (fst q0) (vx p) && Rltb (vx p) (snd q0) && (Rleb (fst q1) (vy p) && Rltb (vy p) (snd q1)) && (Rleb (fst q2) (vz p) && Rltb (vz p) (snd q2))))
    by (intros p; cbn [moved vadd vx vy vz]; rewrite !Rleb_add, !Rltb_add; reflexivity).
  rewrite select_rows_move, bind_map, map_bind. apply bind_ext. intros c'. cbn [result_map]. unfold boxcat_m; cbn [bc_cat boxsize boxcenter]. rewrite !Rmax_add, !Rmin_add.
  apply (f_equal Ok). f_equal; unfold moved, vsub, vadd, vscale; cbn [vx vy vz]; f_equal; field.
Qed.
Lemma inside_move : forall t low high p, in_closed_box (moved t low) (moved t high) (moved t p) = in_closed_box low high p.
Proof. intros. unfold in_closed_box. cbn [moved vadd vx vy vz]. rewrite !Rleb_add. reflexivity. Qed.
Lemma pad_pass_move : forall t c low high shift, moves_ok (bc_cat c) -> pad_pass (boxcat_m t c) (moved t low) (moved t high) shift = result_map (data_m t (moves (bc_cat c))) (pad_pass c low high shift).
Proof.
  intros t c low high shift H. unfold pad_pass. cbn [boxcat_m bc_cat boxsize pcat_m pc_data pc_vectors pc_invariants pc_position]. rewrite map_bind. apply bind_ext. intros v.
  rewrite data_at, (map_cols_two (fun n x => if mem n (pc_vectors (bc_cat c)) && negb (mem n (pc_invariants (bc_cat c))) then add_col v x else Ok x) _ _ (fun n x => col_at (bc_cat c) t n x)).
  - rewrite bind_map, map_bind. apply bind_ext. intros d. rewrite <- (data_at (bc_cat c) t d). rewrite get_vec_move by (apply moves_position; auto).
    rewrite bind_map, map_bind. apply bind_ext. intros pos. rewrite map_map, (map_ext _ (in_closed_box low high)) by (intros; apply inside_move). apply select_data_move.
  - intros n x _. unfold col_at, moves. destruct (mem n (pc_vectors (bc_cat c)) && negb (mem n (pc_invariants (bc_cat c)))); [|reflexivity].
    destruct x as [l|l]; cbn [col_m add_col result_map]; auto. rewrite !map_map. do 2 f_equal. apply map_ext. intros; mring.
Qed.
Lemma concat_data_move : forall c t a b, concat_data (data_m t (moves c) a) (data_m t (moves c) b) = result_map (data_m t (moves c)) (concat_data a b).
Proof.
  intros c t a b. unfold concat_data. rewrite (data_at c t a). apply (map_cols_two _ _ (col_at c t) (col_at c t)). intros n x _. rewrite lookup_move. destruct (lookup n b) as [y|]; cbn [option_map]; auto. unfold col_at.
  destruct (moves c n); [|destruct (concat_col x y); reflexivity]. destruct x, y; cbn [col_m concat_col result_map]; auto. rewrite map_app. reflexivity.
Qed.
Lemma pad_move : forall t c f, moves_ok (bc_cat c) -> pad (boxcat_m t c) f = result_map (boxcat_m t) (pad c f).
Proof.
  intros t c f H. unfold pad. cbv zeta. change (boxsize (boxcat_m t c)) with (boxsize c). change (boxcenter (boxcat_m t c)) with (moved t (boxcenter c)).
  set (h := vscale (1 / 2) (vmul (boxsize c) f)).
  replace (vsub (moved t (boxcenter c)) h) with (moved t (vsub (boxcenter c) h)) by mring. replace (vadd (moved t (boxcenter c)) h) with (moved t (vadd (boxcenter c) h)) by mring.
  rewrite pad_pass_move, bind_map, map_bind by auto. apply bind_ext. intros d0.
  rewrite pad_pass_move, bind_map, map_bind by auto. apply bind_ext. intros d1.
  rewrite pad_pass_move, bind_map, map_bind by auto. apply bind_ext. intros d2.
  rewrite concat_data_move, bind_map, map_bind. apply bind_ext. intros d01. rewrite concat_data_move, bind_map, map_bind. apply bind_ext. intros d. reflexivity.
Qed.
Lemma remap_move : forall t c a, remap (boxcat_m t c) a = result_map (boxcat_m t) (remap c a).
Proof.
  intros t c a. unfold remap. change (boxsize (boxcat_m t c)) with (boxsize c). change (boxcenter (boxcat_m t c)) with (moved t (boxcenter c)).
  rewrite map_bind. apply bind_ext. intros k. cbv zeta. cbn [boxcat_m bc_cat pcat_m pc_data pc_vectors pc_invariants pc_position pc_velocity].
  set (h := vscale (1 / 2) (boxsize c)). set (k2 := vscale (1 / 2) (cu_size k)).
  replace (vsub (moved t (boxcenter c)) h) with (moved t (vsub (boxcenter c) h)) by mring. replace (vsub (moved t (boxcenter c)) k2) with (moved t (vsub (boxcenter c) k2)) by mring.
  set (off := vsub (boxcenter c) h). set (coff := vsub (boxcenter c) k2). rewrite data_at.
  rewrite (map_cols_two (fun n x => if mem n (pc_vectors (bc_cat c)) then remap_col k off coff (mem n (pc_invariants (bc_cat c))) x else Ok x) _ _ (fun n x => col_at (bc_cat c) t n x)).
  - destruct (map_cols _ (pc_data (bc_cat c))); reflexivity.
  - intros n x _. unfold col_at, moves. destruct (mem n (pc_vectors (bc_cat c))); cbn [andb]; [|reflexivity]. destruct (mem n (pc_invariants (bc_cat c))); cbn [negb].
    + destruct (remap_col k off coff true x) eqn:E; [|destruct x; cbn [remap_col] in *; [|inversion E; reflexivity] ].
      * destruct x; cbn [remap_col] in *; [|discriminate]. rewrite E. reflexivity.
      * rewrite E. reflexivity.
    + destruct x as [l|l]; cbn [col_m remap_col result_map]; auto.
      rewrite map_map, (map_ext (fun x => vsub (moved t x) (moved t off)) (fun x => vsub x off)) by (intros; mring). rewrite map_bind. apply bind_ext. intros l'. cbn [result_map col_m].
      rewrite map_map. do 2 f_equal. apply map_ext. intros; mring.
Qed.
Lemma rsd_move : forall t c f los, moves_ok c -> rsd_position (pcat_m t c) (FNum f) (Some los) = result_map (map (moved t)) (rsd_position c (FNum f) (Some los)).
Proof.
  intros t c f los H. unfold rsd_position. rewrite position_move, velocity_still, bind_map, map_bind by auto. apply bind_ext. intros pos. rewrite map_bind. apply bind_ext. intros l.
  rewrite map_bind. apply bind_ext. intros v. rewrite map_bind. apply bind_ext. intros r. cbn [bind]. apply add_move.
Qed.

(** Sequences of calls. *)
Lemma step_moves_ok : forall c o c', box_step c o = Ok c' -> moves_ok (bc_cat c) -> moves_ok (bc_cat c').
Proof.
  assert (TV : forall s a b, transform_vectors s a = Ok b -> pc_position b = pc_position a /\ pc_velocity b = pc_velocity a /\ pc_vectors b = pc_vectors a /\ pc_invariants b = pc_invariants a).
  { intros s a b H. unfold transform_vectors in H. destruct (map_cols _ _); [|discriminate]. injection H as <-. auto. }
  intros c o c' H K. assert (M : pc_position (bc_cat c') = pc_position (bc_cat c) /\ pc_velocity (bc_cat c') = pc_velocity (bc_cat c) /\ pc_vectors (bc_cat c') = pc_vectors (bc_cat c) /\ pc_invariants (bc_cat c') = pc_invariants (bc_cat c)).
  { destruct o as [shift axis| |a axis|r u|f|a]; cbn [box_step] in H.
    - unfold translate in H. destruct (iso_ok _); [|discriminate]. cbn [bind] in H. destruct (transform_vectors _ _) eqn:E; [|discriminate]. injection H as <-. apply TV in E. exact E.
    - unfold recenter, translate in H. destruct (iso_ok _); [|discriminate]. cbn [bind] in H. destruct (transform_vectors _ _) eqn:E; [|discriminate]. injection H as <-. apply TV in E. exact E.
    - unfold rotate in H. destruct (iso_ok _); [|discriminate]. cbn [bind] in H. destruct (transform_vectors _ _) eqn:E; [|discriminate]. injection H as <-. apply TV in E. exact E.
    - unfold subbox in H. destruct (match r with ROne lo hi => _ | RList l => _ end) as [l|]; [|discriminate]. cbn [bind] in H. destruct l as [|r0 [|r1 [|r2 [|r3 l]]]]; try discriminate. cbv zeta in H.
      destruct (position (bc_cat c)); [|discriminate]. cbn [bind] in H. unfold select_rows in H. destruct (map_cols _ _); [|discriminate]. injection H as <-. auto.
    - unfold pad in H. repeat (match type of H with (do _ <- ?x; _) = _ => destruct x; [cbn [bind] in H|discriminate] end). injection H as <-. auto.
    - unfold remap in H. destruct (remap_cuboid _ _); [|discriminate]. cbn [bind] in H. cbv zeta in H. destruct (map_cols _ _); [|discriminate]. injection H as <-. auto. }
  destruct M as (A & B & C & D). unfold moves_ok. rewrite A, B, C, D. exact K.
Qed.
Lemma box_step_move : forall t c o, moves_ok (bc_cat c) -> box_step (boxcat_m t c) (box_call_m t o) = result_map (boxcat_m (move_after t o)) (box_step c o).
Proof.
  intros t c o H. destruct o as [shift axis| |a axis|r u|f|a]; cbn [box_call_m box_step move_after];
    [apply translate_move| |apply rotate_move|apply subbox_move; auto|apply pad_move; auto|apply remap_move].
  rewrite recenter_move, result_map_id; auto. apply boxcat_zero.
Qed.
Lemma box_run_move : forall l t c, moves_ok (bc_cat c) -> box_run (boxcat_m t c) (calls_m t l) = result_map (boxcat_m (move_end t l)) (box_run c l).
Proof.
  induction l as [|o l IH]; intros t c H; cbn [calls_m box_run move_end result_map]; auto. rewrite box_step_move by auto.
  destruct (box_step c o) as [c'|] eqn:E; cbn [result_map bind]; auto. apply IH. eapply step_moves_ok; eauto.
Qed.

(** Cut skies. *)
Lemma cut_centers_move : forall l c b em im u, cut_centers l (c + u) b em im = result_map (map (fun x => x + u)) (cut_centers l c b em im).
Proof.
  intros. unfold cut_centers. cbv zeta. rewrite map_bind. apply bind_ext. intros q. rewrite map_bind. apply bind_ext. intros [m1 m2]. destruct (Rltb m1 0 || Rltb m2 0); auto.
  rewrite map_bind. apply bind_ext. intros [m3 m4]. cbn [result_map]. rewrite map_map. f_equal. apply map_ext. intros i. ring.
Qed.
Lemma product3_move : forall t a b c, product3 (map (fun x => x + vx t) a) (map (fun x => x + vy t) b) (map (fun x => x + vz t) c) = map (moved t) (product3 a b c).
Proof.
  intros t a b c. unfold product3. rewrite !flat_map_concat_map, concat_map, !map_map. f_equal. apply map_ext. intros x.
  rewrite !flat_map_concat_map, concat_map, !map_map. f_equal. apply map_ext. intros y. rewrite !map_map. apply map_ext. intros z. reflexivity.
Qed.
(** Isometries that see the moved box as the other sees the box. *)
Definition sees (t : vec) (s' s : iso) : Prop := rot s' = rot s /\ forall p, transform s' false (moved t p) = transform s false p.
Lemma centre_then_move : forall t x o s, centre_then x o = Ok s -> exists s', centre_then (moved t x) o = Ok s' /\ sees t s' s.
Proof.
  intros t x o s H. unfold centre_then in *. rewrite translation_vec in *. cbn [bind] in *. injection H as <-. eexists. split; [reflexivity|].
  unfold sees, iso_concatenate; cbn [fold_left]. unfold iso_concat_step; cbn [rot tra]. split; [reflexivity|]. intros p. unfold transform, tensordot1; cbn [rot tra iso_new]. revert t x o p.
  intros [t1 t2 t3] [x1 x2 x3] [r [a1 a2 a3]] [p1 p2 p3]. unfold moved. cbn [rot tra]. vring.
Qed.
Lemma centre_then_ok : forall x o, exists s, centre_then x o = Ok s.
Proof. intros. unfold centre_then. rewrite translation_vec. cbn [bind]. eauto. Qed.
Lemma centres_move : forall t o l, exists s s', map_result (fun x => centre_then x o) l = Ok s /\ map_result (fun x => centre_then x o) (map (moved t) l) = Ok s' /\ Forall2 (sees t) s' s.
Proof.
  intros t o l. induction l as [|x l (s & s' & E & E' & F)]; [exists [], []; repeat split; auto|]. destruct (centre_then_ok x o) as [a A]. destruct (centre_then_move t x o a A) as (a' & A' & S).
  exists (a :: s), (a' :: s'). cbn [map_result map]. rewrite A, A'. cbn [bind]. rewrite E, E'. cbn [bind]. repeat split; auto.
Qed.
Lemma from_isometry1_move : forall t c s s' mr ma rdd, moves_ok (bc_cat c) -> sees t s' s -> cutsky_from_isometry1 (boxcat_m t c) s' mr ma rdd = cutsky_from_isometry1 c s mr ma rdd.
Proof.
  intros t c s s' mr ma rdd (M1 & M2 & M3) [R H]. unfold cutsky_from_isometry1. cbn [boxcat_m bc_cat pcat_m pc_data pc_vectors pc_invariants pc_position pc_velocity].
  set (pc := bc_cat c) in *.
  assert (N : map fst (data_m t (moves pc) (pc_data pc)) = map fst (pc_data pc)) by (unfold data_m; rewrite map_map; reflexivity). rewrite N.
  set (fv := filter (fun n => mem n (map fst (pc_data pc))) (pc_vectors pc)).
  assert (E : pcat_new (data_m t (moves pc) (pc_data pc)) (pc_position pc) (pc_velocity pc) fv (pc_invariants pc) = pcat_m t (pcat_new (pc_data pc) (pc_position pc) (pc_velocity pc) fv (pc_invariants pc))).
  { unfold pcat_new, pcat_m; cbn [pc_data pc_vectors pc_invariants pc_position pc_velocity]. f_equal. unfold data_m. apply map_ext_in. intros [n x] I0. cbn [fst snd]. f_equal.
    assert (K : moves pc n = moves (PCat (pc_data pc) (pc_position pc) (pc_velocity pc) (fv ++ [pc_position pc; pc_velocity pc]) (pc_invariants pc ++ [pc_velocity pc])) n); [|rewrite K; reflexivity].
    assert (A : forall m a b, mem m (a ++ b) = mem m a || mem m b) by (intros; unfold mem; apply existsb_app).
    unfold moves; cbn [pc_vectors pc_invariants]. rewrite !A. assert (V1 : mem n [pc_velocity pc] = true -> mem n (pc_invariants pc) = true).
    { cbn. rewrite orb_false_r. intro Q. apply String.eqb_eq in Q. subst; auto. }
    assert (FV : mem n fv = mem n (pc_vectors pc)).
    { unfold fv, mem. apply eq_iff_eq_true. rewrite !existsb_exists. split; intros (y & Y & Q); exists y; split; auto; [apply filter_In in Y; tauto|]. apply filter_In. split; auto.
      apply String.eqb_eq in Q. subst y. apply existsb_exists. exists n. split; [apply in_map_iff; exists (n, x); auto|apply String.eqb_refl]. }
    rewrite FV. destruct (mem n (pc_invariants pc)) eqn:I1; cbn [orb negb]; [rewrite !andb_false_r; reflexivity|].
    destruct (mem n [pc_velocity pc]) eqn:I2; [exfalso; specialize (V1 eq_refl); congruence|]. cbn [negb]. rewrite !andb_true_r.
    replace (mem n [pc_position pc; pc_velocity pc]) with (mem n [pc_position pc]).
    2:{ cbn in I2 |- *. rewrite orb_false_r in I2 |- *. rewrite I2. rewrite orb_false_r. reflexivity. }
    destruct (mem n [pc_position pc]) eqn:I3; [|rewrite orb_false_r; reflexivity]. cbn in I3. rewrite orb_false_r in I3. apply String.eqb_eq in I3. subst n. rewrite M1. reflexivity. }
  rewrite E. unfold cutsky_isometry. rewrite (transform_vectors_undo s s' t _ R H). reflexivity.
Qed.
Lemma map_result_forall2 : forall {A A' B} (R : A' -> A -> Prop) (f : A -> result B) (f' : A' -> result B) l' l, Forall2 R l' l -> (forall a a', R a' a -> f' a' = f a) -> map_result f' l' = map_result f l.
Proof. intros A A' B R f f' l' l F H. induction F as [|a' a l' l X F IH]; cbn [map_result]; auto. rewrite (H _ _ X). apply bind_ext. intros b. rewrite IH. reflexivity. Qed.
Lemma cutsky_move : forall t c d ra dec em im n mr ma rdd, moves_ok (bc_cat c) -> cutsky (boxcat_m t c) d ra dec em im n mr ma rdd = cutsky c d ra dec em im n mr ma rdd.
Proof.
  intros t c d ra dec em im n mr ma rdd H. unfold cutsky, isometry_for_cutsky. destruct (cutsky_to_box d ra dec) as [[b o]|e]; cbn [bind]; auto.
  change (boxsize (boxcat_m t c)) with (boxsize c). change (boxcenter (boxcat_m t c)) with (moved t (boxcenter c)).
  assert (Many : forall n, (do s <- (do l0 <- cut_centers (vx (boxsize c)) (vx (moved t (boxcenter c))) (vx b) (mg0 em) (mg0 im);
     do l1 <- cut_centers (vy (boxsize c)) (vy (moved t (boxcenter c))) (vy b) (mg1 em) (mg1 im);
     do l2 <- cut_centers (vz (boxsize c)) (vz (moved t (boxcenter c))) (vz b) (mg2 em) (mg2 im);
     let nmax := (List.length l0 * List.length l1 * List.length l2)%nat in
     do n0 <- match n with Some n0 => if (nmax <? n0)%nat then Err ValueError else Ok n0 | None => Ok nmax end;
     do l <- map_result (fun x => centre_then x o) (firstn n0 (product3 l0 l1 l2)); Ok (IsoList l)); cutsky_from_isometry (boxcat_m t c) s mr ma rdd) =
   (do s <- (do l0 <- cut_centers (vx (boxsize c)) (vx (boxcenter c)) (vx b) (mg0 em) (mg0 im);
     do l1 <- cut_centers (vy (boxsize c)) (vy (boxcenter c)) (vy b) (mg1 em) (mg1 im);
     do l2 <- cut_centers (vz (boxsize c)) (vz (boxcenter c)) (vz b) (mg2 em) (mg2 im);
     let nmax := (List.length l0 * List.length l1 * List.length l2)%nat in
     do n0 <- match n with Some n0 => if (nmax <? n0)%nat then Err ValueError else Ok n0 | None => Ok nmax end;
     do l <- map_result (fun x => centre_then x o) (firstn n0 (product3 l0 l1 l2)); Ok (IsoList l)); cutsky_from_isometry c s mr ma rdd)).
  { clear n. intros n. change (vx (moved t (boxcenter c))) with (vx (boxcenter c) + vx t). change (vy (moved t (boxcenter c))) with (vy (boxcenter c) + vy t). change (vz (moved t (boxcenter c))) with (vz (boxcenter c) + vz t).
    rewrite !cut_centers_move. destruct (cut_centers (vx (boxsize c)) _ _ _ _) as [l0|]; cbn [result_map bind]; auto. destruct (cut_centers (vy (boxsize c)) _ _ _ _) as [l1|]; cbn [result_map bind]; auto.
    destruct (cut_centers (vz (boxsize c)) _ _ _ _) as [l2|]; cbn [result_map bind]; auto. cbv zeta. rewrite !map_length.
    destruct (match n with Some n0 => _ | None => _ end) as [k|e]; cbn [bind]; auto. rewrite product3_move, firstn_map.
    destruct (centres_move t o (firstn k (product3 l0 l1 l2))) as (s & s' & E & E' & F). rewrite E, E'. cbn [bind cutsky_from_isometry].
    apply (map_result_forall2 (sees t)); auto. intros a a' S. apply from_isometry1_move; auto. }
  assert (One : (do s <- (do s <- centre_then (moved t (boxcenter c)) o; Ok (IsoOne s)); cutsky_from_isometry (boxcat_m t c) s mr ma rdd) =
    (do s <- (do s <- centre_then (boxcenter c) o; Ok (IsoOne s)); cutsky_from_isometry c s mr ma rdd)).
  { destruct (centre_then_ok (boxcenter c) o) as [s A]. destruct (centre_then_move t _ _ _ A) as (s' & A' & S). rewrite A, A'. cbn [bind cutsky_from_isometry]. rewrite (from_isometry1_move t c s s'); auto. }
  destruct n as [[|[|n]]|]; [exact (Many (Some 0%nat))|exact One|exact (Many (Some (S (S n))))|exact (Many None)].
Qed.
