(** One move and its opposite. *)
Require Import Reals Lra Lia ZArith String List Bool.
From Verif Require Import Base Vec3 Isometry_Model Isometry_Spec Isometry_Proof Sky_Model Cutsky_Model Box_Model Box_Spec Box_Proof Unit_Spec Rsd_Model Rsd_Spec Rsd_Proof Undo_Spec.
Import ListNotations.
Open Scope R_scope.

(** Columns after a transformation. *)
Definition tcol (s : iso) (c : pcat) (n : string) (x : col) : col :=
  if mem n (pc_vectors c) then match x with ColV l => ColV (map (transform s (mem n (pc_invariants c))) l) | x => x end else x.
Definition tcat (s : iso) (c : pcat) : pcat := PCat (map (fun x => (fst x, tcol s c (fst x) (snd x))) (pc_data c)) (pc_position c) (pc_velocity c) (pc_vectors c) (pc_invariants c).
Lemma tv_is : forall s c, vectors_ok c -> transform_vectors s c = Ok (tcat s c).
Proof.
  intros s [d p v vs is] W. unfold transform_vectors, tcat. cbn [pc_data pc_position pc_velocity pc_vectors pc_invariants].
  assert (X : map_cols (fun n x => if mem n vs then transform_col s (mem n is) x else Ok x) d = Ok (map (fun x => (fst x, tcol s (PCat d p v vs is) (fst x) (snd x))) d)).
  { assert (W' : forall name x, In (name, x) d -> In name vs -> exists l, x = ColV l) by exact W. clear W. unfold tcol. cbn [pc_vectors pc_invariants]. clear p v. induction d as [|[n x] d IH]; cbn [map_cols map fst snd]; auto.
    rewrite IH by (intros; eapply W'; [right|]; eauto). destruct (mem n vs) eqn:M; cbn [bind]; auto. destruct (W' n x) as [l ->]; [left; auto| |reflexivity].
    unfold mem in M. apply existsb_exists in M. destruct M as (y & I & E). apply String.eqb_eq in E. subst; auto. }
  rewrite X. reflexivity.
Qed.
Lemma tcat_ok : forall s c, vectors_ok c -> vectors_ok (tcat s c).
Proof.
  intros s c W n x I J. cbn [tcat pc_data pc_vectors] in I, J. apply in_map_iff in I. destruct I as ([m y] & E & I). cbn [fst snd] in E. injection E as -> <-. destruct (W n y I J) as [l ->]. unfold tcol. destruct (mem n (pc_vectors c)); eauto.
Qed.
Lemma tcat_back : forall s s' c, (forall ti p, transform s' ti (transform s ti p) = p) -> tcat s' (tcat s c) = c.
Proof.
  intros s s' [d p v vs is] H. unfold tcat. cbn [pc_data pc_position pc_velocity pc_vectors pc_invariants]. assert (X : forall a b, a = b -> PCat a p v vs is = PCat b p v vs is) by (intros; subst; auto). apply X.
  rewrite map_map. rewrite <- (map_id d) at 2. apply map_ext. intros [n x]. cbn [fst snd]. f_equal. unfold tcol. cbn [pc_vectors pc_invariants]. destruct (mem n vs); auto. destruct x as [l|l]; auto. rewrite map_map. f_equal.
  rewrite <- (map_id l) at 2. apply map_ext. intros q. apply H.
Qed.
Lemma translate_is : forall c sh ax v, shift_means sh ax v -> vectors_ok (bc_cat c) -> translate c sh ax = Ok (BoxCat (tcat (Iso mid v) (bc_cat c)) (boxsize c) (vadd (boxcenter c) v)).
Proof. intros c sh ax v M W. unfold translate. rewrite (shift_means_ok _ _ _ M). cbn [iso_ok bind]. rewrite tv_is by auto. cbn [bind]. rewrite transform_shift. reflexivity. Qed.
Lemma rotate_is : forall c k a ax, axis_means a ax -> vectors_ok (bc_cat c) -> exists s, (forall ti p, transform s ti p = quarters a k p) /\
  rotate c k ax = Ok (BoxCat (tcat s (bc_cat c)) (vabs (quarters a k (boxsize c))) (quarters a k (boxcenter c))).
Proof.
  intros c k a ax M W. pose proof (axis_means_los _ _ M) as L. unfold rotate. rewrite (iso_rotation_rad _ _ _ _ _ L). cbn [iso_ok bind rot tra iso_new].
  set (m := axis_rot (los_of a) (cos (IZR k * PI / 2)) (sin (IZR k * PI / 2))). exists (Iso (mmul m mid) (mapply m vzero)).
  assert (T : forall ti p, transform (Iso (mmul m mid) (mapply m vzero)) ti p = quarters a k p) by (intros; rewrite transform_linear; apply axis_rot_quarters).
  split; auto. rewrite tv_is by auto. cbn [bind]. rewrite !T. reflexivity.
Qed.
Ltac nats := change (Z.to_nat 0) with 0%nat; change (Z.to_nat 1) with 1%nat; change (Z.to_nat 2) with 2%nat; change (Z.to_nat 3) with 3%nat.
Lemma quarters_back : forall a k l p, ((k + l) mod 4 = 0)%Z -> quarters a l (quarters a k p) = p.
Proof.
  intros a k l p H. unfold quarters. rewrite Z.add_mod in H by lia. pose proof (Z.mod_pos_bound k 4 ltac:(lia)). pose proof (Z.mod_pos_bound l 4 ltac:(lia)).
  assert (k mod 4 = 0 \/ k mod 4 = 1 \/ k mod 4 = 2 \/ k mod 4 = 3)%Z as [E|[E|[E|E]]] by lia; rewrite E in *.
  - assert (l mod 4 = 0)%Z as -> by (rewrite Z.add_0_l, Z.mod_mod in H; lia). reflexivity.
  - assert (l mod 4 = 3)%Z as ->. { assert (l mod 4 = 0 \/ l mod 4 = 1 \/ l mod 4 = 2 \/ l mod 4 = 3)%Z as [E'|[E'|[E'|E']]] by lia; rewrite E' in *; try discriminate; auto. } nats. destruct a, p; cbn; f_equal; ring.
  - assert (l mod 4 = 2)%Z as ->. { assert (l mod 4 = 0 \/ l mod 4 = 1 \/ l mod 4 = 2 \/ l mod 4 = 3)%Z as [E'|[E'|[E'|E']]] by lia; rewrite E' in *; try discriminate; auto. } nats. destruct a, p; cbn; f_equal; ring.
  - assert (l mod 4 = 1)%Z as ->. { assert (l mod 4 = 0 \/ l mod 4 = 1 \/ l mod 4 = 2 \/ l mod 4 = 3)%Z as [E'|[E'|[E'|E']]] by lia; rewrite E' in *; try discriminate; auto. } nats. destruct a, p; cbn; f_equal; ring.
Qed.
Lemma sizes_back : forall a k l size, box_sides size -> ((k + l) mod 4 = 0)%Z -> vabs (quarters a l (vabs (quarters a k size))) = size.
Proof.
  intros a k l size (H1 & H2 & H3) H. unfold quarters. rewrite Z.add_mod in H by lia. pose proof (Z.mod_pos_bound k 4 ltac:(lia)). pose proof (Z.mod_pos_bound l 4 ltac:(lia)). destruct size as [x y z]. cbn [vx vy vz] in *.
  assert (A : forall t, 0 <= t -> Rabs t = t) by (intros; apply Rabs_pos_eq; auto).
  assert (k mod 4 = 0 \/ k mod 4 = 1 \/ k mod 4 = 2 \/ k mod 4 = 3)%Z as [E|[E|[E|E]]] by lia; rewrite E in *.
  - assert (l mod 4 = 0)%Z as -> by (rewrite Z.add_0_l, Z.mod_mod in H; lia). nats. destruct a; unfold vabs; cbn; f_equal; rewrite ?Rabs_Ropp, ?Rabs_Rabsolu, ?Rabs_Ropp, ?Rabs_Rabsolu; auto.
  - assert (l mod 4 = 3)%Z as ->. { assert (l mod 4 = 0 \/ l mod 4 = 1 \/ l mod 4 = 2 \/ l mod 4 = 3)%Z as [E'|[E'|[E'|E']]] by lia; rewrite E' in *; try discriminate; auto. } nats. destruct a; unfold vabs; cbn; f_equal; rewrite ?Rabs_Ropp, ?Rabs_Rabsolu, ?Rabs_Ropp, ?Rabs_Rabsolu, ?Rabs_Ropp; auto.
  - assert (l mod 4 = 2)%Z as ->. { assert (l mod 4 = 0 \/ l mod 4 = 1 \/ l mod 4 = 2 \/ l mod 4 = 3)%Z as [E'|[E'|[E'|E']]] by lia; rewrite E' in *; try discriminate; auto. } nats. destruct a; unfold vabs; cbn; f_equal; rewrite ?Rabs_Ropp, ?Rabs_Rabsolu, ?Rabs_Ropp, ?Rabs_Rabsolu, ?Rabs_Ropp; auto.
  - assert (l mod 4 = 1)%Z as ->. { assert (l mod 4 = 0 \/ l mod 4 = 1 \/ l mod 4 = 2 \/ l mod 4 = 3)%Z as [E'|[E'|[E'|E']]] by lia; rewrite E' in *; try discriminate; auto. } nats. destruct a; unfold vabs; cbn; f_equal; rewrite ?Rabs_Ropp, ?Rabs_Rabsolu, ?Rabs_Ropp, ?Rabs_Rabsolu, ?Rabs_Ropp; auto.
Qed.
Lemma one_back : forall c o o', opposite o o' -> vectors_ok (bc_cat c) -> box_sides (boxsize c) ->
  exists c', box_step c o = Ok c' /\ vectors_ok (bc_cat c') /\ box_sides (boxsize c') /\ box_step c' o' = Ok c.
Proof.
  intros c o o' H W S. destruct H as [sh ax sh' ax' v M M'|a k l ax ax' M M' K]; cbn [box_step].
  - rewrite (translate_is c sh ax v M W). eexists. split; [reflexivity|]. cbn [bc_cat boxsize]. split; [apply tcat_ok; auto|]. split; auto. rewrite (translate_is _ sh' ax' (vopp v) M') by (apply tcat_ok; auto). cbn [bc_cat boxsize boxcenter].
    rewrite tcat_back; [|intros ti p; destruct ti; unfold transform, tensordot1; cbn [rot tra]; rewrite ?mapply_id; auto; destruct p, v; unfold vadd, vopp; cbn; f_equal; ring]. destruct c as [c size ctr]. cbn. do 2 f_equal. destruct ctr, v; unfold vadd, vopp; cbn; f_equal; ring.
  - destruct (rotate_is c k a ax M W) as (s & T & ->). eexists. split; [reflexivity|]. cbn [bc_cat boxsize]. split; [apply tcat_ok; auto|]. split; [repeat split; cbn; apply Rabs_pos|].
    destruct (rotate_is (BoxCat (tcat s (bc_cat c)) (vabs (quarters a k (boxsize c))) (quarters a k (boxcenter c))) l a ax' M') as (s' & T' & ->); [apply tcat_ok; auto|]. cbn [bc_cat boxsize boxcenter].
    rewrite tcat_back by (intros; rewrite T, T'; apply quarters_back; auto). rewrite sizes_back, quarters_back by auto. destruct c; reflexivity.
Qed.
Lemma run_app : forall l m c, box_run c (l ++ m) = do c' <- box_run c l; box_run c' m.
Proof. induction l as [|o l IH]; intros m c; cbn [List.app box_run bind]; auto. destruct (box_step c o); cbn [bind]; auto. Qed.
Lemma history_back : forall l m c, Forall2 opposite l m -> vectors_ok (bc_cat c) -> box_sides (boxsize c) -> box_run c (l ++ rev m) = Ok c.
Proof.
  intros l m c H. revert c. induction H as [|o o' l m H _ IH]; intros c W S; cbn [rev List.app box_run]; auto. destruct (one_back c o o' H W S) as (c' & E & W' & S' & E'). rewrite E. cbn [bind].
  rewrite app_assoc, run_app, IH by auto. cbn [bind box_run]. rewrite E'. reflexivity.
Qed.

(** Isometries. *)
Lemma iso_one_back : forall s o o', opposite_iso o o' -> exists s', iso_step s o = (s', Ok tt) /\ iso_step s' o' = (s, Ok tt).
Proof.
  intros [r t] o o' H. destruct H as [sh ax sh' ax' v M M'|angle angle' ax ax' d d' u M M' A|m m' A]; cbn [iso_step].
  - unfold iso_translation. rewrite (shift_means_vector _ _ _ M), (shift_means_vector _ _ _ M'). cbn. eexists. split; [reflexivity|]. cbn. do 2 f_equal. destruct t, v; unfold vadd, vopp; cbn; f_equal; ring.
  - destruct (los_means_ok _ _ M) as [G U], (los_means_ok _ _ M') as [G' _]. assert (V1 : get_los (AxVec u) = Ok u) by (cbn; apply normalize_of_unit; auto).
    assert (E : forall (d : bool) angle, (if d then angle else angle * 180 / PI) * PI / 180 = in_radians angle d) by (intros [|] x; cbn; [auto|pose proof PI_RGT_0; field; lra]).
    unfold iso_rotation. rewrite G, G', !(rotation_matrix_eq _ _ _ V1), !E, A. set (x := in_radians angle d).
    assert (K : mmul (axis_rot u (cos (- x)) (sin (- x))) (axis_rot u (cos x) (sin x)) = mid).
    { rewrite axis_rot_mul, cos_neg, sin_neg by auto. replace (cos x * cos x - - sin x * sin x) with 1 by (pose proof (sin2_cos2 x); unfold Rsqr in *; lra). replace (- sin x * cos x + cos x * sin x) with 0 by ring. apply axis_rot_id. }
    unfold iso_dot. cbn [String.eqb Ascii.eqb Bool.eqb rot tra]. eexists. split; [reflexivity|]. cbn [rot tra]. rewrite mmul_assoc, <- mapply_mul, K, mmul_id_l, mapply_id. reflexivity.
  - unfold iso_dot. cbn [String.eqb Ascii.eqb Bool.eqb rot tra]. eexists. split; [reflexivity|]. cbn [rot tra]. rewrite A.
    assert (K : mmul m' m = mid).
    { assert (X : forall p, mapply (mmul m' m) p = p) by (intros; rewrite mapply_mul; apply A). pose proof (X (V 1 0 0)) as X1. pose proof (X (V 0 1 0)) as X2. pose proof (X (V 0 0 1)) as X3.
      destruct (mmul m' m) as [[a b c] [d e f] [g h i]]. unfold mapply, vdot in *. cbn in *. injection X1 as ? ? ?. injection X2 as ? ? ?. injection X3 as ? ? ?. unfold mid. f_equal; f_equal; lra. }
    rewrite mmul_assoc, K, mmul_id_l. reflexivity.
Qed.
Lemma iso_run_app : forall l m s, iso_run s (l ++ m) = do s' <- iso_run s l; iso_run s' m.
Proof. induction l as [|o l IH]; intros m s; cbn [List.app iso_run bind]; auto. destruct (iso_step s o) as [s' [u|e]]; cbn [bind]; auto. Qed.
Lemma iso_history_back : forall l m s, Forall2 opposite_iso l m -> iso_run s (l ++ rev m) = Ok s.
Proof.
  intros l m s H. revert s. induction H as [|o o' l m H _ IH]; intros s; cbn [rev List.app iso_run]; auto. destruct (iso_one_back s o o' H) as (s' & E & E'). rewrite E. rewrite app_assoc, iso_run_app, IH. cbn [bind iso_run]. rewrite E'. reflexivity.
Qed.

(** Redshift space distortions. *)
Lemma with_position : forall c l, position (with_positions c l) = Ok l.
Proof.
  intros c l. unfold position, with_positions. cbn [pc_position pc_data]. unfold get_vec. assert (X : lookup (pc_position c) (set_col (pc_position c) (ColV l) (pc_data c)) = Some (ColV l)).
  { induction (pc_data c) as [|[n x] d IH]; cbn [set_col lookup]; [rewrite String.eqb_refl; auto|]. destruct (String.eqb (pc_position c) n) eqn:E; cbn [lookup]; rewrite E; auto. }
  rewrite X. reflexivity.
Qed.
Lemma with_velocity : forall c l, pc_position c <> pc_velocity c -> velocity (with_positions c l) = velocity c.
Proof.
  intros c l N. unfold velocity, with_positions. cbn [pc_velocity pc_data]. unfold get_vec. assert (X : lookup (pc_velocity c) (set_col (pc_position c) (ColV l) (pc_data c)) = lookup (pc_velocity c) (pc_data c)).
  { induction (pc_data c) as [|[n x] d IH]; cbn [set_col lookup].
    - destruct (String.eqb_spec (pc_velocity c) (pc_position c)); congruence.
    - destruct (String.eqb_spec (pc_position c) n); cbn [lookup]; destruct (String.eqb_spec (pc_velocity c) n); auto; congruence. }
  rewrite X. reflexivity.
Qed.
Lemma nth_ext : forall {A} (l m : list A), (forall i, nth_error l i = nth_error m i) -> l = m.
Proof. induction l as [|a l IH]; intros [|b m] H; auto; try (specialize (H 0%nat); discriminate). pose proof (H 0%nat) as H0. injection H0 as ->. f_equal. apply IH. intros i. apply (H (S i)). Qed.
Lemma rows_back : forall rel pos vel out out', length vel = length pos -> row_by_row rel pos vel out -> (exists rel', row_by_row rel' out vel out' /\ forall p v q r, In p pos -> In q out -> rel p v q -> rel' q v r -> r = p) -> out' = pos.
Proof.
  intros rel pos vel out out' L [L1 H1] (rel' & [L2 H2] & K). apply nth_ext. intros i. destruct (nth_error pos i) as [p|] eqn:P.
  - assert (I : (i < length pos)%nat) by (apply nth_error_Some; congruence). destruct (nth_error out' i) as [r|] eqn:R; [|apply nth_error_None in R; lia]. destruct (nth_error out i) as [q|] eqn:Q; [|apply nth_error_None in Q; lia].
    destruct (nth_error vel i) as [v|] eqn:E; [|apply nth_error_None in E; lia]. f_equal. apply (K p v q r); eauto using nth_error_In.
  - apply nth_error_None. apply nth_error_None in P. lia.
Qed.
