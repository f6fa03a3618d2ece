(** Rows of catalogs: each call commutes with putting catalogs together. *)
Require Import Reals Lra Lia ZArith String List Bool.
From Verif Require Import Base Vec3 Isometry_Model Sky_Model Cutsky_Model Box_Model Rsd_Model Remap_Model Unit_Spec Rows_Spec.
Import ListNotations.
Open Scope R_scope.

(** The result for the whole, and those for the pieces: the whole raises when a piece does. *)
Definition splits {A} (app : A -> A -> A) (like : A -> A -> Prop) (r ra rb : result A) : Prop :=
  match ra, rb with Ok a, Ok b => r = Ok (app a b) /\ like a b | _, _ => exists e, r = Err e end.
Lemma splits_bind : forall {A B} app like app' like' (r ra rb : result A) (k ka kb : A -> result B), splits app like r ra rb ->
  (forall a b, like a b -> ra = Ok a -> rb = Ok b -> splits app' like' (k (app a b)) (ka a) (kb b)) -> splits app' like' (do x <- r; k x) (do x <- ra; ka x) (do x <- rb; kb x).
Proof.
  intros A B app like app' like' r ra rb k ka kb H K. destruct ra as [a|ea]; [destruct rb as [b|eb]|]; cbn in H.
  - destruct H as [-> L]. apply K; auto.
  - destruct H as [e ->]. cbn [bind]. unfold splits. destruct (ka a); eauto.
  - destruct H as [e ->]. cbn. eauto.
Qed.
Lemma splits_same : forall {A} app (like : A -> A -> Prop) (a b : A), like a b -> splits app like (Ok (app a b)) (Ok a) (Ok b). Proof. intros; cbn; auto. Qed.
Lemma splits_err : forall {A} (app : A -> A -> A) (like : A -> A -> Prop) e, splits app like (Err e) (Err e) (Err e). Proof. intros; cbn; eauto. Qed.
Lemma splits_right : forall {A} (app : A -> A -> A) (like : A -> A -> Prop) e e' ra, splits app like (Err e) ra (Err e').
Proof. intros. unfold splits. destruct ra; eauto. Qed.
(** Something that does not depend on rows. *)
Lemma splits_common : forall {A B} (r : result A) app' like' (k ka kb : A -> result B), (forall a, r = Ok a -> splits app' like' (k a) (ka a) (kb a)) -> splits app' like' (do x <- r; k x) (do x <- r; ka x) (do x <- r; kb x).
Proof. intros A B r app' like' k ka kb H. destruct r as [a|e]; cbn [bind]; [auto|cbn; eauto]. Qed.
Definition any {A} (_ _ : A) : Prop := True.

Lemma map_result_splits : forall {A B} (f : A -> result B) l m, splits (@List.app B) any (map_result f (l ++ m)) (map_result f l) (map_result f m).
Proof.
  intros A B f l m. induction l as [|a l IH]; cbn [List.app map_result].
  - destruct (map_result f m); cbn; eauto. split; auto. exact Logic.I.
  - destruct (f a) as [b|e]; cbn [bind]; [|cbn; eauto]. destruct (map_result f l) as [l'|e]; cbn [bind].
    + destruct (map_result f m) as [m'|e]; cbn in IH |- *; [destruct IH as [-> _]; cbn; split; auto; exact Logic.I|destruct IH as [e' ->]; cbn; eauto].
    + cbn in IH |- *. destruct IH as [e' ->]; cbn; eauto.
Qed.
Lemma map_result_length : forall {A B} (f : A -> result B) l l', map_result f l = Ok l' -> length l' = length l.
Proof.
  intros A B f. induction l as [|a l IH]; intros l' H; cbn [map_result] in H; [injection H as <-; auto|]. destruct (f a); [|discriminate]. cbn [bind] in H. destruct (map_result f l) as [l1|]; [|discriminate].
  cbn [bind] in H. injection H as <-. cbn. f_equal. auto.
Qed.

(** Columns. *)
Definition like_data (a b : data) : Prop := Forall2 (fun x y => fst x = fst y /\ same_type (snd x) (snd y)) a b.
Lemma append_length : forall x y, same_type x y -> col_length (append_col x y) = (col_length x + col_length y)%nat.
Proof. intros [l|l] [m|m] H; cbn in *; try contradiction; apply app_length. Qed.
Lemma map_cols_splits : forall f fa fb na nb a b, like_data a b -> has_rows na a -> has_rows nb b ->
  (forall n x y, same_type x y -> col_length x = na -> col_length y = nb -> splits append_col same_type (f n (append_col x y)) (fa n x) (fb n y)) ->
  splits append_data like_data (map_cols f (append_data a b)) (map_cols fa a) (map_cols fb b).
Proof.
  intros f fa fb na nb a b L HA HB H. induction L as [|[n x] [n' y] a b [E S] L IH]; cbn [append_data map_cols].
  - cbn. split; auto. constructor.
  - cbn [fst snd] in E, S. subst n'. inversion HA as [|? ? A1 A2]; inversion HB as [|? ? B1 B2]; subst. cbn [snd] in *. specialize (H n x y S eq_refl eq_refl) as H1. specialize (IH A2 B2).
    destruct (fa n x) as [x'|e]; cbn [bind].
    + destruct (fb n y) as [y'|e]; cbn [bind].
      * cbn in H1. destruct H1 as [-> S']. cbn [bind]. destruct (map_cols fa a) as [a'|e]; cbn [bind].
        { destruct (map_cols fb b) as [b'|e]; cbn [bind]; cbn in IH |- *; [destruct IH as [-> L']; cbn; split; auto; constructor; auto|destruct IH as [e' ->]; cbn; eauto]. }
        { cbn in IH |- *. destruct IH as [e' ->]; cbn; eauto. }
      * cbn in H1. destruct H1 as [e' ->]. apply splits_right.
    + cbn in H1. destruct H1 as [e' ->]. cbn. eauto.
Qed.
Lemma map_cols_rows : forall f k k' d d', (forall n x x', f n x = Ok x' -> col_length x = k -> col_length x' = k') -> has_rows k d -> map_cols f d = Ok d' -> has_rows k' d'.
Proof.
  intros f k k' d. induction d as [|[n x] d IH]; intros d' H R E; cbn [map_cols] in E; [injection E as <-; constructor|]. inversion R as [|? ? R1 R2]; subst.
  destruct (f n x) as [x'|] eqn:F; [|discriminate]. cbn [bind] in E. destruct (map_cols f d) as [d1|]; [|discriminate]. injection E as <-. constructor; [cbn; eapply H; eauto|apply IH; auto].
Qed.
Lemma lookup_append : forall n a b, like_data a b ->
  match lookup n a, lookup n b with Some x, Some y => lookup n (append_data a b) = Some (append_col x y) /\ same_type x y | None, None => lookup n (append_data a b) = None | _, _ => False end.
Proof.
  intros n a b L. induction L as [|[m x] [m' y] a b [E S] L IH]; cbn [lookup append_data]; auto. cbn [fst snd] in *. subst m'. destruct (String.eqb n m); auto.
Qed.
Lemma get_vec_splits : forall n a b, like_data a b -> splits (@List.app vec) any (get_vec n (append_data a b)) (get_vec n a) (get_vec n b).
Proof.
  intros n a b L. pose proof (lookup_append n a b L) as H. unfold get_vec. destruct (lookup n a) as [x|], (lookup n b) as [y|]; try contradiction.
  - destruct H as [-> S]. destruct x, y; cbn in *; try contradiction; eauto.
  - rewrite H. cbn. eauto.
Qed.
Lemma get_vec_length : forall n k d l, has_rows k d -> get_vec n d = Ok l -> length l = k.
Proof.
  intros n k d l R H. unfold get_vec in H. assert (X : forall x, lookup n d = Some x -> col_length x = k).
  { clear H. induction d as [|[m y] d IH]; cbn [lookup]; intros x E; [discriminate|]. inversion R; subst. destruct (String.eqb n m); [injection E as <-; auto|auto]. }
  destruct (lookup n d) as [[v|v]|]; try discriminate. injection H as <-. apply (X _ eq_refl).
Qed.

(** Catalogs. *)
Lemma alike_data : forall a b, alike a b -> like_data (pc_data a) (pc_data b). Proof. intros a b H; apply H. Qed.
Lemma cols_splits : forall f fa fb a b ka kb, alike a b ->
  (forall n x y na nb, has_rows na (pc_data a) -> has_rows nb (pc_data b) -> same_type x y -> col_length x = na -> col_length y = nb -> splits append_col same_type (f n (append_col x y)) (fa n x) (fb n y)) ->
  (forall n x x' na, has_rows na (pc_data a) -> fa n x = Ok x' -> col_length x = na -> col_length x' = ka na) -> (forall n x x' nb, has_rows nb (pc_data b) -> fb n x = Ok x' -> col_length x = nb -> col_length x' = kb nb) ->
  splits append alike (do d <- map_cols f (pc_data (append a b)); Ok (PCat d (pc_position a) (pc_velocity a) (pc_vectors a) (pc_invariants a)))
    (do d <- map_cols fa (pc_data a); Ok (PCat d (pc_position a) (pc_velocity a) (pc_vectors a) (pc_invariants a)))
    (do d <- map_cols fb (pc_data b); Ok (PCat d (pc_position b) (pc_velocity b) (pc_vectors b) (pc_invariants b))).
Proof.
  intros f fa fb a b ka kb (L & [na HA] & [nb HB] & E1 & E2 & E3 & E4) H KA KB. cbn [append pc_data].
  eapply splits_bind; [apply (map_cols_splits f fa fb na nb); auto; intros; eapply H; eauto|].
  intros a' b' L' FA FB. rewrite E1, E2, E3, E4. apply (splits_same append alike (PCat a' (pc_position b) (pc_velocity b) (pc_vectors b) (pc_invariants b)) (PCat b' _ _ _ _)).
  split; [exact L'|]. split; [exists (ka na); eapply map_cols_rows; [|exact HA|exact FA]; intros; eapply KA; eauto|].
  split; [exists (kb nb); eapply map_cols_rows; [|exact HB|exact FB]; intros; eapply KB; eauto|]. auto.
Qed.
Lemma transform_col_splits : forall s ti x y, same_type x y -> splits append_col same_type (transform_col s ti (append_col x y)) (transform_col s ti x) (transform_col s ti y).
Proof. intros s ti [l|l] [m|m] H; cbn in *; try contradiction; eauto. split; auto. unfold transform_all. rewrite map_app. reflexivity. Qed.
Lemma append_settings : forall a b, pc_position (append a b) = pc_position a /\ pc_velocity (append a b) = pc_velocity a /\ pc_vectors (append a b) = pc_vectors a /\ pc_invariants (append a b) = pc_invariants a.
Proof. intros; cbn; auto. Qed.
Lemma transform_vectors_splits : forall s a b, alike a b -> splits append alike (transform_vectors s (append a b)) (transform_vectors s a) (transform_vectors s b).
Proof.
  intros s a b H. unfold transform_vectors. destruct H as (L & HA & HB & E1 & E2 & E3 & E4) eqn:HH. clear HH. cbn [append pc_vectors pc_invariants pc_position pc_velocity].
  apply (cols_splits _ _ _ a b (fun n => n) (fun n => n)).
  - repeat split; auto.
  - intros n x y na nb _ _ S _ _. rewrite <- E3, <- E4. destruct (mem n (pc_vectors a)); [apply transform_col_splits; auto|cbn; auto].
  - intros n x x' na _ E LX. destruct (mem n (pc_vectors a)); [|injection E as <-; auto]. destruct x; [|discriminate]. injection E as <-. cbn in *. unfold transform_all. rewrite map_length. auto.
  - intros n x x' na _ E LX. destruct (mem n (pc_vectors b)); [|injection E as <-; auto]. destruct x; [|discriminate]. injection E as <-. cbn in *. unfold transform_all. rewrite map_length. auto.
Qed.

(** Selection. *)
Lemma select_app : forall {A} m m' (l l' : list A), length m = length l -> length m' = length l' -> exists r r', select m l = Ok r /\ select m' l' = Ok r' /\ select (m ++ m') (l ++ l') = Ok (r ++ r').
Proof.
  intros A m m' l l' H H'. assert (X : forall (m : list bool) (l : list A), length m = length l -> exists r, select m l = Ok r).
  { clear. induction m as [|b m IH]; intros [|a l] H; cbn in H; try discriminate; [exists []; auto|]. destruct (IH l) as [r E]; [lia|]. cbn [select]. rewrite E. cbn. destruct b; eauto. }
  destruct (X m l H) as [r E]. destruct (X m' l' H') as [r' E']. exists r, r'. split; auto. split; auto. clear H X. revert l r E. induction m as [|b m IH]; intros [|a l] r E; cbn [select List.app] in *; try discriminate.
  - injection E as <-. auto.
  - destruct (select m l) as [r1|] eqn:E1; [|discriminate]. cbn [bind] in E. injection E as <-. rewrite (IH l r1 E1). cbn [bind]. destruct b; reflexivity.
Qed.
Definition kept (m : list bool) : nat := length (filter (fun b => b) m).
Lemma select_length : forall {A} m (l r : list A), select m l = Ok r -> length r = kept m.
Proof.
  intros A. induction m as [|b m IH]; intros [|a l] r E; cbn [select] in E; try discriminate; [injection E as <-; auto|]. destruct (select m l) as [r1|] eqn:E1; [|discriminate]. cbn [bind] in E. injection E as <-.
  unfold kept. cbn [filter]. destruct b; cbn [length]; rewrite (IH l r1 E1); auto.
Qed.
Lemma select_col_splits : forall m m' x y, same_type x y -> length m = col_length x -> length m' = col_length y -> splits append_col same_type (select_col (m ++ m') (append_col x y)) (select_col m x) (select_col m' y).
Proof.
  intros m m' [l|l] [k|k] S H H'; cbn [same_type] in S; try contradiction; cbn [select_col append_col col_length] in *; destruct (select_app m m' l k H H') as (r & r' & E & E' & E2); rewrite E, E', E2; cbn; auto.
Qed.
Lemma select_rows_splits : forall m m' a b na nb, alike a b -> has_rows na (pc_data a) -> has_rows nb (pc_data b) -> length m = na -> length m' = nb ->
  splits append alike (select_rows (m ++ m') (append a b)) (select_rows m a) (select_rows m' b).
Proof.
  intros m m' a b na nb H RA RB LM LM'. assert (NE : forall k k' d, has_rows k d -> has_rows k' d -> d = [] \/ k = k').
  { intros k k' [|x d] A B; auto. right. inversion A; inversion B; subst. congruence. }
  destruct H as (L & HA & HB & E1 & E2 & E3 & E4). unfold select_rows. cbn [append pc_data pc_vectors pc_invariants pc_position pc_velocity].
  eapply splits_bind.
  - apply (map_cols_splits _ (fun _ x => select_col m x) (fun _ x => select_col m' x) na nb); auto. intros n x y S X Y. apply select_col_splits; auto; congruence.
  - intros a' b' L' FA FB. rewrite E1, E2, E3, E4. apply (splits_same append alike (PCat a' (pc_position b) (pc_velocity b) (pc_vectors b) (pc_invariants b)) (PCat b' _ _ _ _)).
    assert (Z : forall mm d d' k, has_rows k d -> map_cols (fun _ x => select_col mm x) d = Ok d' -> has_rows (kept mm) d').
    { intros mm d d' k R F. eapply (map_cols_rows _ k (kept mm)); [|exact R|exact F]. intros n x x' G _. destruct x as [l|l]; cbn [select_col] in G; destruct (select mm l) eqn:SL; try discriminate; injection G as <-; eapply select_length; eauto. }
    split; [exact L'|]. split; [eauto|]. split; [eauto|]. auto.
Qed.

(** Boxes. *)
Lemma box_splits : forall (r ra rb : result pcat) size center size' center', splits append alike r ra rb -> size = size' -> center = center' ->
  splits append_box alike_box (do c <- r; Ok (BoxCat c size center)) (do c <- ra; Ok (BoxCat c size center)) (do c <- rb; Ok (BoxCat c size' center')).
Proof.
  intros r ra rb size center size' center' H -> ->. eapply splits_bind; [exact H|]. intros a b L _ _. apply (splits_same append_box alike_box (BoxCat a size' center') (BoxCat b size' center')). repeat split; auto; apply L.
Qed.
Lemma translate_splits : forall a b shift axis, alike_box a b -> splits append_box alike_box (translate (append_box a b) shift axis) (translate a shift axis) (translate b shift axis).
Proof.
  intros a b shift axis (H & E1 & E2). unfold translate. apply splits_common. intros s _. cbn [append_box bc_cat boxsize boxcenter]. apply box_splits; auto; [apply transform_vectors_splits; auto|rewrite E2; auto].
Qed.
Lemma rotate_splits : forall a b k axis, alike_box a b -> splits append_box alike_box (rotate (append_box a b) k axis) (rotate a k axis) (rotate b k axis).
Proof.
  intros a b k axis (H & E1 & E2). unfold rotate. apply splits_common. intros s _. cbn [append_box bc_cat boxsize boxcenter]. apply box_splits; auto; [apply transform_vectors_splits; auto|rewrite E1; auto|rewrite E2; auto].
Qed.
Lemma recenter_splits : forall a b, alike_box a b -> splits append_box alike_box (recenter (append_box a b)) (recenter a) (recenter b).
Proof. intros a b H. pose proof H as (_ & _ & E2). unfold recenter. cbn [append_box boxcenter]. rewrite <- E2. apply translate_splits. exact H. Qed.
Lemma subbox_splits : forall a b r u, alike_box a b -> splits append_box alike_box (subbox (append_box a b) r u) (subbox a r u) (subbox b r u).
Proof.
  intros a b r u (H & E1 & E2). unfold subbox, boxlow, boxhigh. cbn [append_box bc_cat boxsize boxcenter]. rewrite <- E1, <- E2.
  apply splits_common. intros l _. destruct l as [|r0 [|r1 [|r2 [|r3 l]]]]; try (cbn; eauto; fail). cbv zeta.
  destruct H as (L & [na HA] & [nb HB] & F1 & F2 & F3 & F4) eqn:HH. eapply splits_bind.
  - unfold position. cbn [append pc_position pc_data]. rewrite <- F1. apply get_vec_splits; auto.
  - intros pa pb _ PA PB. rewrite map_app. apply box_splits; auto. apply (select_rows_splits _ _ _ _ na nb); auto; rewrite map_length; eapply get_vec_length; eauto.
Qed.
Lemma remap_col_splits : forall k o co ti x y, same_type x y -> splits append_col same_type (remap_col k o co ti (append_col x y)) (remap_col k o co ti x) (remap_col k o co ti y).
Proof.
  intros k o co ti [l|l] [m|m] S; cbn [same_type] in S; try contradiction; cbn [append_col remap_col]; [|cbn; eauto]. destruct ti.
  - eapply splits_bind; [apply map_result_splits|]. intros a b _ _ _. apply (splits_same append_col same_type (ColV a) (ColV b)). exact Logic.I.
  - rewrite map_app. eapply splits_bind; [apply map_result_splits|]. intros a b _ _ _. rewrite map_app. apply (splits_same append_col same_type (ColV (map _ a)) (ColV (map _ b))). exact Logic.I.
Qed.
Lemma remap_col_length : forall k o co ti x x', remap_col k o co ti x = Ok x' -> col_length x' = col_length x.
Proof.
  intros k o co ti [l|l] x' E; cbn [remap_col] in E; [|discriminate]. unfold cu_transform in E. destruct ti.
  - destruct (map_result _ l) as [l'|] eqn:M; [|discriminate]. injection E as <-. cbn. eapply map_result_length; eauto.
  - destruct (map_result _ _) as [l'|] eqn:M; [|discriminate]. injection E as <-. cbn. apply map_result_length in M. rewrite map_length in *. auto.
Qed.
Lemma remap_splits : forall a b r, alike_box a b -> splits append_box alike_box (remap (append_box a b) r) (remap a r) (remap b r).
Proof.
  intros a b r (H & E1 & E2). unfold remap. cbn [append_box bc_cat boxsize boxcenter]. rewrite <- E1, <- E2. apply splits_common. intros k _. cbv zeta.
  set (off := vsub (boxcenter a) (vscale (1 / 2) (boxsize a))). set (coff := vsub (boxcenter a) (vscale (1 / 2) (cu_size k))).
  assert (X : forall (r : result data) p v vs is sz ce, (do d <- r; Ok (BoxCat (PCat d p v vs is) sz ce)) = (do c <- (do d <- r; Ok (PCat d p v vs is)); Ok (BoxCat c sz ce))) by (intros; destruct r0; reflexivity).
  rewrite !X. apply box_splits; auto. destruct H as (L & HA & HB & F1 & F2 & F3 & F4) eqn:HH. clear HH. cbn [append pc_vectors pc_invariants pc_position pc_velocity].
  apply (cols_splits _ _ _ (bc_cat a) (bc_cat b) (fun n => n) (fun n => n)).
  - repeat split; auto.
  - intros n x y na nb _ _ S _ _. rewrite <- F3, <- F4. destruct (mem n (pc_vectors (bc_cat a))); [apply remap_col_splits; auto|cbn; auto].
  - intros n x x' na _ E LX. destruct (mem n _); [|injection E as <-; auto]. rewrite (remap_col_length _ _ _ _ _ _ E). auto.
  - intros n x x' na _ E LX. destruct (mem n _); [|injection E as <-; auto]. rewrite (remap_col_length _ _ _ _ _ _ E). auto.
Qed.
Lemma step_splits : forall a b o, alike_box a b -> not_pad o -> splits append_box alike_box (box_step (append_box a b) o) (box_step a o) (box_step b o).
Proof.
  intros a b o H N. destruct o as [shift axis| |k axis|r u|f|r]; cbn [box_step]; [apply translate_splits|apply recenter_splits|apply rotate_splits|apply subbox_splits|contradiction|apply remap_splits]; auto.
Qed.
Lemma run_splits : forall l a b, alike_box a b -> Forall not_pad l -> splits append_box alike_box (box_run (append_box a b) l) (box_run a l) (box_run b l).
Proof.
  induction l as [|o l IH]; intros a b H N; cbn [box_run].
  - cbn; auto.
  - inversion N; subst. eapply splits_bind; [apply step_splits; auto|]. intros a' b' L _ _. apply IH; auto.
Qed.

(** Redshift space distortions. *)
Lemma map2_splits : forall {A B C} (f : A -> B -> result C) a a' b b', length a = length b -> splits (@List.app C) any (map2_result f (a ++ a') (b ++ b')) (map2_result f a b) (map2_result f a' b').
Proof.
  intros A B C f. induction a as [|x a IH]; intros a' [|y b] b' H; cbn in H; try discriminate; cbn [List.app map2_result].
  - destruct (map2_result f a' b'); cbn; eauto. split; auto. exact Logic.I.
  - specialize (IH a' b b' ltac:(lia)). destruct (f x y) as [z|e]; cbn [bind]; [|cbn; eauto]. destruct (map2_result f a b) as [l|e]; cbn [bind].
    + destruct (map2_result f a' b') as [m'|e]; cbn in IH |- *; [destruct IH as [-> _]; cbn; split; auto; exact Logic.I|destruct IH as [e' ->]; cbn; eauto].
    + cbn in IH |- *. destruct IH as [e' ->]; cbn; eauto.
Qed.
Lemma map2_length : forall {A B C} (f : A -> B -> result C) a b l, map2_result f a b = Ok l -> length l = length a /\ length b = length a.
Proof.
  intros A B C f. induction a as [|x a IH]; intros [|y b] l H; cbn [map2_result] in H; try discriminate; [injection H as <-; auto|]. destruct (f x y); [|discriminate]. cbn [bind] in H.
  destruct (map2_result f a b) as [l1|] eqn:E; [|discriminate]. injection H as <-. destruct (IH _ _ E). cbn. split; f_equal; auto.
Qed.
Lemma projection_rows : forall vs ds, length vs = length ds -> vector_projection vs ds = map2_result vector_projection1 vs ds.
Proof. intros [|v [|v' vs]] [|d [|d' ds]] H; cbn in H; try discriminate; reflexivity. Qed.
Lemma rsd_splits : forall a b f los, alike a b -> splits (@List.app vec) any (rsd_position (append a b) (FNum f) los) (rsd_position a (FNum f) los) (rsd_position b (FNum f) los).
Proof.
  intros a b f los (L & [na HA] & [nb HB] & F1 & F2 & F3 & F4). unfold rsd_position, position, velocity. cbn [append pc_position pc_velocity pc_data]. rewrite <- F1, <- F2.
  eapply splits_bind; [apply get_vec_splits; auto|]. intros pa pb _ PA PB. apply (get_vec_length _ na) in PA; auto. apply (get_vec_length _ nb) in PB; auto.
  assert (END : forall ra rb, length ra = na -> length rb = nb -> splits (@List.app vec) any (do rsd <- Ok (map (vscale f) (ra ++ rb)); map2_result (fun p r => Ok (vadd p r)) (pa ++ pb) rsd)
    (do rsd <- Ok (map (vscale f) ra); map2_result (fun p r => Ok (vadd p r)) pa rsd) (do rsd <- Ok (map (vscale f) rb); map2_result (fun p r => Ok (vadd p r)) pb rsd)).
  { intros ra rb LA LB. cbn [bind]. rewrite map_app. apply map2_splits. rewrite map_length. congruence. }
  destruct los as [x|].
  - apply splits_common. intros l E. destruct (get_los x) as [v|]; [|discriminate]. injection E as <-. eapply splits_bind; [apply get_vec_splits; auto|]. intros va vb _ VA VB.
    apply (get_vec_length _ na) in VA; auto. apply (get_vec_length _ nb) in VB; auto. eapply splits_bind.
    + unfold vector_projection. rewrite app_length, repeat_app. apply map2_splits. rewrite repeat_length. auto.
    + intros ra rb _ RA RB. apply map2_length in RA, RB. apply END; [destruct RA; congruence|destruct RB; congruence].
  - eapply splits_bind; [apply map_result_splits|]. intros la lb _ LA LB. apply map_result_length in LA, LB. eapply splits_bind; [apply get_vec_splits; auto|]. intros va vb _ VA VB.
    apply (get_vec_length _ na) in VA; auto. apply (get_vec_length _ nb) in VB; auto. eapply splits_bind.
    + rewrite !projection_rows by (rewrite ?app_length; congruence). apply map2_splits. congruence.
    + intros ra rb _ RA RB. rewrite projection_rows in RA by congruence. rewrite projection_rows in RB by congruence. apply map2_length in RA, RB. apply END; [destruct RA; congruence|destruct RB; congruence].
Qed.

(** Cut skies. *)
Lemma names_append : forall a b, like_data a b -> map fst (append_data a b) = map fst a /\ map fst b = map fst a.
Proof. intros a b L. induction L as [|[n x] [n' y] a b [E S] L [IH1 IH2]]; cbn in *; subst; [auto|]. rewrite IH1, IH2; auto. Qed.
Lemma set_col_append : forall n x y a b, like_data a b -> same_type x y -> set_col n (append_col x y) (append_data a b) = append_data (set_col n x a) (set_col n y b) /\ like_data (set_col n x a) (set_col n y b).
Proof.
  intros n x y a b L S. induction L as [|[m u] [m' w] a b [E S'] L [IH1 IH2]]; cbn [set_col append_data].
  - split; auto. repeat constructor; auto.
  - cbn [fst snd] in *. subst m'. destruct (String.eqb n m); cbn [append_data]; [split; auto; constructor; auto|]. rewrite IH1. split; auto. constructor; auto.
Qed.
Lemma set_col_rows : forall n k x d, has_rows k d -> col_length x = k -> has_rows k (set_col n x d).
Proof.
  intros n k x d R E. induction R as [|[m u] d E' R IH]; cbn [set_col]; [constructor; auto; constructor|]. destruct (String.eqb n m); constructor; auto.
Qed.
Lemma cutsky_splits : forall a b s mr ma rdd, alike_box a b -> opt row_mask mr -> opt mask_length mr -> opt row_mask2 ma -> opt mask_length2 ma ->
  splits append alike (cutsky_from_isometry1 (append_box a b) s mr ma rdd) (cutsky_from_isometry1 a s mr ma rdd) (cutsky_from_isometry1 b s mr ma rdd).
Proof.
  intros a b s mr ma rdd (H & _ & _) M1 M2 M3 M4. unfold cutsky_from_isometry1. cbn [append_box bc_cat]. cbv zeta. destruct H as (L & [na HA] & [nb HB] & F1 & F2 & F3 & F4).
  destruct (names_append _ _ L) as [N1 N2]. eapply (splits_bind append (fun x y => alike x y /\ has_rows na (pc_data x) /\ has_rows nb (pc_data y))).
  - cbn [append pc_data pc_position pc_velocity pc_vectors pc_invariants]. rewrite N1, N2, <- F1, <- F2, <- F3, <- F4.
    set (vs := filter _ (pc_vectors (bc_cat a))).
    set (A := pcat_new (pc_data (bc_cat a)) (pc_position (bc_cat a)) (pc_velocity (bc_cat a)) vs (pc_invariants (bc_cat a))). set (B := pcat_new (pc_data (bc_cat b)) (pc_position (bc_cat a)) (pc_velocity (bc_cat a)) vs (pc_invariants (bc_cat a))).
    assert (AL : alike A B) by (unfold A, B, pcat_new; repeat split; cbn; eauto). unfold cutsky_isometry.
    change (pcat_new (append_data (pc_data (bc_cat a)) (pc_data (bc_cat b))) (pc_position (bc_cat a)) (pc_velocity (bc_cat a)) vs (pc_invariants (bc_cat a))) with (append A B).
    pose proof (transform_vectors_splits s A B AL) as T. assert (K : forall c n d, has_rows n (pc_data c) -> transform_vectors s c = Ok d -> has_rows n (pc_data d)).
    { intros c n d R E. unfold transform_vectors in E. destruct (map_cols _ _) as [d'|] eqn:M; [|discriminate]. injection E as <-. cbn. eapply (map_cols_rows _ n n); [|exact R|exact M]. intros m x x' G LX. cbv beta in G; destruct (mem m (pc_vectors c)); [|injection G as <-; auto].
      destruct x; [|discriminate]. injection G as <-. cbn in *. unfold transform_all. rewrite map_length. auto. }
    destruct (transform_vectors s A) as [a'|e] eqn:TA; [destruct (transform_vectors s B) as [b'|e] eqn:TB|]; cbn [splits] in T |- *; auto. destruct T as [-> T]. split; auto. split; auto. split; [apply (K A)|apply (K B)]; auto.
  - clear HA HB L N1 N2 F1 F2 F3 F4. intros a0 b0 (AL & HA & HB) _ _. rename a into a1, b into b1. rename a0 into a, b0 into b. destruct AL as (L & _ & _ & F1 & F2 & F3 & F4). cbn [append pc_position pc_velocity pc_vectors pc_invariants pc_data]. unfold position. cbn [append pc_position pc_data]. rewrite <- F1.
    eapply splits_bind; [apply get_vec_splits; auto|]. intros pa pb _ PA PB. apply (get_vec_length _ na) in PA; auto. apply (get_vec_length _ nb) in PB; auto.
    eapply splits_bind; [apply map_result_splits|]. intros sa sb _ SA SB. apply map_result_length in SA, SB. rewrite !map_app.
    set (da := map (fun x : R * R * R => fst (fst x)) sa). set (ra := map (fun x : R * R * R => snd (fst x)) sa). set (ca := map snd sa). set (db := map (fun x : R * R * R => fst (fst x)) sb). set (rb := map (fun x : R * R * R => snd (fst x)) sb). set (cb := map snd sb).
    assert (LD : length da = na) by (unfold da; rewrite map_length; congruence). assert (LR : length ra = na) by (unfold ra; rewrite map_length; congruence). assert (LC : length ca = na) by (unfold ca; rewrite map_length; congruence).
    assert (LD' : length db = nb) by (unfold db; rewrite map_length; congruence). assert (LR' : length rb = nb) by (unfold rb; rewrite map_length; congruence). assert (LC' : length cb = nb) by (unfold cb; rewrite map_length; congruence).
    clearbody da ra ca db rb cb.
    set (W := match rdd with Some (nra, ndec, ndist) => _ | None => append a b end). set (WA := match rdd with Some (nra, ndec, ndist) => _ | None => a end). set (WB := match rdd with Some (nra, ndec, ndist) => _ | None => b end).
    assert (Q : W = append WA WB /\ alike WA WB /\ has_rows na (pc_data WA) /\ has_rows nb (pc_data WB)).
    { unfold W, WA, WB. destruct rdd as [[[n1 n2] n3]|].
      - destruct (set_col_append n1 (ColS ra) (ColS rb) _ _ L Logic.I) as [Q1 L1]. destruct (set_col_append n2 (ColS ca) (ColS cb) _ _ L1 Logic.I) as [Q2 L2]. destruct (set_col_append n3 (ColS da) (ColS db) _ _ L2 Logic.I) as [Q3 L3].
        cbn [append_col] in Q1, Q2, Q3. rewrite Q1, Q2, Q3. split; [reflexivity|].
        assert (R1 : has_rows na (set_col n3 (ColS da) (set_col n2 (ColS ca) (set_col n1 (ColS ra) (pc_data a))))) by (repeat apply set_col_rows; auto).
        assert (R2 : has_rows nb (set_col n3 (ColS db) (set_col n2 (ColS cb) (set_col n1 (ColS rb) (pc_data b))))) by (repeat apply set_col_rows; auto).
        split; [|auto]. repeat split; cbn; eauto.
      - repeat split; eauto. }
    destruct Q as (-> & AL & RA & RB). clearbody WA WB. destruct mr as [mr|].
    + cbn [opt] in M1, M2. eapply (splits_bind (@List.app bool) (fun x y => length x = na /\ length y = nb)).
      * rewrite M1. destruct ma as [ma|]; [|cbn [splits]; split; auto; rewrite !M2; auto].
        cbn [opt] in M3, M4. rewrite M3 by congruence. unfold mask_and. pose proof (map2_splits (fun x y : bool => Ok (x && y)) (mr da) (mr db) (ma ra ca) (ma rb cb)) as X. rewrite M2, M4 in X by congruence. specialize (X ltac:(congruence)).
        destruct (map2_result _ (mr da) _) as [ka|e] eqn:KA; [destruct (map2_result _ (mr db) _) as [kb|e] eqn:KB|]; cbn [splits] in X |- *; auto. destruct X as [-> _]. split; auto. apply map2_length in KA, KB. rewrite !M2 in *. destruct KA, KB; split; congruence.
      * intros ka kb [KA KB] _ _. apply (select_rows_splits _ _ _ _ na nb); auto.
    + destruct ma as [ma|]; [|cbn [splits]; auto]. cbn [opt] in M3, M4. rewrite M3 by congruence. apply (select_rows_splits _ _ _ _ na nb); auto; rewrite M4; congruence.
Qed.
