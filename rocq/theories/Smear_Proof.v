(** Lemmas on redshift smearing. *)
Require Import Reals Lra Lia ZArith List Bool.
From Verif Require Import Base Cutsky_Model Box_Model Mask_Model Sample_Model Smear_Model Smear_Spec Density_Proof Mask_Proof.
Import ListNotations.
Open Scope R_scope.

Lemma linspace_length : forall a b n, length (linspace a b n) = n.
Proof. intros. unfold linspace. rewrite map_length. apply seq_length. Qed.
Lemma linspace_nth : forall a b n i, (i < n)%nat -> nth i (linspace a b n) 0 = a + (b - a) * (INR i / INR (n - 1)).
Proof.
  intros a b n i H. unfold linspace. rewrite nth_indep with (d' := (fun i => a + (b - a) * (INR i / INR (n - 1))) 0%nat) by (rewrite map_length, seq_length; auto).
  rewrite map_nth with (f := fun i => a + (b - a) * (INR i / INR (n - 1))). rewrite seq_nth by auto. reflexivity.
Qed.
Lemma frac_unit : forall i n, (i < n)%nat -> (2 <= n)%nat -> 0 <= INR i / INR (n - 1) <= 1.
Proof.
  intros i n H N. assert (P : 0 < INR (n - 1)) by (apply lt_0_INR; lia). assert (Q : INR i <= INR (n - 1)) by (apply le_INR; lia). pose proof (pos_INR i).
  split; [apply Rmult_le_pos; [auto|left; apply Rinv_0_lt_compat; auto]|]. apply Rmult_le_reg_r with (INR (n - 1)); auto. unfold Rdiv. rewrite Rmult_assoc, Rinv_l by lra. lra.
Qed.
Lemma frac_mono : forall i j n, (i <= j)%nat -> (2 <= n)%nat -> INR i / INR (n - 1) <= INR j / INR (n - 1).
Proof. intros. apply Rmult_le_compat_r; [left; apply Rinv_0_lt_compat; apply lt_0_INR; lia|apply le_INR; auto]. Qed.
Lemma linspace_last : forall a b n, (2 <= n)%nat -> last (linspace a b n) 0 = b.
Proof. intros a b n H. rewrite last_nth, linspace_length, linspace_nth by lia. unfold Rdiv. rewrite Rinv_r by (apply not_0_INR; lia). ring. Qed.
Lemma linspace_first : forall a b n, (2 <= n)%nat -> nth 0 (linspace a b n) 0 = a.
Proof. intros a b n H. rewrite linspace_nth by lia. cbn [INR]. unfold Rdiv. ring. Qed.

Lemma select_combine : forall mask (a b : list R), length a = length b -> combine (select_by mask a) (select_by mask b) = select_by mask (combine a b).
Proof. induction mask as [|m mask IH]; intros [|x a] [|y b] H; try discriminate; auto. injection H as H. cbn. destruct m; cbn; rewrite IH; auto. Qed.
Lemma select_length : forall mask (a b : list R), length a = length b -> length (select_by mask a) = length (select_by mask b).
Proof. induction mask as [|m mask IH]; intros [|x a] [|y b] H; try discriminate; auto. injection H as H. cbn. destruct m; cbn; auto. Qed.
Lemma select_In : forall {A} mask (l : list A) x, In x (select_by mask l) -> exists i, nth_error mask i = Some true /\ nth_error l i = Some x.
Proof.
  induction mask as [|m mask IH]; intros [|y l] x H; try easy. cbn in H. destruct m.
  - destruct H as [<-|H]; [exists 0%nat; auto|]. destruct (IH _ _ H) as [i [? ?]]. exists (S i); auto.
  - destruct (IH _ _ H) as [i [? ?]]. exists (S i); auto.
Qed.
Lemma select_In_conv : forall {A} mask (l : list A) i x, nth_error mask i = Some true -> nth_error l i = Some x -> In x (select_by mask l).
Proof.
  induction mask as [|m mask IH]; intros [|y l] [|i] x H1 H2; try discriminate; cbn in *.
  - injection H1 as ->. injection H2 as ->. left; auto.
  - destruct m; [right|]; eapply IH; eauto.
Qed.
(** Order is kept by selection. *)
Fixpoint ordered (l : list R) : Prop := match l with [] => True | a :: t => (forall x, In x t -> a <= x) /\ ordered t end.
Lemma ordered_nth : forall l, ordered l <-> forall i j, (i <= j < length l)%nat -> nth i l 0 <= nth j l 0.
Proof.
  induction l as [|a l IH]; cbn; [split; auto; intros; lia|]. split.
  - intros [H1 H2] [|i] [|j] H; cbn [nth]; try lra; try lia; [apply H1; apply nth_In; lia|]. apply (proj1 IH H2). lia.
  - intros H. split.
    + intros x I. destruct (In_nth _ _ 0 I) as (j & Hj & <-). apply (H 0%nat (S j)). lia.
    + apply IH. intros i j Hij. apply (H (S i) (S j)). lia.
Qed.
Lemma ordered_app : forall a b, ordered a -> ordered b -> (forall x y, In x a -> In y b -> x <= y) -> ordered (a ++ b).
Proof.
  induction a as [|x a IH]; intros b Ha Hb H; cbn; auto. destruct Ha as [H1 H2]. split.
  - intros y I. apply in_app_or in I. destruct I; auto. apply H; auto. left; auto.
  - apply IH; auto. intros; apply H; auto. right; auto.
Qed.
Lemma ordered_select : forall mask l, ordered l -> ordered (select_by mask l).
Proof.
  induction mask as [|m mask IH]; intros [|a l] H; cbn; auto. destruct H as [H1 H2]. destruct m; auto. cbn. split; auto.
  intros x I. apply H1. apply select_In in I. destruct I as (i & _ & E). apply nth_error_In in E. auto.
Qed.
Lemma proper_padded : forall mask c, ordered c -> (forall x, In x c -> 0 <= x <= 1) -> proper_cdf (padded mask c 0 1).
Proof.
  intros mask c O B. unfold padded. assert (S : forall x, In x (select_by mask c) -> 0 <= x <= 1).
  { intros x I. apply B. apply select_In in I. destruct I as (i & _ & E). apply nth_error_In in E. auto. }
  split; [cbn; rewrite app_length; cbn; lia|]. split; [reflexivity|]. split; [change (0 :: select_by mask c ++ [1]) with ((0 :: select_by mask c) ++ [1]); apply last_last|].
  apply ordered_nth. cbn. split.
  - intros x I. apply in_app_or in I. destruct I as [I|[<-|[]]]; [destruct (S x I)|]; lra.
  - apply ordered_app; [apply ordered_select; auto|cbn; easy|]. intros x y I [<-|[]]. apply S; auto.
Qed.

(** Cumulative sums. *)
Lemma cumsum_from_nth : forall l s i, (i < length l)%nat -> nth i (cumsum_from s l) 0 = s + Rsum (firstn (S i) l).
Proof.
  induction l as [|x l IH]; intros s i H; cbn [length] in H; [lia|]. destruct i; [cbn; ring|]. cbn [cumsum_from nth]. rewrite IH by lia.
  change (firstn (S (S i)) (x :: l)) with (x :: firstn (S i) l). change (Rsum (x :: firstn (S i) l)) with (x + Rsum (firstn (S i) l)). ring.
Qed.
Lemma cumsum_from_length : forall l s, length (cumsum_from s l) = length l.
Proof. induction l; intros; cbn; auto. Qed.
Lemma cumsum_from_ordered : forall l s, (forall x, In x l -> 0 <= x) -> ordered (cumsum_from s l) /\ forall c, In c (cumsum_from s l) -> s <= c.
Proof.
  induction l as [|x l IH]; intros s P; cbn; [easy|]. destruct (IH (s + x)) as [O L]; [intros; apply P; right; auto|]. pose proof (P x (or_introl eq_refl)).
  split; [split; auto|]. intros c [<-|I]; [lra|]. specialize (L c I). lra.
Qed.
Lemma Rsum_tl : forall l i, (1 <= length l)%nat -> Rsum (firstn (S i) l) - nth 0 l 0 = Rsum (firstn i (tl l)).
Proof. intros [|x l] i H; cbn [length] in H; [lia|]. cbn [firstn nth tl]. change (Rsum (x :: firstn i l)) with (x + Rsum (firstn i l)). ring. Qed.

Lemma map_result_length : forall {A B} (f : A -> result B) l r, map_result f l = Ok r -> length r = length l.
Proof. intros A B f l r H. apply map_result_inv in H. induction H; cbn; auto. Qed.
Lemma forall2_nth : forall {A B} (P : A -> B -> Prop) l r da db i, Forall2 P l r -> (i < length l)%nat -> P (nth i l da) (nth i r db).
Proof. intros A B P l r da db i H. revert i. induction H; intros i Hi; cbn [length] in Hi; [lia|]. destruct i; cbn; auto. apply IHForall2. lia. Qed.

(** A normalised cdf: cumulated mass over total mass, both without the first row. *)
Lemma normalized_spec : forall pdf cdf, normalized_cdf pdf = Ok cdf -> (1 <= length pdf)%nat ->
  length cdf = length pdf /\ Rsum (tl pdf) <> 0 /\ forall i, (i < length pdf)%nat -> nth i cdf 0 = Rsum (firstn i (tl pdf)) / Rsum (tl pdf).
Proof.
  intros pdf cdf H L. unfold normalized_cdf in H. set (c := cumsum pdf) in *. assert (LC : length c = length pdf) by apply cumsum_from_length.
  pose proof (map_result_length _ _ _ H) as LR. rewrite LC in LR. split; auto.
  assert (H0 : hd 0 c = nth 0 pdf 0) by (unfold c; destruct pdf; cbn; [auto|ring]).
  assert (HL : last c 0 = Rsum pdf).
  { rewrite last_nth, LC. unfold c, cumsum. rewrite cumsum_from_nth by lia. replace (S (length pdf - 1)) with (length pdf) by lia. rewrite firstn_all. ring. }
  assert (T : last c 0 - hd 0 c = Rsum (tl pdf)).
  { rewrite H0, HL. pose proof (Rsum_tl pdf (length pdf) L) as Q. rewrite (firstn_all2 (n := S (length pdf))) in Q by lia. rewrite Q. f_equal. apply firstn_all2. destruct pdf; cbn in *; lia. }
  apply map_result_inv in H.
  assert (N : forall i, (i < length pdf)%nat -> fdiv (nth i c 0 - hd 0 c) (last c 0 - hd 0 c) = Ok (nth i cdf 0)) by (intros i Hi; apply (forall2_nth _ _ _ 0 0 i H); lia).
  rewrite T in N. assert (NZ : Rsum (tl pdf) <> 0). { intros E. specialize (N 0%nat ltac:(lia)). unfold fdiv in N. rewrite E in N. destruct (Req_EM_T 0 0); [discriminate|lra]. }
  split; auto. intros i Hi. specialize (N i Hi). unfold fdiv in N. destruct (Req_EM_T _ 0); [contradiction|]. injection N as <-.
  f_equal. rewrite H0. unfold c, cumsum. rewrite cumsum_from_nth by auto. rewrite <- Rsum_tl by auto. ring.
Qed.
Lemma Rsum_nonneg : forall l, (forall x, In x l -> 0 <= x) -> 0 <= Rsum l.
Proof. induction l as [|x l IH]; intros H; cbn; [lra|]. pose proof (H x (or_introl eq_refl)). assert (0 <= Rsum l) by (apply IH; intros; apply H; right; auto). unfold Rsum in *. lra. Qed.
Lemma Rsum_firstn_le : forall l i j, (forall x, In x l -> 0 <= x) -> (i <= j)%nat -> Rsum (firstn i l) <= Rsum (firstn j l).
Proof.
  induction l as [|x l IH]; intros i j H Hij; [rewrite !firstn_nil; lra|]. destruct i, j; try lia; cbn [firstn].
  - cbn; lra.
  - change (Rsum (x :: firstn j l)) with (x + Rsum (firstn j l)). pose proof (H x (or_introl eq_refl)).
    assert (0 <= Rsum (firstn j l)). { apply Rsum_nonneg. intros y I. apply H. right. rewrite <- (firstn_skipn j l). apply in_or_app. auto. } cbn; lra.
  - change (x + Rsum (firstn i l) <= x + Rsum (firstn j l)). assert (Rsum (firstn i l) <= Rsum (firstn j l)) by (apply IH; [intros; apply H; right; auto|lia]). lra.
Qed.
Lemma normalized_proper : forall pdf cdf, normalized_cdf pdf = Ok cdf -> (1 <= length pdf)%nat -> (forall x, In x pdf -> 0 <= x) ->
  ordered cdf /\ forall x, In x cdf -> 0 <= x <= 1.
Proof.
  intros pdf cdf H L P. destruct (normalized_spec _ _ H L) as (LC & NZ & N).
  assert (PT : forall x, In x (tl pdf) -> 0 <= x) by (intros x I; apply P; destruct pdf; [contradiction|right; auto]).
  assert (S : 0 < Rsum (tl pdf)) by (pose proof (Rsum_nonneg _ PT); lra).
  assert (I0 : 0 < / Rsum (tl pdf)) by (apply Rinv_0_lt_compat; auto). split.
  - apply ordered_nth. intros i j Hij. rewrite !N by lia. apply Rmult_le_compat_r; [lra|]. apply Rsum_firstn_le; auto; lia.
  - intros x I. destruct (In_nth _ _ 0 I) as (i & Hi & <-). rewrite N by lia. pose proof (Rsum_firstn_le (tl pdf) 0 i PT ltac:(lia)) as A.
    pose proof (Rsum_firstn_le (tl pdf) i (Nat.max i (length (tl pdf))) PT ltac:(lia)) as B. rewrite (firstn_all2 (n := Nat.max _ _)) in B by lia. cbn in A.
    split; [apply Rmult_le_pos; lra|]. apply Rmult_le_reg_r with (Rsum (tl pdf)); auto. unfold Rdiv. rewrite Rmult_assoc, Rinv_l by auto. lra.
Qed.

(** What the construction of the interpolation does. *)
Lemma set_interp_inv : forall sp m m', set_interp sp m = Ok m' ->
  let u := linspace 0 1 (length (hd [] (m_dz m))) in
  m_dz m' = m_dz m /\ m_z m' = m_z m /\ m_cdf m' = m_cdf m /\ m_support m' = m_support m /\ m_transform m' = m_transform m /\
  Forall2 (fun c t => ppf_column sp u (fst c) (snd c) = Ok t) (combine (m_dz m) (m_cdf m)) (m_table m') /\
  Forall2 (fun t f => sp u t = Ok f) (m_table m') (m_spline m') /\
  (2 <= length (m_z m))%nat /\ length (m_z m) = length (m_table m') /\ sorted (m_z m).
Proof.
  intros sp m m' H u. unfold set_interp in H. fold u in H. destruct (map_result _ (combine _ _)) as [table|] eqn:E1; [|discriminate]. cbn [bind] in H.
  destruct (map_result (sp u) table) as [fs|] eqn:E2; [|discriminate]. cbn [bind] in H. destruct (_ && _) eqn:E3; [|discriminate]. injection H as <-.
  apply andb_prop in E3. destruct E3 as [E3 E5]. apply andb_prop in E3. destruct E3 as [E3 E4]. apply Nat.leb_le in E3. apply Nat.eqb_eq in E4. cbn.
  apply map_result_inv in E1. apply map_result_inv in E2. repeat (split; auto).
Qed.
Lemma clip_range : forall x lo hi, lo <= hi -> lo <= Rclip x lo hi <= hi.
Proof. intros. unfold Rclip, Rmin, Rmax. repeat destruct Rle_dec; lra. Qed.
Lemma clip_id : forall x lo hi, lo <= x <= hi -> Rclip x lo hi = x.
Proof. intros. unfold Rclip, Rmin, Rmax. repeat destruct Rle_dec; lra. Qed.
Lemma padded_ends : forall mask l a b, hd 0 (padded mask l a b) = a /\ last (padded mask l a b) 0 = b.
Proof. intros. unfold padded. split; auto. change (a :: select_by mask l ++ [b]) with ((a :: select_by mask l) ++ [b]). apply last_last. Qed.
Lemma ppf_column_inv : forall sp u dz cdf t, ppf_column sp u dz cdf = Ok t ->
  length t = length u /\ (hd 0 dz <= last dz 0 -> Forall (fun x => hd 0 dz <= x <= last dz 0) t) /\
  let mask := map (fun c => Rltb tiny c && Rltb c (1 - tiny)) cdf in
  exists f, sp (padded mask cdf 0 1) (padded mask dz (hd 0 dz) (last dz 0)) = Ok f /\ forall i, (i < length u)%nat -> nth i t 0 = Rclip (f (nth i u 0)) (hd 0 dz) (last dz 0).
Proof.
  intros sp u dz cdf t H. unfold ppf_column in H. cbv zeta in H. set (mask := map _ cdf) in *. destruct (sp _ _) as [f|] eqn:E; [|discriminate]. cbn [bind] in H.
  destruct (padded_ends mask dz (hd 0 dz) (last dz 0)) as [P1 P2]. rewrite P1, P2 in H. injection H as <-.
  split; [apply map_length|]. split.
  - intros O. apply Forall_forall. intros x I. apply in_map_iff in I. destruct I as [y [<- _]]. apply clip_range. auto.
  - exists f. split; auto. intros i Hi. rewrite nth_indep with (d' := (fun x => Rclip (f x) (hd 0 dz) (last dz 0)) 0) by (rewrite map_length; auto).
    rewrite map_nth with (f := fun x => Rclip (f x) (hd 0 dz) (last dz 0)). auto.
Qed.

(** Linear interpolation inside of the table stays between the extremes. *)
Lemma lin_inside : forall z y x lo hi, sorted z -> length z = length y -> (2 <= length z)%nat -> hd 0 z <= x <= last z 0 -> Forall (fun v => lo <= v <= hi) y -> lo <= lin z y x <= hi.
Proof.
  induction z as [|z0 [|z1 z] IH]; intros y x lo hi S L L2 X F; cbn [length] in L2; try lia. destruct y as [|y0 [|y1 y]]; try discriminate.
  apply sorted_cons in S. destruct S as [S1 S2]. rewrite lin_step. inversion F as [|? ? F0 F']; subst. inversion F' as [|? ? F1 F'']; subst. cbn [hd] in X.
  unfold Rltb, Rleb. destruct (Rlt_dec x z0); [lra|]. destruct (Rle_dec x z1).
  - apply segment_between; auto. apply frac_range; lra.
  - destruct z as [|z2 z]; [cbn in X; lra|]. apply IH; auto; [cbn; lia|]. cbn [hd]. change (last (z0 :: z1 :: z2 :: z) 0) with (last (z1 :: z2 :: z) 0) in X. lra.
Qed.
Lemma clip_between : forall x lo hi, lo <= hi -> lo <= Rclip x lo hi <= hi. Proof. exact clip_range. Qed.
Lemma sorted_ends : forall z, sorted z -> (1 <= length z)%nat -> hd 0 z <= last z 0.
Proof. intros [|a z] S L; cbn [length] in L; [lia|]. apply (sorted_last z a S). Qed.
Lemma nth_map : forall {A B} (f : A -> B) l i d d', (i < length l)%nat -> nth i (map f l) d' = f (nth i l d).
Proof. intros A B f l i d d' H. rewrite nth_indep with (d' := f d) by (rewrite map_length; auto). apply map_nth. Qed.
