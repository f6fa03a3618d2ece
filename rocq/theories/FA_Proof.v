(** Lemmas on fibre assignment. *)
Require Import Reals ZArith List Bool Permutation Lia Sorted.
From Verif Require Import Base Box_Model Blind_Model Blind_Thm2 FA_Model FA_Spec.
Import ListNotations.
Open Scope Z_scope.

Lemma list_eqb_eq : forall l m, list_eqb Nat.eqb l m = true <-> l = m.
Proof.
  induction l as [|a l IH]; intros [|b m]; cbn; split; intros H; try discriminate; auto.
  - apply andb_true_iff in H. destruct H as [H1 H2]. apply Nat.eqb_eq in H1. apply IH in H2. subst. auto.
  - injection H as -> ->. rewrite Nat.eqb_refl. apply IH. auto.
Qed.
Lemma existsb_in : forall x l, existsb (Z.eqb x) l = true <-> In x l.
Proof. intros. rewrite existsb_exists. split; [intros (y & H & E); apply Z.eqb_eq in E; subst; auto|intros H; exists x; split; auto; apply Z.eqb_refl]. Qed.
Lemma existsb_notin : forall x l, existsb (Z.eqb x) l = false <-> ~ In x l.
Proof. intros. rewrite <- existsb_in. destruct (existsb (Z.eqb x) l); split; congruence. Qed.
Lemma zassoc_in : forall A k (l : list (Z * A)) a, zassoc k l = Some a -> In (k, a) l.
Proof. induction l as [|[n b] l IH]; cbn; intros a H; [discriminate|]. destruct (n =? k) eqn:E; [apply Z.eqb_eq in E; injection H as <-; subst; auto|auto]. Qed.
Lemma zassoc_none : forall A k (l : list (Z * A)), zassoc k l = None <-> ~ In k (map fst l).
Proof.
  induction l as [|[n b] l IH]; cbn; [tauto|]. destruct (n =? k) eqn:E; [apply Z.eqb_eq in E; split; [discriminate|intros N; exfalso; auto]|]. apply Z.eqb_neq in E. rewrite IH. tauto.
Qed.
Lemma zassoc_nodup : forall A k (l : list (Z * A)) a, NoDup (map fst l) -> In (k, a) l -> zassoc k l = Some a.
Proof.
  induction l as [|[n b] l IH]; cbn; intros a ND H; [contradiction|]. inversion ND as [|x xs N ND']; subst. destruct H as [H|H]; [injection H as -> ->; rewrite Z.eqb_refl; auto|].
  destruct (n =? k) eqn:E; [apply Z.eqb_eq in E; subst; exfalso; apply N, in_map_iff; exists (k, a); auto|auto].
Qed.
Lemma filter_idem : forall A (f : A -> bool) l, (forall a, In a l -> f a = true) -> filter f l = l.
Proof. induction l as [|a l IH]; intros H; cbn; auto. rewrite H by (cbn; auto). rewrite IH; auto. intros; apply H; cbn; auto. Qed.
Lemma first_rows_spec : forall l seen t f, In (t, f) (first_rows seen l) -> In (t, f) l /\ ~ In t seen.
Proof.
  induction l as [|[t0 f0] l IH]; cbn; intros seen t f H; [contradiction|]. destruct (existsb (Z.eqb t0) seen) eqn:E; [destruct (IH _ _ _ H); auto|].
  destruct H as [H|H]; [injection H as -> ->; split; auto; apply existsb_notin; auto|]. destruct (IH _ _ _ H) as [H1 H2]. cbn in H2. tauto.
Qed.
Lemma first_rows_nodup : forall l seen, NoDup (map fst (first_rows seen l)).
Proof.
  induction l as [|[t0 f0] l IH]; cbn; intros seen; [constructor|]. destruct (existsb (Z.eqb t0) seen) eqn:E; [apply IH|]. cbn. constructor; [|apply IH].
  intros H. apply in_map_iff in H. destruct H as ([t f] & H1 & H2). cbn in H1. subst. apply first_rows_spec in H2. destruct H2 as [_ H2]. apply H2. cbn. auto.
Qed.
Lemma first_rows_all : forall l seen t, In t (map fst l) -> ~ In t seen -> In t (map fst (first_rows seen l)).
Proof.
  induction l as [|[t0 f0] l IH]; cbn; intros seen t H N; [contradiction|]. destruct (existsb (Z.eqb t0) seen) eqn:E.
  - apply existsb_in in E. apply IH; auto. destruct H as [<-|H]; [contradiction|auto].
  - destruct (Z.eq_dec t0 t); [cbn; auto|]. cbn. right. apply IH; [destruct H; [contradiction|auto]|]. cbn. tauto.
Qed.

(** The two tables of a tile, fibres that work only. *)
Definition touch (info : list (Z * Z) * list (Z * Z)) (r : prow) : prow := mark_assigned (fst info) (mark_available (snd info) r).
Definition kept (good : Z -> bool) (l : list (Z * Z)) : list (Z * Z) := filter (fun x : Z * Z => good (snd x)) l.
Definition tile_info (w : world) (t : Z) (rows : list prow) : result (list (Z * Z) * list (Z * Z)) :=
  do info <- extract_info (w_fiber w t) (w_science w) (w_assign w t rows);
  do good <- w_good w t;
  Ok (kept good (fst info), kept good (snd info)).
Lemma one_tile_eq : forall w t rows, one_tile w t rows = do info <- tile_info w t rows; Ok (map (touch info) rows).
Proof. intros. unfold one_tile, tile_info. destruct (extract_info _ _ _) as [info|]; cbn [bind]; auto. destruct (w_good w t) as [good|]; cbn [bind]; auto. Qed.

(** Facts on the tables of a tile. *)
Lemma extract_facts : forall fiber science a assigned avail, extract_info fiber science a = Ok (assigned, avail) ->
  (forall i f, In (i, f) assigned <-> exists x, In (x, i) (a_located a) /\ science i = true /\ fiber x = Ok f) /\
  (forall i f, In (i, f) avail -> exists x l, In (x, l) (a_avail a) /\ In i l /\ science i = true /\ fiber x = Ok f /\ In f (map snd assigned)) /\
  (forall i x l f, In (x, l) (a_avail a) -> In i l -> science i = true -> fiber x = Ok f -> In f (map snd assigned) -> In i (map fst avail)) /\
  (NoDup (map snd (a_located a)) -> NoDup (map fst assigned)) /\ NoDup (map fst avail).
Proof.
  intros fiber science a assigned avail H. unfold extract_info in H.
  destruct (filter (fun x : Z * Z => science (snd x)) (a_located a)) as [|x0 l0] eqn:EF.
  - apply ok_inj_p in H. injection H as <- <-. assert (N : forall x i, In (x, i) (a_located a) -> science i = true -> False).
    { intros x i H1 H2. assert (K : In (x, i) (filter (fun x : Z * Z => science (snd x)) (a_located a))) by (apply filter_In; auto). rewrite EF in K. contradiction. }
    split; [|split; [|split; [|split]]]; try (cbn; intros; constructor); try (cbn; intros; contradiction).
    cbn. intros [x [H1 [H2 _] ] ]. exact (N x i H1 H2).
  - rewrite <- EF in H. set (located := filter _ (a_located a)) in H. clear EF x0 l0.
    destruct (map_result (fun x : Z * Z => do f <- fiber (fst x); Ok (snd x, f)) located) as [asg|] eqn:EA; [|discriminate]. cbn [bind] in H.
    destruct (map_result (fun x : Z * list Z => do f <- fiber (fst x); Ok (f, snd x)) (a_avail a)) as [av|] eqn:EV; [|discriminate]. cbn [bind] in H. cbv zeta in H.
    set (pairs := flat_map _ _) in H. assert (K : asg = assigned /\ first_rows [] pairs = avail). { destruct pairs; [discriminate|]. apply ok_inj_p in H. injection H as <- <-. auto. } clear H. destruct K as [-> K].
    apply map_result_forall2 in EA. apply map_result_forall2 in EV.
    assert (FA : forall l m, Forall2 (fun (x : Z * Z) y => (do f <- fiber (fst x); Ok (snd x, f)) = Ok y) l m -> map snd l = map fst m /\ forall i f, In (i, f) m <-> exists x, In (x, i) l /\ fiber x = Ok f).
    { clear. induction 1 as [|[x i] [i' f'] l m E F IH]; [split; auto; intros; cbn; firstorder|]. cbn in E. destruct (fiber x) as [f0|] eqn:EX; [|discriminate]. cbn [bind] in E. apply ok_inj_p in E. injection E as <- <-. destruct IH as [IH1 IH2]. split; [cbn; f_equal; auto|].
      intros j f. cbn. rewrite IH2. split.
      - intros [H|(y & H1 & H2)]; [injection H as <- <-; exists x; auto|exists y; auto].
      - intros (y & [H|H] & H2); [injection H as <- <-; left; congruence|right; exists y; auto]. }
    destruct (FA _ _ EA) as [A1 A2]. clear FA EA.
    assert (FV : forall l m, Forall2 (fun (x : Z * list Z) y => (do f <- fiber (fst x); Ok (f, snd x)) = Ok y) l m -> forall f k, In (f, k) m <-> exists x, In (x, k) l /\ fiber x = Ok f).
    { clear. induction 1 as [|[x i] [f' i'] l m E F IH]; [intros; cbn; firstorder|]. cbn in E. destruct (fiber x) as [f0|] eqn:EX; [|discriminate]. cbn [bind] in E. apply ok_inj_p in E. injection E as <- <-.
      intros f k. cbn. rewrite IH. split.
      - intros [H|(y & H1 & H2)]; [injection H as <- <-; exists x; auto|exists y; auto].
      - intros (y & [H|H] & H2); [injection H as <- <-; left; congruence|right; exists y; auto]. }
    pose proof (FV _ _ EV) as V. clear FV EV.
    assert (P : forall i f, In (i, f) pairs <-> exists k, In (f, k) av /\ In f (map snd assigned) /\ In i k /\ science i = true).
    { intros i f. unfold pairs. rewrite in_flat_map. split.
      - intros ([f0 k] & H1 & H2). apply filter_In in H1. destruct H1 as [H1 H3]. cbn in H2, H3. apply existsb_in in H3. apply in_map_iff in H2. destruct H2 as (i0 & H2 & H4). injection H2 as <- <-. apply filter_In in H4. exists k. tauto.
      - intros (k & H1 & H2 & H3 & H4). exists (f, k). split; [apply filter_In; split; auto; apply existsb_in; auto|]. cbn. apply in_map_iff. exists i. split; auto. apply filter_In. auto. }
    split; [|split; [|split; [|split] ] ].
    + intros i f. rewrite A2. split; intros (x & H1 & H2); [apply filter_In in H1; destruct H1; exists x; auto|exists x; destruct H2; split; auto; apply filter_In; auto].
    + intros i f H. rewrite <- K in H. apply first_rows_spec in H. destruct H as [H _]. apply P in H. destruct H as (k & H1 & H2 & H3 & H4). apply V in H1. destruct H1 as (x & H1 & H5). exists x, k. auto 6.
    + intros i x l f H1 H2 H3 H4 H5. rewrite <- K. apply first_rows_all; [|cbn; auto]. apply in_map_iff. exists (i, f). split; auto. apply P. exists l. repeat split; auto. apply V. exists x. auto.
    + intros ND. rewrite <- A1. unfold located. clear - ND. induction (a_located a) as [|[x i] l IH]; cbn; [constructor|]. cbn in ND. inversion ND as [|y ys N ND']; subst. destruct (science i); cbn; auto. constructor; auto. intros H. apply N. apply in_map_iff in H. destruct H as (z & H1 & H2). apply filter_In in H2. apply in_map_iff. exists z. tauto.
    + rewrite <- K. apply first_rows_nodup.
Qed.

(** Touching a row keeps its identity. *)
Definition same_row (r r' : prow) : Prop := p_id r' = p_id r /\ p_tile r' = p_tile r /\ p_index r' = p_index r.
Lemma touch_row : forall info r, same_row r (touch info r).
Proof. intros [a v] r. unfold touch, mark_assigned, mark_available, same_row. cbn [fst snd]. destruct (zassoc (p_id r) v); cbn [p_id]; destruct (zassoc (p_id r) a); cbn; auto. Qed.
Lemma touch_budget : forall info r, p_more (touch info r) + p_numobs (touch info r) = p_more r + p_numobs r.
Proof. intros [a v] r. unfold touch, mark_assigned, mark_available. cbn [fst snd]. destruct (zassoc (p_id r) v); cbn [p_id]; destruct (zassoc (p_id r) a); cbn; lia. Qed.
Lemma touch_none : forall info r, ~ In (p_id r) (map fst (fst info)) -> ~ In (p_id r) (map fst (snd info)) -> touch info r = r.
Proof. intros [a v] r H1 H2. unfold touch, mark_assigned, mark_available. cbn [fst snd] in *. apply zassoc_none in H1, H2. rewrite H2, H1. auto. Qed.
Definition touches (infos : list (list (Z * Z) * list (Z * Z))) (r : prow) : prow := fold_left (fun r i => touch i r) infos r.
Lemma touches_row : forall infos r, same_row r (touches infos r) /\ p_more (touches infos r) + p_numobs (touches infos r) = p_more r + p_numobs r.
Proof.
  induction infos as [|i infos IH]; intros r; cbn; [unfold same_row; auto|]. destruct (IH (touch i r)) as [(H1 & H2 & H3) H4]. destruct (touch_row i r) as (K1 & K2 & K3). pose proof (touch_budget i r). fold (touches infos (touch i r)) in *.
  unfold same_row. rewrite H1, H2, H3, H4. auto.
Qed.
Lemma one_pass_touches : forall w tiles rows out, one_pass w tiles rows = Ok out -> exists infos, out = map (touches infos) rows.
Proof.
  induction tiles as [|t tiles IH]; intros rows out H; cbn in H; [apply ok_inj_p in H; subst; exists []; cbn; symmetry; apply map_id|].
  rewrite one_tile_eq in H. destruct (tile_info w t rows) as [info|]; [|discriminate]. cbn [bind] in H. destruct (IH _ _ H) as (infos & ->). exists (info :: infos). rewrite map_map. auto.
Qed.

(** Sorting back. *)
Section Sort.
  Variables (A : Type) (key : A -> nat).
Lemma insert_perm : forall r l, Permutation (r :: l) (insert_by key r l).
Proof. induction l as [|x l IH]; cbn; auto. destruct (Nat.leb _ _); auto. eapply perm_trans; [apply perm_swap|]. auto. Qed.
Lemma sort_perm : forall l, Permutation l (sort_by key l).
Proof. induction l as [|r l IH]; cbn; auto. eapply perm_trans; [|apply insert_perm]. auto. Qed.
Definition le_row (r s : A) : Prop := (key r <= key s)%nat.
Lemma insert_sorted : forall r l, StronglySorted le_row l -> StronglySorted le_row (insert_by key r l).
Proof.
  induction l as [|x l IH]; intros H; cbn; [repeat constructor|]. inversion H as [|y ys H1 H2]; subst. destruct (Nat.leb (key r) (key x)) eqn:E.
  - apply Nat.leb_le in E. constructor; auto. constructor; auto. eapply Forall_impl; [|exact H2]. unfold le_row. intros; lia.
  - apply Nat.leb_gt in E. constructor; auto. apply Forall_forall. intros y Y. apply Permutation_in with (l' := r :: l) in Y; [|symmetry; apply insert_perm]. destruct Y as [<-|Y]; [unfold le_row; lia|]. rewrite Forall_forall in H2. auto.
Qed.
Lemma sort_sorted : forall l, StronglySorted le_row (sort_by key l).
Proof. induction l; cbn; [constructor|apply insert_sorted; auto]. Qed.
Lemma sorted_unique : forall l m, StronglySorted le_row l -> StronglySorted le_row m -> NoDup (map key l) -> Permutation l m -> l = m.
Proof.
  induction l as [|a l IH]; intros m H1 H2 ND P; [apply Permutation_nil in P; auto|]. destruct m as [|b m]; [symmetry in P; apply Permutation_nil in P; discriminate|].
  inversion H1 as [|x xs S1 F1]; inversion H2 as [|y ys S2 F2]; subst. cbn in ND. inversion ND as [|i is N ND']; subst.
  assert (EQ : a = b).
  { assert (A1 : In a (b :: m)) by (eapply Permutation_in; [exact P|cbn; auto]). assert (B1 : In b (a :: l)) by (eapply Permutation_in; [symmetry; exact P|cbn; auto]).
    destruct A1 as [A1|A1]; auto. destruct B1 as [B1|B1]; auto. rewrite Forall_forall in F1, F2. pose proof (F1 _ B1) as L1. pose proof (F2 _ A1) as L2. unfold le_row in *. assert (key a = key b) by lia. exfalso. apply N. apply in_map_iff. exists b. auto. }
  subst b. f_equal. apply IH; auto. eapply Permutation_cons_inv; eauto.
Qed.
Lemma perm_forall2 : forall (B C : Type) (rel : B -> C -> Prop) l l', Permutation l l' -> forall m, Forall2 rel l m -> exists m', Permutation m m' /\ Forall2 rel l' m'.
Proof.
  induction 1 as [|x l l' P IH|x y l|l l' l'' P1 IH1 P2 IH2]; intros m F.
  - inversion F; subst. exists []. auto.
  - inversion F as [|? b ? m0 H1 H2]; subst. destruct (IH _ H2) as (m' & H3 & H4). exists (b :: m'). auto.
  - inversion F as [|? b ? m0 H1 H2]; subst. inversion H2 as [|? c ? m1 H3 H4]; subst. exists (c :: b :: m1). split; [constructor|repeat constructor; auto].
  - destruct (IH1 _ F) as (m' & H1 & H2). destruct (IH2 _ H2) as (m'' & H3 & H4). exists m''. split; auto. eapply perm_trans; eauto.
Qed.
Lemma sort_back_gen : forall (B : Type) (keyb : B -> nat) (rel : B -> A -> Prop) rows l out, (forall r r', rel r r' -> key r' = keyb r) -> StronglySorted (fun r s => (keyb r < keyb s)%nat) rows -> Permutation l rows -> Forall2 rel l out ->
  Forall2 rel rows (sort_by key out).
Proof.
  intros B keyb rel rows l out HI SS P F. destruct (perm_forall2 _ _ rel _ _ P _ F) as (m & P' & F'). assert (EQ : map key m = map keyb rows). { clear - HI F'. induction F'; cbn; f_equal; auto. }
  assert (SM : StronglySorted le_row m /\ NoDup (map key m)).
  { clear - EQ SS. revert m EQ. induction SS as [|r rows SS IH FR]; intros [|b m] EQ; cbn in EQ; try discriminate; [repeat constructor|]. injection EQ as E1 E2. destruct (IH m E2) as [H1 H2].
    assert (FB : forall x, In x m -> (key b < key x)%nat). { intros x X. assert (In (key x) (map keyb rows)) by (rewrite <- E2; apply in_map; auto). apply in_map_iff in H. destruct H as (y & Y1 & Y2). rewrite Forall_forall in FR. pose proof (FR _ Y2). lia. }
    split; [constructor; auto; apply Forall_forall; intros x X; specialize (FB x X); unfold le_row; lia|]. cbn. constructor; auto. intros X. apply in_map_iff in X. destruct X as (x & X1 & X2). specialize (FB x X2). lia. }
  destruct SM as [SM ND]. assert (sort_by key out = m); [|subst; auto]. symmetry. apply sorted_unique; auto; [apply sort_sorted|]. eapply perm_trans; [symmetry; exact P'|]. apply sort_perm.
Qed.
Lemma sort_back : forall (rel : A -> A -> Prop) rows l out, (forall r r', rel r r' -> key r' = key r) -> StronglySorted (fun r s => (key r < key s)%nat) rows -> Permutation l rows -> Forall2 rel l out ->
  Forall2 rel rows (sort_by key out).
Proof. intros. eapply (sort_back_gen A key); eauto. Qed.
End Sort.

(** Rows of a pass. *)
Lemma pass_rows_index : forall tids targets i r, In r (pass_rows i tids targets) -> (i <= p_index r)%nat.
Proof.
  induction tids as [|tid tids IH]; intros [|t targets] i r H; cbn in H; try contradiction. destruct (in_pass tid t); [destruct H as [<-|H]; [cbn; lia|apply IH in H; lia]|apply IH in H; auto].
Qed.
Lemma pass_rows_sorted : forall tids targets i, StronglySorted (fun r s => (p_index r < p_index s)%nat) (pass_rows i tids targets).
Proof.
  induction tids as [|tid tids IH]; intros [|t targets] i; cbn; try constructor. destruct (in_pass tid t); auto. constructor; auto. apply Forall_forall. intros r H. apply pass_rows_index in H. cbn. lia.
Qed.
(** The row of a target. *)
Definition row_of (tid : Z) (t : target) (i : nat) : prow := PRow (t_id t) (t_more t) (t_numobs t) (t_available t) tid false (-1) i.
Lemma pass_rows_in : forall tids targets i r, In r (pass_rows i tids targets) -> exists tid t k, In (tid, t) (combine tids targets) /\ in_pass tid t = true /\ r = row_of tid t k.
Proof.
  induction tids as [|tid tids IH]; intros [|t targets] i r H; cbn in H; try contradiction. destruct (in_pass tid t) eqn:E.
  - destruct H as [<-|H]; [exists tid, t, i; cbn; auto|]. destruct (IH _ _ _ H) as (a & b & k & H1 & H2 & H3). exists a, b, k. cbn. auto.
  - destruct (IH _ _ _ H) as (a & b & k & H1 & H2 & H3). exists a, b, k. cbn. auto.
Qed.
Lemma pass_rows_of : forall tids targets i tid t, In (tid, t) (combine tids targets) -> in_pass tid t = true -> exists k, In (row_of tid t k) (pass_rows i tids targets).
Proof.
  induction tids as [|tid0 tids IH]; intros [|t0 targets] i tid t H E; cbn in H; try contradiction. cbn. destruct H as [H|H].
  - injection H as -> ->. rewrite E. exists i. cbn. auto.
  - destruct (in_pass tid0 t0); [destruct (IH _ (S i) _ _ H E) as (k & K); exists k; cbn; auto|apply IH; auto].
Qed.
Lemma pass_rows_ids : forall tids targets i, NoDup (map t_id targets) -> NoDup (map p_id (pass_rows i tids targets)).
Proof.
  induction tids as [|tid tids IH]; intros [|t targets] i ND; cbn; try constructor. cbn in ND. inversion ND as [|x xs N ND']; subst. destruct (in_pass tid t); auto. cbn. constructor; auto.
  intros H. apply in_map_iff in H. destruct H as (r & H1 & H2). apply pass_rows_in in H2. destruct H2 as (a & b & k & H3 & H4 & ->). cbn in H1. apply N. rewrite <- H1. apply in_map. eapply in_combine_r; eauto.
Qed.

(** Putting rows back in the targets. *)
Lemma assign_rows : forall pass (rel : prow -> prow -> Prop) tids targets i back out, List.length tids = List.length targets -> Forall2 rel (pass_rows i tids targets) back ->
  assign (update_target pass) (map (fun x : Z * target => in_pass (fst x) (snd x)) (combine tids targets)) back targets = Ok out ->
  Forall2 (fun x t' => if in_pass (fst x) (snd x) then exists k r, rel (row_of (fst x) (snd x) k) r /\ update_target pass (snd x) r = Ok t' else t' = snd x) (combine tids targets) out.
Proof.
  intros pass rel. induction tids as [|tid tids IH]; intros [|t targets] i back out L F H; try discriminate; [cbn in *; apply ok_inj_p in H; subst; constructor|]. cbn in L. cbn [combine map assign fst snd] in H |- *. cbn [pass_rows] in F. destruct (in_pass tid t) eqn:E.
  - inversion F as [|? r ? back' F1 F2]; subst. cbn [bind update_target] in H. destruct (assign _ _ back' targets) as [out'|] eqn:EA; [|discriminate]. cbn [bind] in H. apply ok_inj_p in H. subst out. constructor; [cbn [fst snd]; rewrite E; exists i, r; split; auto|]. eapply IH; eauto.
  - destruct (assign _ _ back targets) as [out'|] eqn:EA; [|discriminate]. cbn [bind] in H. apply ok_inj_p in H. subst out. constructor; [cbn [fst snd]; rewrite E; auto|]. eapply IH; eauto.
Qed.
Lemma assign_rows_ok : forall pass tids targets i back, List.length tids = List.length targets -> List.length back = List.length (pass_rows i tids targets) ->
  exists out, assign (update_target pass) (map (fun x : Z * target => in_pass (fst x) (snd x)) (combine tids targets)) back targets = Ok out.
Proof.
  intros pass. induction tids as [|tid tids IH]; intros [|t targets] i back L LB; try discriminate; [cbn; eauto|]. cbn in L. cbn [combine map assign fst snd]. cbn [pass_rows] in LB. destruct (in_pass tid t) eqn:E.
  - destruct back as [|r back]; [discriminate|]. cbn [bind update_target]. cbn in LB. destruct (IH targets (S i) back) as (out & ->); try lia. cbn [bind]. eauto.
  - destruct (IH targets i back) as (out & ->); try lia. cbn [bind]. eauto.
Qed.
(** What a pass does: [rel] relates a row of a process to the row obtained. *)
Lemma forall2_concat : forall A B (rel : A -> B -> Prop) ls ms, Forall2 (Forall2 rel) ls ms -> Forall2 rel (List.concat ls) (List.concat ms).
Proof. induction 1; cbn; [constructor|apply Forall2_app; auto]. Qed.
Lemma run_pass_inv : forall w find exchange tiles pass targets out, run_pass w find exchange tiles pass targets = Ok out ->
  exists tids back rows, map_result (fun t => tile_over find (tiles_in tiles pass) (t_pos t)) targets = Ok tids /\ rows = pass_rows 0 tids targets /\
    map_result (on_process w (map tile_id (tiles_in tiles pass))) (exchange rows) = Ok back /\
    assign (update_target pass) (map (fun x : Z * target => in_pass (fst x) (snd x)) (combine tids targets)) (sort_by p_index (List.concat back)) targets = Ok out.
Proof.
  intros w find exchange tiles pass targets out H. unfold run_pass in H. cbv zeta in H. destruct (map_result (fun t => tile_over find (tiles_in tiles pass) (t_pos t)) targets) as [tids|]; [|discriminate]. cbn [bind] in H.
  destruct (map_result (on_process _ _) _) as [back|] eqn:EB; [|discriminate]. cbn [bind] in H. destruct (list_eqb _ _ _); [|discriminate]. cbn [negb] in H. exists tids, back, (pass_rows 0 tids targets). auto.
Qed.
Lemma run_pass_rel : forall (rel : prow -> prow -> Prop) w find exchange tiles pass targets out, run_pass w find exchange tiles pass targets = Ok out -> shares p_tile exchange ->
  (forall r r', rel r r' -> p_index r' = p_index r) ->
  (forall tids part part', map_result (fun t => tile_over find (tiles_in tiles pass) (t_pos t)) targets = Ok tids -> In part (exchange (pass_rows 0 tids targets)) -> on_process w (map tile_id (tiles_in tiles pass)) part = Ok part' -> Forall2 rel part part') ->
  exists tids, map_result (fun t => tile_over find (tiles_in tiles pass) (t_pos t)) targets = Ok tids /\
  Forall2 (fun x t' => if in_pass (fst x) (snd x) then exists k r, rel (row_of (fst x) (snd x) k) r /\ update_target pass (snd x) r = Ok t' else t' = snd x) (combine tids targets) out.
Proof.
  intros rel w find exchange tiles pass targets out H SH HI HP. destruct (run_pass_inv _ _ _ _ _ _ _ H) as (tids & back & rows & ET & -> & EB & EA). exists tids. split; auto. specialize (HP tids).
  destruct (SH (pass_rows 0 tids targets)) as [P _]. eapply assign_rows; [|eapply sort_back; [exact HI|apply pass_rows_sorted|exact P|apply forall2_concat]|exact EA].
  - apply map_result_length in ET. auto.
  - apply map_result_forall2 in EB. clear - EB HP ET. assert (HQ : forall part part', In part (exchange (pass_rows 0 tids targets)) -> on_process w (map tile_id (tiles_in tiles pass)) part = Ok part' -> Forall2 rel part part') by eauto. clear HP. induction EB; constructor; [apply HQ; cbn; auto|]. apply IHEB. intros; apply HQ; cbn; auto.
Qed.

(** Under the contracts, a row only depends on its tile. *)
Lemma filter_concat_one : forall A (f : A -> bool) ls i, (forall j, j <> i -> filter f (nth j ls []) = []) -> filter f (List.concat ls) = filter f (nth i ls []).
Proof.
  induction ls as [|l ls IH]; intros i H; [destruct i; auto|]. cbn [List.concat]. rewrite filter_app. destruct i as [|i].
  - cbn [nth]. assert (K : filter f (List.concat ls) = []). { clear IH. assert (forall j, filter f (nth j ls []) = []) by (intros j; apply (H (S j)); lia). clear H. induction ls as [|m ls IH]; auto. cbn. rewrite filter_app. pose proof (H0 0%nat) as H1. cbn [nth] in H1. rewrite H1. cbn. apply IH. intros j. apply (H0 (S j)). } rewrite K, app_nil_r. auto.
  - pose proof (H 0%nat ltac:(lia)) as H0. cbn [nth] in H0 |- *. rewrite H0. cbn. apply IH. intros j J. apply (H (S j)). lia.
Qed.
Lemma perm_filter : forall A (f : A -> bool) l m, Permutation l m -> Permutation (filter f l) (filter f m).
Proof. induction 1; cbn; auto; [destruct (f x); auto|destruct (f x), (f y); auto; apply perm_swap|eapply perm_trans; eauto]. Qed.
Lemma shares_tile : forall A (tile : A -> Z) exchange rows part r, shares tile exchange -> In part (exchange rows) -> In r part -> Permutation (filter (fun s => tile s =? tile r) part) (filter (fun s => tile s =? tile r) rows).
Proof.
  intros A tile exchange rows part r SH HP HR. destruct (SH rows) as [P C]. destruct (In_nth _ _ [] HP) as (i & Li & E). eapply perm_trans; [|eapply perm_filter; exact P]. rewrite (filter_concat_one _ _ _ i); [rewrite E; auto|].
  intros j J. destruct (filter _ (nth j (exchange rows) [])) as [|s l] eqn:EF; auto. assert (K : In s (s :: l)) by (cbn; auto). rewrite <- EF in K. apply filter_In in K. destruct K as [K1 K2]. apply Z.eqb_eq in K2. exfalso. apply J. apply (C j i s r); auto. rewrite E. auto.
Qed.
Lemma nodup_app : forall A (l m : list A), NoDup (l ++ m) -> NoDup l /\ NoDup m.
Proof.
  induction l as [|a l IH]; cbn; intros m H; [split; [constructor|auto]|]. inversion H as [|x xs N ND]; subst. destruct (IH _ ND). split; auto. constructor; auto. intros X. apply N, in_app_iff. auto.
Qed.
Lemma nodup_row : forall rows r s, NoDup (map p_id rows) -> In r rows -> In s rows -> p_id r = p_id s -> r = s.
Proof.
  induction rows as [|a rows IH]; intros r s ND H1 H2 E; [contradiction|]. cbn in ND. inversion ND as [|x xs N ND']; subst. destruct H1 as [<-|H1], H2 as [<-|H2]; auto; exfalso; apply N; [rewrite E|rewrite <- E]; apply in_map; auto.
Qed.
Lemma info_own : forall w t rows info i, own_targets w -> tile_info w t rows = Ok info -> In i (map fst (fst info)) \/ In i (map fst (snd info)) -> exists r, In r rows /\ p_id r = i /\ p_tile r = t.
Proof.
  intros w t rows info i OT H HI. unfold tile_info in H. destruct (extract_info _ _ _) as [[asg av]|] eqn:EE; [|discriminate]. cbn [bind] in H. destruct (w_good w t) as [good|]; [|discriminate]. cbn [bind fst snd] in H. apply ok_inj_p in H. subst info. cbn [fst snd] in HI.
  destruct (extract_facts _ _ _ _ _ EE) as (E1 & E2 & _). destruct HI as [HI|HI]; apply in_map_iff in HI; destruct HI as ([i' f] & H1 & H2); cbn in H1; subst i'; apply filter_In in H2; destruct H2 as [H2 _].
  - apply E1 in H2. destruct H2 as (x & H3 & H4 & _). apply (OT t rows i); auto. left. apply in_map_iff. exists (x, i). auto.
  - apply E2 in H2. destruct H2 as (x & l & H3 & H4 & H5 & _). apply (OT t rows i); auto. right. apply in_flat_map. exists (x, l). auto.
Qed.
Lemma touch_other : forall w t rows info r, own_targets w -> NoDup (map p_id rows) -> tile_info w t rows = Ok info -> In r rows -> p_tile r <> t -> touch info r = r.
Proof.
  intros w t rows info r OT ND H HR N. apply touch_none; intros HI; (destruct (info_own w t rows info (p_id r) OT H) as (s & S1 & S2 & S3); [auto|]); assert (s = r) by (eapply nodup_row; eauto); subst; contradiction.
Qed.
Lemma tile_info_local : forall w t rows rows', local w -> Permutation (filter (fun r => p_tile r =? t) rows) (filter (fun r => p_tile r =? t) rows') -> tile_info w t rows = tile_info w t rows'.
Proof. intros w t rows rows' L P. unfold tile_info. rewrite (L t rows rows' P). auto. Qed.
Definition canon (w : world) (rows : list prow) (r : prow) : prow := match tile_info w (p_tile r) rows with Ok info => touch info r | Err _ => r end.
Lemma map_touch_other : forall w t rows info, own_targets w -> NoDup (map p_id rows) -> tile_info w t rows = Ok info -> map (touch info) rows = map (fun r => if p_tile r =? t then touch info r else r) rows.
Proof. intros w t rows info OT ND H. apply map_ext_in. intros r R. destruct (p_tile r =? t) eqn:E; auto. apply Z.eqb_neq in E. eapply touch_other; eauto. Qed.
Lemma map_row_ids : forall (f : prow -> prow) rows, (forall r, In r rows -> same_row r (f r)) -> map p_id (map f rows) = map p_id rows.
Proof. intros f rows H. rewrite map_map. apply map_ext_in. intros r R. apply (H r R). Qed.
Lemma filter_map_row : forall (f : prow -> prow) t rows, (forall r, In r rows -> p_tile (f r) = p_tile r) -> filter (fun r => p_tile r =? t) (map f rows) = map f (filter (fun r => p_tile r =? t) rows).
Proof. induction rows as [|r rows IH]; intros H; auto. cbn. rewrite (H r) by (cbn; auto). rewrite IH by (intros; apply H; cbn; auto). destruct (p_tile r =? t); auto. Qed.
Lemma touched_elsewhere : forall w t t' rows info, own_targets w -> local w -> NoDup (map p_id rows) -> tile_info w t rows = Ok info -> t' <> t -> tile_info w t' (map (touch info) rows) = tile_info w t' rows.
Proof.
  intros w t t' rows info OT L ND H N. apply tile_info_local; auto. rewrite filter_map_row by (intros; apply touch_row). replace (map (touch info) (filter (fun r => p_tile r =? t') rows)) with (filter (fun r => p_tile r =? t') rows); [reflexivity|].
  rewrite <- (map_id (filter (fun r => p_tile r =? t') rows)) at 1. apply map_ext_in. intros r R. apply filter_In in R. destruct R as [R1 R2]. apply Z.eqb_eq in R2. symmetry. eapply touch_other; eauto. congruence.
Qed.
Lemma one_pass_canon : forall w, own_targets w -> local w -> forall ts rows, NoDup ts -> NoDup (map p_id rows) ->
  (forall out, one_pass w ts rows = Ok out -> forall t, In t ts -> exists info, tile_info w t rows = Ok info) /\
  ((forall t, In t ts -> exists info, tile_info w t rows = Ok info) -> one_pass w ts rows = Ok (map (fun r => if existsb (Z.eqb (p_tile r)) ts then canon w rows r else r) rows)).
Proof.
  intros w OT LO. induction ts as [|t ts IH]; intros rows NT ND; cbn [one_pass]; [split; [intros out _ t H; contradiction|intros _; f_equal; symmetry; apply map_id]|]. inversion NT as [|x xs N NT']; subst.
  rewrite one_tile_eq. destruct (tile_info w t rows) as [info|] eqn:EI; cbn [bind]; [|split; [discriminate|intros H; destruct (H t) as (i & E); [cbn; auto|congruence] ] ].
  destruct (IH (map (touch info) rows) NT') as [IH1 IH2]; [rewrite map_row_ids; auto; intros; apply touch_row|].
  assert (SAME : forall t', In t' ts -> tile_info w t' (map (touch info) rows) = tile_info w t' rows) by (intros t' T; eapply touched_elsewhere; eauto; intros ->; contradiction).
  split.
  - intros out H t' [<-|T]; [eauto|]. rewrite <- SAME by auto. eapply IH1; eauto.
  - intros H. rewrite IH2 by (intros t' T; rewrite SAME by auto; apply H; cbn; auto). f_equal. rewrite map_map. apply map_ext_in. intros r R. destruct (touch_row info r) as (K1 & K2 & K3). rewrite K2. cbn [existsb]. destruct (p_tile r =? t) eqn:E.
    + apply Z.eqb_eq in E. cbn [orb]. replace (existsb (Z.eqb (p_tile r)) ts) with false by (symmetry; apply existsb_notin; rewrite E; auto). unfold canon. rewrite E, EI. auto.
    + cbn [orb]. apply Z.eqb_neq in E. rewrite (touch_other w t rows info r) by auto. destruct (existsb (Z.eqb (p_tile r)) ts) eqn:X; auto. unfold canon. apply existsb_in in X. rewrite SAME by auto. auto.
Qed.
Lemma on_process_canon : forall w tiles exchange rows part, own_targets w -> local w -> NoDup tiles -> NoDup (map p_id rows) -> shares p_tile exchange -> In part (exchange rows) -> (forall r, In r rows -> In (p_tile r) tiles) ->
  (forall out, on_process w tiles part = Ok out -> forall r, In r part -> exists info, tile_info w (p_tile r) rows = Ok info) /\
  ((forall r, In r part -> exists info, tile_info w (p_tile r) rows = Ok info) -> on_process w tiles part = Ok (map (canon w rows) part)).
Proof.
  intros w tiles exchange rows part OT LO NT ND SH HP HT. unfold on_process. set (ts := filter _ tiles).
  assert (ND' : NoDup (map p_id part)).
  { destruct (SH rows) as [P _]. apply (Permutation_map p_id) in P. symmetry in P. assert (ND2 : NoDup (map p_id (List.concat (exchange rows)))) by (eapply Permutation_NoDup; eauto). destruct (in_split _ _ HP) as (l1 & l2 & E). rewrite E, concat_app, map_app in ND2. cbn in ND2. rewrite map_app in ND2. apply nodup_app in ND2. destruct ND2 as [_ ND2]. apply nodup_app in ND2. tauto. }
  assert (INR : forall r, In r part -> In r rows). { intros r R. destruct (SH rows) as [P _]. eapply Permutation_in; [exact P|]. apply in_concat. eauto. }
  assert (NTS : NoDup ts) by (apply NoDup_filter; auto).
  assert (TS : forall t, In t ts <-> exists r, In r part /\ p_tile r = t).
  { intros t. unfold ts. rewrite filter_In, existsb_in, in_map_iff. split; [intros (_ & r & R1 & R2); eauto|intros (r & R1 & <-); split; [auto|eauto]]. }
  assert (SAME : forall r, In r part -> tile_info w (p_tile r) part = tile_info w (p_tile r) rows) by (intros r R; apply tile_info_local; auto; eapply shares_tile; eauto).
  destruct (one_pass_canon w OT LO ts part NTS ND') as [O1 O2]. split.
  - intros out H r R. destruct (O1 out H (p_tile r)) as (info & E); [apply TS; eauto|]. exists info. rewrite <- SAME; auto.
  - intros H. rewrite O2; [|intros t T; apply TS in T; destruct T as (r & R & <-); rewrite SAME; auto]. f_equal. apply map_ext_in. intros r R. replace (existsb (Z.eqb (p_tile r)) ts) with true by (symmetry; apply existsb_in, TS; eauto). unfold canon. rewrite SAME; auto.
Qed.
Lemma tile_over_in : forall find tiles pos tid, tile_over find tiles pos = Ok tid -> 0 <= tid -> In tid (map tile_id tiles).
Proof.
  intros find tiles pos tid H P. unfold tile_over in H. destruct (find tiles pos) as [|i l]; [apply ok_inj_p in H; lia|]. destruct (nth_error tiles i) as [t|] eqn:E; [|discriminate]. apply ok_inj_p in H. subst. apply in_map. eapply nth_error_In; eauto.
Qed.
Lemma tids_combine : forall (f : target -> result Z) targets tids, map_result f targets = Ok tids -> forall tid t, In (tid, t) (combine tids targets) -> f t = Ok tid.
Proof.
  intros f targets tids H. apply map_result_forall2 in H. induction H as [|t tid targets tids E F IH]; intros a b K; cbn in K; [contradiction|]. destruct K as [K|K]; [injection K as <- <-; auto|auto].
Qed.
Lemma row_tiles : forall find tiles pass targets tids i r, map_result (fun t => tile_over find (tiles_in tiles pass) (t_pos t)) targets = Ok tids -> In r (pass_rows i tids targets) -> In (p_tile r) (map tile_id (tiles_in tiles pass)).
Proof.
  intros find tiles pass targets tids i r H R. apply pass_rows_in in R. destruct R as (tid & t & k & R1 & R2 & ->). cbn. pose proof (tids_combine _ _ _ H _ _ R1) as E. apply tile_over_in in E; auto. unfold in_pass in R2. apply andb_true_iff in R2. destruct R2 as [R2 _]. apply Z.leb_le in R2. auto.
Qed.
Lemma canon_row : forall w rows r, same_row r (canon w rows r).
Proof. intros. unfold canon. destruct (tile_info _ _ _); [apply touch_row|unfold same_row; auto]. Qed.
Lemma forall2_map : forall A B (f : A -> B) l m, Forall2 (fun a b => b = f a) l m -> m = map f l.
Proof. induction 1; cbn; subst; auto. Qed.
Lemma forall2_of_map : forall A B (f : A -> B) l, Forall2 (fun a b => b = f a) l (map f l).
Proof. induction l; cbn; constructor; auto. Qed.
Section Canon.
  Variables (w : world) (find : list tile -> R * R -> list nat) (tiles : list tile) (pass : nat) (targets : list target) (tids : list Z).
  Hypothesis OT : own_targets w.
  Hypothesis LO : local w.
  Hypothesis NT : NoDup (map tile_id (tiles_in tiles pass)).
  Hypothesis ND : NoDup (map t_id targets).
  Hypothesis ET : map_result (fun t => tile_over find (tiles_in tiles pass) (t_pos t)) targets = Ok tids.
  Let rows := pass_rows 0 tids targets.
  Lemma back_canon : forall exchange back, shares p_tile exchange -> map_result (on_process w (map tile_id (tiles_in tiles pass))) (exchange rows) = Ok back ->
    (forall r, In r rows -> exists info, tile_info w (p_tile r) rows = Ok info) /\ sort_by p_index (List.concat back) = map (canon w rows) rows.
  Proof.
    intros exchange back SH EB. apply map_result_forall2 in EB. destruct (SH rows) as [P _].
    assert (OK : forall r, In r rows -> exists info, tile_info w (p_tile r) rows = Ok info).
    { intros r R. symmetry in P. apply (Permutation_in _ P) in R. apply in_concat in R. destruct R as (part & R1 & R2). assert (X : exists part', on_process w (map tile_id (tiles_in tiles pass)) part = Ok part').
      { clear - EB R1. induction EB; [contradiction|]. destruct R1 as [<-|R1]; eauto. } destruct X as (part' & X).
      destruct (on_process_canon w (map tile_id (tiles_in tiles pass)) exchange rows part) as [O1 _]; auto; [apply pass_rows_ids; auto|intros s Hs; eapply row_tiles; eauto|]. eapply O1; eauto. }
    split; auto. apply forall2_map. eapply sort_back; [|apply pass_rows_sorted|exact P|]; [intros r r' ->; apply canon_row|]. apply forall2_concat.
    assert (HP : forall part part', In part (exchange rows) -> on_process w (map tile_id (tiles_in tiles pass)) part = Ok part' -> Forall2 (fun a b => b = canon w rows a) part part').
    { intros part part' IN H. destruct (on_process_canon w (map tile_id (tiles_in tiles pass)) exchange rows part) as [_ O2]; auto; [apply pass_rows_ids; auto|intros s Hs; eapply row_tiles; eauto|]. rewrite O2 in H; [apply ok_inj_p in H; subst; apply forall2_of_map|].
      intros r R. apply OK. eapply Permutation_in; [exact P|]. apply in_concat. eauto. }
    clear - EB HP. induction EB; constructor; [apply HP; cbn; auto|]. apply IHEB. intros; apply HP; cbn; auto.
  Qed.
  Lemma back_ok : forall exchange, shares p_tile exchange -> (forall r, In r rows -> exists info, tile_info w (p_tile r) rows = Ok info) -> exists back, map_result (on_process w (map tile_id (tiles_in tiles pass))) (exchange rows) = Ok back.
  Proof.
    intros exchange SH OK. destruct (SH rows) as [P _]. assert (HP : forall part, In part (exchange rows) -> exists part', on_process w (map tile_id (tiles_in tiles pass)) part = Ok part').
    { intros part IN. destruct (on_process_canon w (map tile_id (tiles_in tiles pass)) exchange rows part) as [_ O2]; auto; [apply pass_rows_ids; auto|intros s Hs; eapply row_tiles; eauto|]. rewrite O2; eauto. intros r R. apply OK. eapply Permutation_in; [exact P|]. apply in_concat. eauto. }
    clear - HP. induction (exchange rows) as [|part parts IH]; cbn; eauto. destruct (HP part) as (p' & ->); [cbn; auto|]. cbn [bind]. destruct IH as (b & ->); [intros; apply HP; cbn; auto|]. cbn [bind]. eauto.
  Qed.
  Lemma run_canon : forall exchange out, shares p_tile exchange -> run_pass w find exchange tiles pass targets = Ok out ->
    (forall r, In r rows -> exists info, tile_info w (p_tile r) rows = Ok info) /\
    assign (update_target pass) (map (fun x : Z * target => in_pass (fst x) (snd x)) (combine tids targets)) (map (canon w rows) rows) targets = Ok out.
  Proof.
    intros exchange out SH H. destruct (run_pass_inv _ _ _ _ _ _ _ H) as (tids' & back & rows' & ET' & -> & EB & EA). rewrite ET in ET'. apply ok_inj_p in ET'. subst tids'. fold rows in EB. destruct (back_canon exchange back SH EB) as [OK S]. rewrite S in EA. auto.
  Qed.
  Lemma run_ok : forall exchange, shares p_tile exchange -> (forall r, In r rows -> exists info, tile_info w (p_tile r) rows = Ok info) ->
    run_pass w find exchange tiles pass targets = assign (update_target pass) (map (fun x : Z * target => in_pass (fst x) (snd x)) (combine tids targets)) (map (canon w rows) rows) targets.
  Proof.
    intros exchange SH OK. unfold run_pass. cbv zeta. rewrite ET. cbn [bind]. fold rows. destruct (back_ok exchange SH OK) as (back & EB). rewrite EB. cbn [bind]. destruct (back_canon exchange back SH EB) as [_ S]. rewrite S.
    replace (list_eqb Nat.eqb (map p_index (map (canon w rows) rows)) (map p_index rows)) with true; auto. symmetry. apply list_eqb_eq. rewrite map_map. apply map_ext. intros r. apply canon_row.
  Qed.
End Canon.

(** What a pass does to a target. *)
Definition is_some {A} (o : option A) : bool := match o with Some _ => true | None => false end.
Definition stepped (pass : nat) (t : target) (a v : option Z) : target :=
  Target (t_id t) (t_pos t) (t_more t - Z.b2z (is_some a)) (t_numobs t + Z.b2z (is_some a)) (t_available t || is_some v)
    (set_nth pass (match a with Some f => f | None => match v with Some f => f | None => -1 end end) (t_fiber t)) (set_nth pass (is_some a) (t_obs t)).
Definition pass_step (w : world) (pass : nat) (rows : list prow) (tid : Z) (t t' : target) : Prop :=
  if in_pass tid t then exists info, tile_info w tid rows = Ok info /\ t' = stepped pass t (zassoc (t_id t) (fst info)) (zassoc (t_id t) (snd info)) else t' = t.
Lemma touch_step : forall pass info tid t k, update_target pass t (touch info (row_of tid t k)) = Ok (stepped pass t (zassoc (t_id t) (fst info)) (zassoc (t_id t) (snd info))).
Proof.
  intros pass [a v] tid t k. unfold touch, mark_assigned, mark_available, row_of, stepped, update_target. cbn [fst snd p_id].
  destruct (zassoc (t_id t) v) as [f|]; cbn [p_id]; destruct (zassoc (t_id t) a) as [g|]; cbn [p_more p_numobs p_available p_fiber p_obs is_some Z.b2z]; rewrite ?Z.add_0_r, ?Z.sub_0_r, ?orb_true_r, ?orb_false_r; auto.
Qed.
Lemma distinct_in : forall tiles pass, distinct_tiles tiles -> NoDup (map tile_id (tiles_in tiles pass)).
Proof.
  unfold distinct_tiles, tiles_in. induction tiles as [|t tiles IH]; intros pass H; cbn; [constructor|]. cbn in H. inversion H as [|x xs N ND]; subst. destruct (tile_pass t =? Z.of_nat pass); cbn; auto. constructor; auto. intros K. apply N. apply in_map_iff in K. destruct K as (y & K1 & K2). apply filter_In in K2. apply in_map_iff. exists y. tauto.
Qed.
Lemma run_steps : forall w find exchange tiles pass targets out, sound w -> shares p_tile exchange -> distinct_tiles tiles -> NoDup (map t_id targets) -> run_pass w find exchange tiles pass targets = Ok out ->
  exists tids, map_result (fun t => tile_over find (tiles_in tiles pass) (t_pos t)) targets = Ok tids /\ Forall2 (fun x t' => pass_step w pass (pass_rows 0 tids targets) (fst x) (snd x) t') (combine tids targets) out.
Proof.
  intros w find exchange tiles pass targets out (OT & LO & _) SH DT ND H. destruct (run_pass_inv _ _ _ _ _ _ _ H) as (tids & back & rows & ET & _). exists tids. split; auto.
  destruct (run_canon w find tiles pass targets tids OT LO (distinct_in _ _ DT) ND ET exchange out SH H) as [OK EA].
  set (rs := pass_rows 0 tids targets) in *. eapply (assign_rows pass (fun r r' => r' = canon w rs r)) in EA; [| |apply forall2_of_map]; [|apply map_result_length in ET; auto].
  assert (ALL : forall x, In x (combine tids targets) -> in_pass (fst x) (snd x) = true -> exists info, tile_info w (fst x) rs = Ok info).
  { intros [tid t] I P. cbn [fst snd] in *. destruct (pass_rows_of tids targets 0 tid t I P) as (k & K). destruct (OK _ K) as (info & E). exists info. exact E. }
  clear - EA ALL. revert ALL. induction EA as [|x t' l m E F IH]; intros ALL; constructor; [|apply IH; intros; apply ALL; cbn; auto].
  unfold pass_step. destruct (in_pass (fst x) (snd x)) eqn:P; auto. destruct E as (k & r & -> & U). destruct (ALL x) as (info & EI); cbn; auto. exists info. split; auto. unfold canon in U. cbn [row_of p_tile] in U. fold (row_of (fst x) (snd x) k) in U. change (PRow _ _ _ _ _ _ _ _) with (row_of (fst x) (snd x) k) in U. rewrite EI in U. rewrite touch_step in U. apply ok_inj_p in U. auto.
Qed.

(** Facts on the tables of a tile. *)
Lemma info_facts : forall w t rows info, sound w -> tile_info w t rows = Ok info -> exists good, w_good w t = Ok good /\
  (forall i f, In (i, f) (fst info) -> good f = true) /\ (forall i f, In (i, f) (snd info) -> good f = true) /\ NoDup (map fst (fst info)) /\ NoDup (map fst (snd info)) /\
  (forall i j f, In (i, f) (fst info) -> In (j, f) (fst info) -> i = j) /\ (forall i f, In (i, f) (snd info) -> exists j, In (j, f) (fst info)) /\
  ((forall x i f, In (x, i) (a_located (w_assign w t rows)) -> w_fiber w t x = Ok f -> good f = true) -> forall i f, In (i, f) (fst info) -> exists g, In (i, g) (snd info)).
Proof.
  intros w t rows info (OT & LO & (S1 & S2 & S3 & S4) & SF) H. unfold tile_info in H. destruct (extract_info _ _ _) as [[asg av]|] eqn:EE; [|discriminate]. cbn [bind] in H. destruct (w_good w t) as [good|] eqn:EG; [|discriminate]. cbn [bind fst snd] in H. apply ok_inj_p in H. subst info. cbn [fst snd].
  destruct (extract_facts _ _ _ _ _ EE) as (E1 & E2 & E3 & E4 & E5). exists good. split; auto.
  assert (KN : forall l, NoDup (map fst l) -> NoDup (map fst (kept good l))).
  { clear. induction l as [|[i f] l IH]; cbn; intros ND; [constructor|]. inversion ND as [|x xs N ND']; subst. destruct (good f); cbn; auto. constructor; auto. intros X. apply N. apply in_map_iff in X. destruct X as (y & X1 & X2). apply filter_In in X2. apply in_map_iff. exists y. tauto. }
  unfold kept. split; [|split; [|split; [|split; [|split; [|split] ] ] ] ].
  - intros i f K. apply filter_In in K. tauto.
  - intros i f K. apply filter_In in K. tauto.
  - apply KN. auto.
  - apply KN. auto.
  - intros i j f K1 K2. apply filter_In in K1, K2. destruct K1 as [K1 G], K2 as [K2 _]. cbn in G. apply E1 in K1, K2. destruct K1 as (x & X1 & X2 & X3), K2 as (y & Y1 & Y2 & Y3). assert (x = y) by (apply (S4 t x y f); auto; apply (SF t good f EG G)). subst y.
    pose proof (zassoc_nodup _ x _ i (S1 t rows) X1). pose proof (zassoc_nodup _ x _ j (S1 t rows) Y1). congruence.
  - intros i f K. apply filter_In in K. destruct K as [K G]. cbn in G. apply E2 in K. destruct K as (x & l & _ & _ & _ & _ & K). apply in_map_iff in K. destruct K as ([j f'] & K1 & K2). cbn in K1. subst f'. exists j. apply filter_In. auto.
  - intros AG i f K. apply filter_In in K. destruct K as [K G]. cbn in G. pose proof K as K0. apply E1 in K. destruct K as (x & X1 & X2 & X3). destruct (S3 t rows x i X1) as (l & L1 & L2).
    assert (In i (map fst av)). { eapply E3; eauto. apply in_map_iff. exists (i, f). auto. } apply in_map_iff in H. destruct H as ([i' g] & H1 & H2). cbn in H1. subst i'. exists g. apply filter_In. split; auto. cbn.
    apply E2 in H2. destruct H2 as (x' & l' & _ & _ & _ & _ & H2). apply in_map_iff in H2. destruct H2 as ([j g'] & H2 & H3). cbn in H2. subst g'. apply E1 in H3. destruct H3 as (y & Y1 & _ & Y3). eapply AG; eauto.
Qed.

(** Passes one after another. *)
Lemma passes_ind : forall (P : nat -> list target -> Prop) w find exchange tiles n targets out, P 0%nat (map (start n) targets) ->
  (forall k l l', (k < n)%nat -> P k l -> run_pass (w k) find (exchange k) tiles k l = Ok l' -> P (S k) l') -> apply_fiber_assignment w find exchange tiles n targets = Ok out -> P n out.
Proof.
  intros P w find exchange tiles n targets out P0 PS. unfold apply_fiber_assignment. revert P0. generalize (map (start n) targets) as l. assert (G : forall m k l, (k + m = n)%nat -> P k l -> run_passes w find exchange tiles (seq k m) l = Ok out -> P n out).
  { induction m as [|m IH]; intros k l E Pk H; cbn in H; [apply ok_inj_p in H; rewrite <- H; replace n with k by lia; auto|]. destruct (run_pass (w k) find (exchange k) tiles k l) as [l'|] eqn:ER; [|discriminate]. cbn [bind] in H. eapply (IH (S k)); [lia| |exact H]. eapply PS; eauto; lia. }
  intros l P0 H. eapply (G n 0%nat); eauto.
Qed.
Lemma forall2_nth : forall A B (rel : A -> B -> Prop) l m i b, Forall2 rel l m -> nth_error m i = Some b -> exists a, nth_error l i = Some a /\ rel a b.
Proof. intros A B rel l m i b F. revert i. induction F as [|x y l m E F IH]; intros [|i] H; cbn in H; try discriminate; [injection H as <-; exists x; auto|exact (IH i H)]. Qed.
Lemma forall2_nth_l : forall A B (rel : A -> B -> Prop) l m i a, Forall2 rel l m -> nth_error l i = Some a -> exists b, nth_error m i = Some b /\ rel a b.
Proof. intros A B rel l m i b F. revert i. induction F as [|x y l m E F IH]; intros [|i] H; cbn in H; try discriminate; [injection H as <-; exists y; auto|exact (IH i H)]. Qed.
Lemma nth_combine : forall A B (l : list A) (m : list B) i a b, nth_error (combine l m) i = Some (a, b) -> nth_error l i = Some a /\ nth_error m i = Some b.
Proof. induction l as [|x l IH]; intros [|y m] [|i] a b H; cbn in H; try discriminate; [injection H as <- <-; auto|]. cbn. auto. Qed.
Lemma combine_nth_some : forall A B (l : list A) (m : list B) i b, List.length l = List.length m -> nth_error m i = Some b -> exists a, nth_error (combine l m) i = Some (a, b).
Proof. induction l as [|x l IH]; intros [|y m] [|i] b L H; cbn in L, H; try discriminate; [injection H as <-; cbn; eauto|]. cbn. apply IH; auto. Qed.
(** The steps of a pass, target by target. *)
Lemma steps_nth : forall w find exchange tiles pass targets out, sound w -> shares p_tile exchange -> distinct_tiles tiles -> NoDup (map t_id targets) -> run_pass w find exchange tiles pass targets = Ok out ->
  exists rows, NoDup (map p_id rows) /\ List.length out = List.length targets /\
  (forall r, In r rows -> exists i t, nth_error targets i = Some t /\ t_id t = p_id r /\ in_pass (p_tile r) t = true /\ tile_over find (tiles_in tiles pass) (t_pos t) = Ok (p_tile r)) /\
  forall i t', nth_error out i = Some t' -> exists t tid, nth_error targets i = Some t /\ tile_over find (tiles_in tiles pass) (t_pos t) = Ok tid /\ pass_step w pass rows tid t t'.
Proof.
  intros w find exchange tiles pass targets out SW SH DT ND H. destruct (run_steps _ _ _ _ _ _ _ SW SH DT ND H) as (tids & ET & F). exists (pass_rows 0 tids targets). pose proof (map_result_length _ _ _ ET) as LT.
  split; [apply pass_rows_ids; auto|]. split; [apply f2_length in F; rewrite combine_length in F; lia|]. split.
  - intros r R. apply pass_rows_in in R. destruct R as (tid & t & k & R1 & R2 & ->). cbn. apply In_nth_error in R1 as R3. destruct R3 as (i & R3). apply nth_combine in R3. exists i, t. split; [tauto|]. split; auto. split; auto. apply (tids_combine _ _ _ ET _ _ R1).
  - intros i t' E. destruct (forall2_nth _ _ _ _ _ _ _ F E) as ([tid t] & E1 & E2). cbn [fst snd] in E2. exists t, tid. apply nth_error_In in E1 as IN. apply nth_combine in E1. split; [tauto|]. split; auto. apply (tids_combine _ _ _ ET _ _ IN).
Qed.
