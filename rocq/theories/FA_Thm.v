(** Theorems on fibre assignment: C47, C48, C49. *)
Require Import Reals ZArith List Bool Permutation Lia Lra String.
From Verif Require Import Base Box_Model Blind_Model Blind_Thm2 FA_Model FA_Spec FA_Proof.
Import ListNotations.
Open Scope Z_scope.

(** What is supposed of fiberassign (spec: [own_targets], [local], [sound_assignment], [sound_fibers]), of the tiles and of processes. *)
Lemma start_ids : forall n targets, map t_id (map (start n) targets) = map t_id targets.
Proof. intros. rewrite map_map. auto. Qed.
Lemma forall2_impl : forall A B (P Q : A -> B -> Prop) l m, (forall a b, P a b -> Q a b) -> Forall2 P l m -> Forall2 Q l m.
Proof. intros A B P Q l m H F. induction F; constructor; auto. Qed.
Lemma forall2_trans : forall A B C (P : A -> B -> Prop) (Q : B -> C -> Prop) (S : A -> C -> Prop) l m n, (forall a b c, P a b -> Q b c -> S a c) -> Forall2 P l m -> Forall2 Q m n -> Forall2 S l n.
Proof. intros A B C P Q S l m n H F. revert n. induction F; intros k G; inversion G; subst; constructor; eauto. Qed.
Lemma forall2_combine : forall A B C (P : B -> C -> Prop) (l : list A) m n, List.length l = List.length m -> Forall2 (fun x c => P (snd x) c) (combine l m) n -> Forall2 P m n.
Proof. induction l as [|a l IH]; intros [|b m] n L F; cbn in L, F; try discriminate; inversion F; subst; constructor; auto. Qed.
Lemma set_nth_length : forall A n (a : A) l, List.length (set_nth n a l) = List.length l.
Proof. induction n; intros a [|x l]; cbn; auto. Qed.
Lemma set_nth_same : forall A n (a d : A) l, (n < List.length l)%nat -> nth n (set_nth n a l) d = a.
Proof. induction n; intros a d [|x l] H; cbn in *; try lia; auto. apply IHn. lia. Qed.
Lemma set_nth_other : forall A n m (a d : A) l, n <> m -> nth m (set_nth n a l) d = nth m l d.
Proof. induction n; intros [|m] a d [|x l] H; cbn; auto; try lia. Qed.
Lemma run_pass_budget : forall w find exchange tiles pass l out, shares p_tile exchange -> run_pass w find exchange tiles pass l = Ok out ->
  Forall2 (fun t t' => same_object t t' /\ t_more t' + t_numobs t' = t_more t + t_numobs t /\ List.length (t_fiber t') = List.length (t_fiber t) /\ List.length (t_obs t') = List.length (t_obs t)) l out.
Proof.
  intros w find exchange tiles pass l out SH H. destruct (run_pass_rel (fun r r' => same_row r r' /\ p_more r' + p_numobs r' = p_more r + p_numobs r) w find exchange tiles pass l out H SH) as (tids & ET & F).
  - intros r r' [(_ & _ & E) _]. auto.
  - intros tids part part' _ _ HP. unfold on_process in HP. apply one_pass_touches in HP. destruct HP as (infos & ->). clear. induction part; cbn; constructor; auto. apply touches_row.
  - apply forall2_combine in F || idtac. apply map_result_length in ET. eapply forall2_combine; [exact ET|]. eapply forall2_impl; [|exact F]. intros [tid t] t'. cbn [fst snd]. destruct (in_pass tid t); [|intros ->; unfold same_object; auto].
    intros (k & r & [(K1 & K2 & K3) K4] & U). unfold update_target in U. apply ok_inj_p in U. subst t'. unfold same_object. cbn in *. rewrite !set_nth_length. auto.
Qed.

(** C47: NUMOBS + NUMOBS_MORE is the number of observations asked for, whatever fiberassign does. *)
Theorem C47_budget : forall w find exchange tiles n targets out, (forall k, shares p_tile (exchange k)) -> apply_fiber_assignment w find exchange tiles n targets = Ok out ->
  Forall2 (fun t t' => same_object t t' /\ t_numobs t' + t_more t' = t_more t /\ List.length (t_fiber t') = n /\ List.length (t_obs t') = n) targets out.
Proof.
  intros w find exchange tiles n targets out SH H. refine (passes_ind (fun _ l => Forall2 (fun t t' => same_object t t' /\ t_numobs t' + t_more t' = t_more t /\ List.length (t_fiber t') = n /\ List.length (t_obs t') = n) targets l) w find exchange tiles n targets out _ _ H).
  - clear. induction targets; cbn; constructor; auto. unfold same_object, start. cbn. rewrite !repeat_length. auto.
  - intros k l l' _ F R. eapply forall2_trans; [|exact F|eapply run_pass_budget; eauto]. unfold same_object. cbn beta. intros a b c ((A1 & A2) & A3 & A4 & A5) ((B1 & B2) & B3 & B4 & B5). rewrite B1, B2, B4, B5. repeat split; auto. lia.
Qed.
Print Assumptions C47_budget.

Definition count_true (l : list bool) : Z := Z.of_nat (List.length (filter (fun b : bool => b) l)).
Lemma count_set : forall n b l, nth n l false = false -> (n < List.length l)%nat -> count_true (set_nth n b l) = count_true l + Z.b2z b.
Proof.
  unfold count_true. induction n; intros b [|x l] H L; cbn in *; try lia.
  - subst x. destruct b; cbn [List.length Z.b2z]; lia.
  - destruct x; cbn [List.length]; rewrite ?Nat2Z.inj_succ, IHn by (auto; lia); lia.
Qed.
Lemma ids_of_objects : forall l m, Forall2 same_object l m -> map t_id m = map t_id l.
Proof. induction 1 as [|a b l m [E _] F IH]; cbn; congruence. Qed.
Lemma repeat_nth : forall A (a : A) n k, nth k (repeat a n) a = a.
Proof. induction n; intros [|k]; cbn; auto. Qed.
(** Targets after the first [k] passes. *)
Definition counted (n k : nat) (t t' : target) : Prop :=
  same_object t t' /\ t_numobs t' + t_more t' = t_more t /\ List.length (t_fiber t') = n /\ List.length (t_obs t') = n /\ t_numobs t' = times_observed t' /\ (0 <= t_more t -> 0 <= t_more t') /\
  (forall q, (k <= q)%nat -> observed t' q = false /\ fiber_in t' q = -1) /\ (forall q, observed t' q = true -> 0 <= fiber_in t' q < 5000).
Lemma counted_start : forall n targets, Forall2 (counted n 0) targets (map (start n) targets).
Proof.
  intros n targets. induction targets; cbn; constructor; auto. unfold counted, same_object, start, observed, fiber_in, times_observed. cbn [t_id t_pos t_more t_numobs t_fiber t_obs]. rewrite !repeat_length. split; auto. split; [lia|]. split; auto. split; auto. split; [clear; induction n; auto|]. split; auto. split; [intros q _; rewrite !repeat_nth; auto|]. intros q. rewrite repeat_nth. discriminate.
Qed.
Lemma info_fiber : forall w tid rows info i f, sound w -> tile_info w tid rows = Ok info -> In (i, f) (fst info) \/ In (i, f) (snd info) -> 0 <= f < 5000.
Proof. intros w tid rows info i f SW EI H. destruct (info_facts _ _ _ _ SW EI) as (good & G & G1 & G2 & _). destruct SW as (_ & _ & _ & SF). apply (SF tid good f G). destruct H; [eapply G1|eapply G2]; eauto. Qed.
Lemma counted_step : forall w n k rows tid t t1 t2, sound w -> (k < n)%nat -> counted n k t t1 -> pass_step w k rows tid t1 t2 -> counted n (S k) t t2.
Proof.
  intros w n k rows tid t t1 t2 SW K (C1 & C2 & C3 & C4 & C5 & C6 & C7 & C8) ST. unfold pass_step in ST. destruct (in_pass tid t1) eqn:IP; [|subst t2; unfold counted; repeat split; try tauto; try apply C1; intros; try (apply C7; lia); apply C8; auto].
  destruct ST as (info & EI & ->). set (a := zassoc (t_id t1) (fst info)). set (v := zassoc (t_id t1) (snd info)). unfold in_pass in IP. apply andb_true_iff in IP. destruct IP as [IP1 IP2]. apply Z.leb_le in IP1, IP2.
  unfold counted, stepped, same_object, observed, fiber_in, times_observed. cbn [t_id t_pos t_more t_numobs t_fiber t_obs]. rewrite !set_nth_length. destruct C1 as [C1 C1']. split; [split; auto|]. split; [lia|]. split; [auto|]. split; [auto|]. split; [|split; [|split] ].
  - change (Z.of_nat (List.length (filter (fun b : bool => b) (set_nth k (is_some a) (t_obs t1))))) with (count_true (set_nth k (is_some a) (t_obs t1))). rewrite count_set by (try lia; apply (C7 k); lia). rewrite C5. reflexivity.
  - intros _. destruct (is_some a); cbn [Z.b2z]; lia.
  - intros q Q. rewrite !set_nth_other by lia. apply (C7 q). lia.
  - intros q Q. destruct (Nat.eq_dec k q) as [<-|NE]; [|rewrite set_nth_other in Q by auto; rewrite set_nth_other by auto; apply C8; auto]. rewrite set_nth_same in Q by lia. rewrite set_nth_same by lia. destruct a as [f|] eqn:EA; [|discriminate]. unfold a in EA. apply zassoc_in in EA. eapply info_fiber; eauto.
Qed.
Lemma counted_objects : forall n k l m, Forall2 (counted n k) l m -> Forall2 same_object l m.
Proof. intros n k l m F. eapply forall2_impl; [|exact F]. intros a b H. apply H. Qed.
Lemma nth_forall2 : forall A B (rel : A -> B -> Prop) l m, List.length m = List.length l -> (forall i b, nth_error m i = Some b -> exists a, nth_error l i = Some a /\ rel a b) -> Forall2 rel l m.
Proof.
  induction l as [|a l IH]; intros [|b m] L H; cbn in L; try discriminate; constructor.
  - destruct (H 0%nat b eq_refl) as (a' & E & R). cbn in E. injection E as <-. auto.
  - apply IH; [lia|]. intros i c E. destruct (H (S i) c E) as (a' & E' & R). exists a'. auto.
Qed.
Lemma counted_passes : forall w find exchange tiles n targets out, (forall k, sound (w k)) -> (forall k, shares p_tile (exchange k)) -> distinct_tiles tiles -> NoDup (map t_id targets) ->
  apply_fiber_assignment w find exchange tiles n targets = Ok out -> Forall2 (counted n n) targets out.
Proof.
  intros w find exchange tiles n targets out SW SH DT ND H. refine (passes_ind (fun k l => Forall2 (counted n k) targets l) w find exchange tiles n targets out (counted_start n targets) _ H).
  intros k l l' K F R. assert (NDl : NoDup (map t_id l)) by (rewrite (ids_of_objects _ _ (counted_objects _ _ _ _ F)); auto). destruct (steps_nth _ _ _ _ _ _ _ (SW k) (SH k) DT NDl R) as (rows & _ & L & _ & ST).
  apply nth_forall2; [apply f2_length in F; lia|]. intros i t2 E. destruct (ST i t2 E) as (t1 & tid & E1 & _ & P). destruct (forall2_nth _ _ _ _ _ _ _ F E1) as (t0 & E0 & C). exists t0. split; auto. eapply counted_step; eauto.
Qed.
(** C47: when tiles of a pass do not overlap, NUMOBS is the number of passes a target was observed in, NUMOBS_MORE does not become negative, and the fibre
    is known in these passes. *)
Theorem C47_counts : forall w find exchange tiles n targets out, (forall k, sound (w k)) -> (forall k, shares p_tile (exchange k)) -> distinct_tiles tiles -> NoDup (map t_id targets) ->
  apply_fiber_assignment w find exchange tiles n targets = Ok out ->
  Forall2 (fun t t' => t_numobs t' = times_observed t' /\ (0 <= t_more t -> 0 <= t_more t' /\ t_numobs t' <= t_more t) /\ t_numobs t' <= Z.of_nat n /\ (forall q, observed t' q = true -> (q < n)%nat /\ 0 <= fiber_in t' q < 5000)) targets out.
Proof.
  intros w find exchange tiles n targets out SW SH DT ND H. eapply forall2_impl; [|eapply counted_passes; eauto]. intros t t' (C1 & C2 & C3 & C4 & C5 & C6 & C7 & C8). split; auto. split; [intros P; specialize (C6 P); lia|]. split.
  - rewrite C5. unfold times_observed. rewrite <- C4. apply inj_le. clear. induction (t_obs t') as [|b l IH]; cbn; auto. destruct b; cbn; lia.
  - intros q Q. split; auto. destruct (Nat.lt_ge_cases q n) as [|G]; auto. destruct (C7 q G). congruence.
Qed.
Print Assumptions C47_counts.

(** C48: rows stay where they are; a target in no tile, or that asks for no observation, is left as initialised. *)
Theorem C48_untouched : forall w find exchange tiles n targets out, (forall k, shares p_tile (exchange k)) -> apply_fiber_assignment w find exchange tiles n targets = Ok out ->
  Forall2 (fun t t' => same_object t t' /\ (t_more t < 1 \/ (forall q tid, (q < n)%nat -> ~ in_tile find tiles q t tid) -> t' = start n t)) targets out.
Proof.
  intros w find exchange tiles n targets out SH H. refine (passes_ind (fun _ l => Forall2 (fun t t' => same_object t t' /\ (t_more t < 1 \/ (forall q tid, (q < n)%nat -> ~ in_tile find tiles q t tid) -> t' = start n t)) targets l) w find exchange tiles n targets out _ _ H).
  - clear. induction targets; cbn; constructor; auto. unfold same_object. auto.
  - intros k l l' K F R. pose proof (run_pass_budget _ _ _ _ _ _ _ (SH k) R) as B. destruct (run_pass_rel (fun r r' => p_index r' = p_index r) _ _ _ _ _ _ _ R (SH k)) as (tids & ET & G); auto.
    { intros tids part part' _ _ HP. unfold on_process in HP. apply one_pass_touches in HP. destruct HP as (infos & ->). clear. induction part; cbn; constructor; auto. apply touches_row. }
    assert (X : Forall2 (fun t1 t2 => (t_more t1 < 1 \/ ~ exists tid, in_tile find tiles k t1 tid) -> t2 = t1) l l').
    { apply nth_forall2; [apply f2_length in B; auto|]. intros i t2 E. destruct (forall2_nth _ _ _ _ _ _ _ G E) as ([tid t1] & E1 & E2). cbn [fst snd] in E2. pose proof (nth_combine _ _ _ _ _ _ _ E1) as [_ E3]. exists t1. split; auto. intros HN. destruct (in_pass tid t1) eqn:IP; auto. exfalso. unfold in_pass in IP. apply andb_true_iff in IP. destruct IP as [IP1 IP2]. apply Z.leb_le in IP1, IP2. destruct HN as [HN|HN]; [lia|]. apply HN. exists tid. split; auto. apply nth_error_In in E1. apply (tids_combine _ _ _ ET _ _ E1). }
    assert (Y : Forall2 (fun t1 t2 => same_object t1 t2 /\ ((t_more t1 < 1 \/ ~ exists tid, in_tile find tiles k t1 tid) -> t2 = t1)) l l').
    { clear - B X. revert X. induction B as [|a b l m HB B IH]; intros X; [constructor|]. inversion X; subst. constructor; [split; [apply HB|auto]|auto]. }
    eapply forall2_trans; [|exact F|exact Y]. cbn beta. intros a b c [A1 A2] [B1 B2]. split; [unfold same_object in *; intuition congruence|]. intros HN. specialize (A2 HN). subst b. apply B2. destruct HN as [HN|HN]; [left; auto|right]. intros (tid & T). apply (HN k tid K). unfold in_tile in *. cbn in T. auto.
Qed.
Print Assumptions C48_untouched.
(** C48: when tiles of a pass do not overlap, the result does not depend on how rows are shared between processes. *)
Theorem C48_distribution : forall w find exchange exchange' tiles n targets out, (forall k, sound (w k)) -> (forall k, shares p_tile (exchange k)) -> (forall k, shares p_tile (exchange' k)) -> distinct_tiles tiles -> NoDup (map t_id targets) ->
  apply_fiber_assignment w find exchange tiles n targets = Ok out -> apply_fiber_assignment w find exchange' tiles n targets = Ok out.
Proof.
  intros w find exchange exchange' tiles n targets out SW SH SH' DT ND. unfold apply_fiber_assignment. rewrite <- (start_ids n) in ND. revert ND. generalize (map (start n) targets) as l. generalize (seq 0 n) as ps. induction ps as [|k ps IH]; intros l ND H; cbn [run_passes] in *; auto.
  destruct (run_pass (w k) find (exchange k) tiles k l) as [l'|] eqn:R; [|discriminate]. cbn [bind] in H. destruct (SW k) as (OT & LO & _). destruct (run_pass_inv _ _ _ _ _ _ _ R) as (tids & _ & _ & ET & _).
  destruct (run_canon (w k) find tiles k l tids OT LO (distinct_in _ _ DT) ND ET (exchange k) l' (SH k) R) as [OK EA]. rewrite (run_ok (w k) find tiles k l tids OT LO (distinct_in _ _ DT) ND ET (exchange' k) (SH' k) OK). rewrite EA. cbn [bind]. apply IH; auto.
  rewrite (ids_of_objects l l'); auto. eapply forall2_impl; [|eapply run_pass_budget; eauto]. intros a b X. apply X.
Qed.
Print Assumptions C48_distribution.

(** Who uses fibres in a pass. *)
Definition exclusive (find : list tile -> R * R -> list nat) (tiles : list tile) (l : list target) (q : nat) : Prop :=
  forall i j t t' tid, i <> j -> nth_error l i = Some t -> nth_error l j = Some t' -> in_tile find tiles q t tid -> in_tile find tiles q t' tid -> observed t q = true -> observed t' q = true -> fiber_in t q <> fiber_in t' q.
Definition served (w : nat -> world) (find : list tile -> R * R -> list nat) (tiles : list tile) (l : list target) (q : nat) : Prop :=
  forall t, In t l -> fiber_in t q <> -1 -> exists tid good t', in_tile find tiles q t tid /\ w_good (w q) tid = Ok good /\ good (fiber_in t q) = true /\ In t' l /\ in_tile find tiles q t' tid /\ observed t' q = true /\ fiber_in t' q = fiber_in t q.
Lemma step_keeps : forall w k rows tid t t' q, pass_step w k rows tid t t' -> q <> k -> same_object t t' /\ observed t' q = observed t q /\ fiber_in t' q = fiber_in t q.
Proof.
  intros w k rows tid t t' q ST N. unfold pass_step in ST. destruct (in_pass tid t); [|subst; unfold same_object; auto]. destruct ST as (info & _ & ->). unfold stepped, same_object, observed, fiber_in. cbn. rewrite !set_nth_other by auto. auto.
Qed.
Definition steps (w : world) (find : list tile -> R * R -> list nat) (tiles : list tile) (k : nat) (rows : list prow) (t t' : target) : Prop :=
  exists tid, tile_over find (tiles_in tiles k) (t_pos t) = Ok tid /\ pass_step w k rows tid t t'.
Lemma in_tile_pos : forall find tiles q t t' tid, t_pos t' = t_pos t -> in_tile find tiles q t tid -> in_tile find tiles q t' tid.
Proof. intros find tiles q t t' tid E H. unfold in_tile in *. rewrite E. auto. Qed.
Lemma forall2_in : forall A B (rel : A -> B -> Prop) l m a, Forall2 rel l m -> In a l -> exists b, In b m /\ rel a b.
Proof. intros A B rel l m a F. induction F as [|x y l m E F IH]; intros H; [contradiction|]. destruct H as [<-|H]; [exists y; cbn; auto|]. destruct (IH H) as (b & B1 & B2). exists b. cbn. auto. Qed.
Lemma forall2_in_r : forall A B (rel : A -> B -> Prop) l m b, Forall2 rel l m -> In b m -> exists a, In a l /\ rel a b.
Proof. intros A B rel l m a F. induction F as [|x y l m E F IH]; intros H; [contradiction|]. destruct H as [<-|H]; [exists x; cbn; auto|]. destruct (IH H) as (b & B1 & B2). exists b. cbn. auto. Qed.
Lemma steps_old : forall w find tiles k rows l l' q, Forall2 (steps (w k) find tiles k rows) l l' -> q <> k -> (exclusive find tiles l q -> exclusive find tiles l' q) /\ (served w find tiles l q -> served w find tiles l' q).
Proof.
  intros w find tiles k rows l l' q F N. split.
  - intros X i j t t' tid D Hi Hj Ti Tj Oi Oj. destruct (forall2_nth _ _ _ _ _ _ _ F Hi) as (s & S1 & tid1 & _ & S2). destruct (forall2_nth _ _ _ _ _ _ _ F Hj) as (s' & S1' & tid2 & _ & S2').
    destruct (step_keeps _ _ _ _ _ _ q S2 N) as ([_ P] & O & G). destruct (step_keeps _ _ _ _ _ _ q S2' N) as ([_ P'] & O' & G'). rewrite G, G'. apply (X i j s s' tid); auto; [eapply in_tile_pos; [symmetry; exact P|exact Ti]|eapply in_tile_pos; [symmetry; exact P'|exact Tj]|congruence|congruence].
  - intros X t T FN. destruct (forall2_in_r _ _ _ _ _ _ F T) as (s & S1 & tid1 & _ & S2). destruct (step_keeps _ _ _ _ _ _ q S2 N) as ([_ P] & O & G). rewrite G in FN |- *. destruct (X s S1 FN) as (tid & good & s' & X1 & X2 & X3 & X4 & X5 & X6 & X7). exists tid, good.
    destruct (forall2_in _ _ _ _ _ _ F X4) as (t' & T' & tid2 & _ & S2'). destruct (step_keeps _ _ _ _ _ _ q S2' N) as ([_ P'] & O' & G'). exists t'. rewrite O', G'. split; [eapply in_tile_pos; eauto|]. split; auto. split; auto. split; auto. split; [eapply in_tile_pos; eauto|]. auto.
Qed.
(** A fibre is given in pass [k]. *)
Lemma step_fiber : forall w k rows tid t t', (k < List.length (t_fiber t))%nat -> (k < List.length (t_obs t))%nat -> observed t k = false -> fiber_in t k = -1 -> pass_step w k rows tid t t' ->
  (fiber_in t' k = -1 /\ observed t' k = false /\ t' = t) \/ in_pass tid t = true /\ exists info, tile_info w tid rows = Ok info /\
  fiber_in t' k = match zassoc (t_id t) (fst info) with Some f => f | None => match zassoc (t_id t) (snd info) with Some f => f | None => -1 end end /\ observed t' k = is_some (zassoc (t_id t) (fst info)) /\ t_available t' = t_available t || is_some (zassoc (t_id t) (snd info)).
Proof.
  intros w k rows tid t t' L1 L2 O G ST. unfold pass_step in ST. destruct (in_pass tid t); [|subst; auto]. destruct ST as (info & E & ->). right. split; auto. exists info. unfold stepped, fiber_in, observed. cbn. rewrite !set_nth_same by auto. auto.
Qed.
Lemma steps_new : forall w find tiles k rows n l0 l l', sound (w k) -> (k < n)%nat -> NoDup (map t_id l) -> NoDup (map p_id rows) -> Forall2 (counted n k) l0 l -> Forall2 (steps (w k) find tiles k rows) l l' ->
  (forall r, In r rows -> exists i t, nth_error l i = Some t /\ t_id t = p_id r /\ in_pass (p_tile r) t = true /\ tile_over find (tiles_in tiles k) (t_pos t) = Ok (p_tile r)) ->
  exclusive find tiles l' k /\ served w find tiles l' k.
Proof.
  intros w find tiles k rows n l0 l l' SW K ND NR FC F ROWS.
  assert (CT : forall t, In t l -> (k < List.length (t_fiber t))%nat /\ (k < List.length (t_obs t))%nat /\ observed t k = false /\ fiber_in t k = -1).
  { intros t T. destruct (forall2_in_r _ _ _ _ _ _ FC T) as (t0 & _ & (C1 & C2 & C3 & C4 & C5 & C6 & C7 & C8)). destruct (C7 k ltac:(lia)). rewrite C3, C4. auto. }
  split.
  - intros i j t t' tid D Hi Hj [Ti0 Ti] [Tj0 Tj] Oi Oj EQ. destruct (forall2_nth _ _ _ _ _ _ _ F Hi) as (s & S1 & tid1 & U1 & S2). destruct (forall2_nth _ _ _ _ _ _ _ F Hj) as (s' & S1' & tid2 & U2 & S2').
    destruct (CT s (nth_error_In _ _ S1)) as (L1 & L2 & L3 & L4). destruct (CT s' (nth_error_In _ _ S1')) as (L1' & L2' & L3' & L4').
    assert (P1 : t_pos t = t_pos s). { unfold pass_step in S2. destruct (in_pass tid1 s); [destruct S2 as (x & _ & ->)|subst t]; reflexivity. }
    assert (P2 : t_pos t' = t_pos s'). { unfold pass_step in S2'. destruct (in_pass tid2 s'); [destruct S2' as (x & _ & ->)|subst t']; reflexivity. }
    assert (tid1 = tid) by (rewrite P1, U1 in Ti; apply ok_inj_p in Ti; auto). assert (tid2 = tid) by (rewrite P2, U2 in Tj; apply ok_inj_p in Tj; auto). subst tid1 tid2.
    destruct (step_fiber _ _ _ _ _ _ L1 L2 L3 L4 S2) as [(_ & X & _)|(_ & info & EI & G & O & _)]; [congruence|]. destruct (step_fiber _ _ _ _ _ _ L1' L2' L3' L4' S2') as [(_ & X & _)|(_ & info' & EI' & G' & O' & _)]; [congruence|].
    rewrite EI in EI'. apply ok_inj_p in EI'. subst info'. rewrite O in Oi. rewrite O' in Oj. destruct (zassoc (t_id s) (fst info)) as [f|] eqn:Z1; [|discriminate]. destruct (zassoc (t_id s') (fst info)) as [f'|] eqn:Z2; [|discriminate]. rewrite G, G' in EQ. subst f'.
    destruct (info_facts _ _ _ _ SW EI) as (good & _ & _ & _ & _ & _ & INJ & _). apply zassoc_in in Z1, Z2. pose proof (INJ _ _ _ Z1 Z2) as EID. apply D. eapply NoDup_nth_error; [exact ND|apply nth_error_Some; rewrite nth_error_map, S1; discriminate|]. rewrite !nth_error_map, S1, S1'. cbn. congruence.
  - intros t T FN. destruct (forall2_in_r _ _ _ _ _ _ F T) as (s & S1 & tid & U & S2). destruct (CT s S1) as (L1 & L2 & L3 & L4). destruct (step_fiber _ _ _ _ _ _ L1 L2 L3 L4 S2) as [(X & _)|(IP & info & EI & G & O & _)]; [contradiction|].
    destruct (info_facts _ _ _ _ SW EI) as (good & GD & G1 & G2 & NF & _ & _ & AV & _).
    assert (P1 : t_pos t = t_pos s). { unfold pass_step in S2. destruct (in_pass tid s); [destruct S2 as (x & _ & ->)|subst t]; reflexivity. }
    assert (IT : in_tile find tiles k t tid). { unfold in_pass in IP. apply andb_true_iff in IP. destruct IP as [IP _]. apply Z.leb_le in IP. split; auto. rewrite P1. auto. }
    assert (H : exists i, In (i, fiber_in t k) (fst info)). { rewrite G in FN |- *. destruct (zassoc (t_id s) (fst info)) as [f|] eqn:Z1; [exists (t_id s); apply zassoc_in; auto|]. destruct (zassoc (t_id s) (snd info)) as [f|] eqn:Z2; [|congruence]. apply zassoc_in in Z2. apply (AV _ _ Z2). }
    destruct H as (i & HI). exists tid, good. pose proof SW as (OT & _). destruct (info_own _ _ _ _ i OT EI) as (r & R1 & R2 & R3); [left; apply in_map_iff; exists (i, fiber_in t k); auto|]. destruct (ROWS r R1) as (j & s' & J1 & J2 & J3 & J4).
    destruct (forall2_nth_l _ _ _ _ _ _ _ F J1) as (t' & T' & tid' & U' & S2'). rewrite U' in J4. apply ok_inj_p in J4. rewrite R3 in J4. subst tid'. exists t'.
    destruct (CT s' (nth_error_In _ _ J1)) as (L1' & L2' & L3' & L4'). rewrite R3 in J3. assert (ZA : zassoc (t_id s') (fst info) = Some (fiber_in t k)) by (rewrite J2, R2; apply zassoc_nodup; auto).
    unfold pass_step in S2'. rewrite J3 in S2'. destruct S2' as (info' & EI' & ET'). rewrite EI in EI'. apply ok_inj_p in EI'. subst info'. rewrite ZA in ET'.
    split; auto. split; auto. split; [eapply G1; eauto|]. split; [eapply nth_error_In; eauto|]. subst t'. unfold observed, fiber_in, stepped. cbn [t_fiber t_obs t_pos]. rewrite !set_nth_same by auto. split; [|auto]. destruct IT as [IT0 IT]. split; [exact IT0|exact U'].
Qed.
Definition history (w : nat -> world) (find : list tile -> R * R -> list nat) (tiles : list tile) (n : nat) (targets : list target) (k : nat) (l : list target) : Prop :=
  Forall2 (counted n k) targets l /\ (forall q, (q < k)%nat -> exclusive find tiles l q /\ served w find tiles l q) /\ (forall t, In t l -> t_available t = true -> exists q, (q < k)%nat /\ fiber_in t q <> -1).
Lemma history_holds : forall w find exchange tiles n targets out, (forall k, sound (w k)) -> (forall k, shares p_tile (exchange k)) -> distinct_tiles tiles -> NoDup (map t_id targets) ->
  apply_fiber_assignment w find exchange tiles n targets = Ok out -> history w find tiles n targets n out.
Proof.
  intros w find exchange tiles n targets out SW SH DT ND H. refine (passes_ind (history w find tiles n targets) w find exchange tiles n targets out _ _ H).
  - split; [apply counted_start|]. split; [intros; lia|]. intros t T A. apply in_map_iff in T. destruct T as (s & <- & _). discriminate.
  - intros k l l' K (F & OLD & AV) R. assert (NDl : NoDup (map t_id l)) by (rewrite (ids_of_objects _ _ (counted_objects _ _ _ _ F)); auto). destruct (steps_nth _ _ _ _ _ _ _ (SW k) (SH k) DT NDl R) as (rows & NR & L & ROWS & ST).
    assert (F2 : Forall2 (steps (w k) find tiles k rows) l l'). { apply nth_forall2; auto. intros i t2 E. destruct (ST i t2 E) as (t1 & tid & E1 & E2 & P). exists t1. split; auto. exists tid. auto. }
    split; [|split].
    + eapply forall2_trans; [|exact F|exact F2]. intros a b c C (tid & _ & P). eapply counted_step; eauto.
    + intros q Q. destruct (Nat.eq_dec q k) as [->|NE]; [exact (steps_new w find tiles k rows n targets l l' (SW k) K NDl NR F F2 ROWS)|]. destruct (steps_old w find tiles k rows l l' q F2 NE) as [S1 S2]. destruct (OLD q ltac:(lia)). auto.
    + intros t T A. destruct (forall2_in_r _ _ _ _ _ _ F2 T) as (s & S1 & tid & U & S2). destruct (t_available s) eqn:AS.
      * destruct (AV s S1 AS) as (q & Q1 & Q2). exists q. split; [lia|]. destruct (step_keeps _ _ _ _ _ _ q S2) as (_ & _ & ->); [lia|auto].
      * exists k. split; [lia|]. destruct (forall2_in_r _ _ _ _ _ _ F S1) as (t0 & _ & (C1 & C2 & C3 & C4 & C5 & C6 & C7 & C8)). destruct (C7 k ltac:(lia)) as [O G]. destruct (step_fiber (w k) k rows tid s t) as [(X1 & X2 & X3)|(_ & info & EI & X1 & X2 & X3)]; auto; try lia; [subst t; congruence|].
        rewrite AS in X3. cbn in X3. rewrite A in X3. rewrite X1. destruct (zassoc (t_id s) (fst info)) as [f|] eqn:Z1; [apply zassoc_in in Z1; pose proof (info_fiber _ _ _ _ _ _ (SW k) EI (or_introl Z1)); lia|]. destruct (zassoc (t_id s) (snd info)) as [f|] eqn:Z2; [|discriminate]. apply zassoc_in in Z2. pose proof (info_fiber _ _ _ _ _ _ (SW k) EI (or_intror Z2)). lia.
Qed.

(** C49: in a pass, two targets of a tile are not observed with the same fibre. *)
Theorem C49_fibers : forall w find exchange tiles n targets out i j t t' q tid, (forall k, sound (w k)) -> (forall k, shares p_tile (exchange k)) -> distinct_tiles tiles -> NoDup (map t_id targets) ->
  apply_fiber_assignment w find exchange tiles n targets = Ok out -> i <> j -> nth_error out i = Some t -> nth_error out j = Some t' -> in_tile find tiles q t tid -> in_tile find tiles q t' tid -> observed t q = true -> observed t' q = true ->
  fiber_in t q <> fiber_in t' q.
Proof.
  intros w find exchange tiles n targets out i j t t' q tid SW SH DT ND H D Hi Hj Ti Tj Oi Oj. destruct (history_holds _ _ _ _ _ _ _ SW SH DT ND H) as (F & X & _). destruct (Nat.lt_ge_cases q n) as [Q|Q]; [destruct (X q Q) as [E _]; eapply E; eauto|].
  destruct (forall2_nth _ _ _ _ _ _ _ F Hi) as (t0 & _ & (C1 & C2 & C3 & C4 & C5 & C6 & C7 & C8)). destruct (C7 q Q). congruence.
Qed.
Print Assumptions C49_fibers.
(** C49: the fibre recorded in a pass works, and it was used for a target of the tile. *)
Theorem C49_working : forall w find exchange tiles n targets out t q, (forall k, sound (w k)) -> (forall k, shares p_tile (exchange k)) -> distinct_tiles tiles -> NoDup (map t_id targets) ->
  apply_fiber_assignment w find exchange tiles n targets = Ok out -> In t out -> fiber_in t q <> -1 ->
  exists tid good t', in_tile find tiles q t tid /\ w_good (w q) tid = Ok good /\ good (fiber_in t q) = true /\ In t' out /\ in_tile find tiles q t' tid /\ observed t' q = true /\ fiber_in t' q = fiber_in t q.
Proof.
  intros w find exchange tiles n targets out t q SW SH DT ND H T FN. destruct (history_holds _ _ _ _ _ _ _ SW SH DT ND H) as (F & X & _). destruct (Nat.lt_ge_cases q n) as [Q|Q]; [destruct (X q Q) as [_ E]; auto|].
  destruct (forall2_in_r _ _ _ _ _ _ F T) as (t0 & _ & (C1 & C2 & C3 & C4 & C5 & C6 & C7 & C8)). destruct (C7 q Q). congruence.
Qed.
Print Assumptions C49_working.
(** C49: a target observed is available, if the fibres fiberassign places on targets work. Missing: with fibres that do not work, [C49_available_refuted]. *)
Theorem C49_available_partial : forall w find exchange tiles n targets out t q, (forall k, sound (w k)) -> (forall k, shares p_tile (exchange k)) -> distinct_tiles tiles -> NoDup (map t_id targets) ->
  (forall k tid rows x i f good, In (x, i) (a_located (w_assign (w k) tid rows)) -> w_fiber (w k) tid x = Ok f -> w_good (w k) tid = Ok good -> good f = true) ->
  apply_fiber_assignment w find exchange tiles n targets = Ok out -> In t out -> observed t q = true -> t_available t = true.
Proof.
  intros w find exchange tiles n targets out t q SW SH DT ND WK H T O. revert t q T O. refine (proj2 (passes_ind (fun k l => Forall2 (counted n k) targets l /\ forall t q, In t l -> observed t q = true -> t_available t = true) w find exchange tiles n targets out _ _ H)).
  - split; [apply counted_start|]. intros t q T O. apply in_map_iff in T. destruct T as (s & <- & _). unfold observed, start in O. cbn in O. rewrite repeat_nth in O. discriminate.
  - intros k l l' K (F & AV) R. assert (NDl : NoDup (map t_id l)) by (rewrite (ids_of_objects _ _ (counted_objects _ _ _ _ F)); auto). destruct (steps_nth _ _ _ _ _ _ _ (SW k) (SH k) DT NDl R) as (rows & NR & L & ROWS & ST).
    assert (F2 : Forall2 (steps (w k) find tiles k rows) l l'). { apply nth_forall2; auto. intros i t2 E. destruct (ST i t2 E) as (t1 & tid & E1 & E2 & P). exists t1. split; auto. exists tid. auto. }
    split; [eapply forall2_trans; [|exact F|exact F2]; intros a b c C (tid & _ & P); eapply counted_step; eauto|].
    intros t q T O. destruct (forall2_in_r _ _ _ _ _ _ F2 T) as (s & S1 & tid & U & S2). destruct (forall2_in_r _ _ _ _ _ _ F S1) as (t0 & _ & (C1 & C2 & C3 & C4 & C5 & C6 & C7 & C8)). destruct (C7 k ltac:(lia)) as [OS GS].
    destruct (step_fiber (w k) k rows tid s t) as [(X1 & X2 & X3)|(_ & info & EI & X1 & X2 & X3)]; auto; try lia; [subst t; eapply AV; eauto|]. rewrite X3. destruct (Nat.eq_dec q k) as [->|NE].
    + rewrite O in X2. destruct (zassoc (t_id s) (fst info)) as [f|] eqn:Z1; [|discriminate]. apply zassoc_in in Z1. destruct (info_facts _ _ _ _ (SW k) EI) as (good & GD & _ & _ & _ & NV & _ & _ & ALL). destruct (ALL (fun x i f0 I E => WK k tid rows x i f0 good I E GD) _ _ Z1) as (g & G). rewrite (zassoc_nodup _ _ _ g NV G). cbn. apply orb_true_r.
    + destruct (step_keeps _ _ _ _ _ _ q S2 NE) as (_ & OQ & _). rewrite OQ in O. rewrite (AV s q S1 O). auto.
Qed.
Print Assumptions C49_available_partial.
(** C49: fibres kept are those whose petal has a file, with no flag of bad data. *)
Lemma nth_concat : forall A (d : A) m ls k j, Forall (fun l => List.length l = m) ls -> (j < m)%nat -> nth (k * m + j) (List.concat ls) d = nth j (nth k ls []) d.
Proof.
  induction ls as [|l ls IH]; intros k j F J; [cbn; destruct (k * m + j)%nat, k, j; auto|]. inversion F as [|x xs L F']; subst. cbn [List.concat]. destruct k as [|k].
  - cbn. rewrite app_nth1; auto.
  - rewrite app_nth2 by (cbn; lia). replace (S k * List.length l + j - List.length l)%nat with (k * List.length l + j)%nat by (cbn; lia). apply IH; auto.
Qed.
Theorem C49_flags : forall bad_petal nodata bad petals good f, Forall (fun p : option (list Z) => match p with Some z => List.length z = 500%nat | None => True end) petals -> Z.land bad_petal bad <> 0 ->
  good_fibers bad_petal nodata bad petals = Ok good -> good f = true ->
  0 <= f < 5000 /\ exists zwarn, nth_error petals (Z.to_nat (f / 500)) = Some (Some zwarn) /\ Z.land (nth (Z.to_nat (f mod 500)) zwarn 0) nodata = 0 /\ Z.land (nth (Z.to_nat (f mod 500)) zwarn 0) bad = 0.
Proof.
  intros bad_petal nodata bad petals good f FP BP H G. unfold good_fibers in H. cbv zeta in H. destruct (Nat.eqb (List.length (zwarn_of bad_petal petals)) 5000) eqn:L; [|discriminate]. cbn [negb] in H. apply ok_inj_p in H. subst good. apply Nat.eqb_eq in L.
  rewrite !andb_true_iff in G. destruct G as [[G1 G2] [G3 G4]]. apply Z.leb_le in G1. apply Z.ltb_lt in G2. apply Z.eqb_eq in G3, G4. split; [lia|].
  set (g := fun p : option (list Z) => match p with Some z => z | None => repeat bad_petal 500 end) in *.
  assert (FL : Forall (fun l => List.length l = 500%nat) (map g petals)). { apply Forall_map. eapply Forall_impl; [|exact FP]. intros [z|] E; [exact E|apply repeat_length]. }
  assert (LP : List.length petals = 10%nat). { assert (X : forall ls, Forall (fun l : list Z => List.length l = 500%nat) ls -> List.length (List.concat ls) = (List.length ls * 500)%nat). { clear. induction 1; cbn [List.concat List.length]; auto. rewrite app_length. lia. } unfold zwarn_of in L. fold g in L. rewrite (X _ FL), map_length in L. lia. }
  pose proof (Z.div_mod f 500 ltac:(lia)) as DM. pose proof (Z.mod_pos_bound f 500 ltac:(lia)) as MB. assert (DB : 0 <= f / 500 < 10) by (split; [apply Z.div_pos; lia|apply Z.div_lt_upper_bound; lia]).
  assert (EF : Z.to_nat f = (Z.to_nat (f / 500) * 500 + Z.to_nat (f mod 500))%nat) by lia.
  unfold zwarn_of in G3, G4. fold g in G3, G4. rewrite EF, (nth_concat _ _ 500) in G3, G4 by (auto; lia).
  destruct (nth_error petals (Z.to_nat (f / 500))) as [p|] eqn:EP; [|apply nth_error_None in EP; lia]. assert (EN : nth (Z.to_nat (f / 500)) (map g petals) [] = g p). { apply nth_error_nth. rewrite nth_error_map, EP. auto. } rewrite EN in G3, G4. destruct p as [z|].
  - exists z. cbn [g] in *. auto.
  - exfalso. cbn [g] in G4. assert (X : nth (Z.to_nat (f mod 500)) (repeat bad_petal 500) 0 = bad_petal). { apply nth_error_nth. apply nth_error_repeat. lia. } unfold g in G4. rewrite X in G4. contradiction.
Qed.
Print Assumptions C49_flags.

(** A concrete world: targets 1, 2 and 3; a tile gives its location 7 to the first of its targets, all of them being reached from there. *)
Definition ex_reached (t : Z) (rows : list prow) : list Z := filter (fun i => existsb (fun r => (p_id r =? i) && (p_tile r =? t)) rows) [1; 2; 3].
Arguments ex_reached : simpl never.
Definition ex_assign (t : Z) (rows : list prow) : assignment :=
  Assignment (match ex_reached t rows with [] => [] | i :: _ => [(7, i)] end) [(7, ex_reached t rows)].
Definition ex_good (f : Z) : bool := (0 <=? f) && (f <? 5000).
Definition ex_world : world := World ex_assign (fun _ x => Ok x) (fun _ => true) (fun _ => Ok ex_good).
Lemma ex_reached_in : forall t rows i, In i (ex_reached t rows) -> exists r, In r rows /\ p_id r = i /\ p_tile r = t.
Proof. intros t rows i H. unfold ex_reached in H. apply filter_In in H. destruct H as [_ H]. apply existsb_exists in H. destruct H as (r & R1 & R2). apply andb_true_iff in R2. rewrite !Z.eqb_eq in R2. exists r. tauto. Qed.
Lemma ex_sound : sound ex_world.
Proof.
  split; [|split; [|split] ].
  - intros t rows x H _. cbn in H. destruct H as [H|H].
    + destruct (ex_reached t rows) as [|i l] eqn:E in H; cbn in H; [contradiction|]. destruct H as [<-|[] ]. apply ex_reached_in. rewrite E. cbn. auto.
    + rewrite app_nil_r in H. apply ex_reached_in. auto.
  - intros t rows rows' P. cbn. unfold ex_assign. replace (ex_reached t rows') with (ex_reached t rows); auto. unfold ex_reached. apply filter_ext. intros i. apply eq_true_iff_eq. rewrite !existsb_exists.
    assert (X : forall a b, Permutation (filter (fun r => p_tile r =? t) a) (filter (fun r => p_tile r =? t) b) -> (exists r, In r a /\ (p_id r =? i) && (p_tile r =? t) = true) -> exists r, In r b /\ (p_id r =? i) && (p_tile r =? t) = true).
    { intros a b PP (r & R1 & R2). exists r. split; auto. apply andb_true_iff in R2. assert (In r (filter (fun r => p_tile r =? t) a)) by (apply filter_In; tauto). apply (Permutation_in _ PP) in H. apply filter_In in H. tauto. }
    split; apply X; auto. symmetry. auto.
  - split; [|split; [|split] ]; cbn.
    + intros t rows. destruct (ex_reached t rows); cbn; repeat constructor; cbn; tauto.
    + intros t rows. destruct (ex_reached t rows); cbn; repeat constructor; cbn; tauto.
    + intros t rows x i H. exists (ex_reached t rows). revert H. destruct (ex_reached t rows); intros H; cbn in H; [contradiction|]. destruct H as [H|[] ]. injection H as <- <-. cbn. auto.
    + intros t x y f _ E1 E2. apply ok_inj_p in E1, E2. congruence.
  - intros t good f E G. cbn in E. apply ok_inj_p in E. subst good. unfold ex_good in G. apply andb_true_iff in G. rewrite Z.leb_le, Z.ltb_lt in G. auto.
Qed.
Definition one_process (rows : list prow) : list (list prow) := [rows].
Lemma one_process_shares : shares p_tile one_process.
Proof. intros rows. unfold one_process. cbn. rewrite app_nil_r. split; auto. intros i j r s H1 H2 _. destruct i as [|[|i] ], j as [|[|j] ]; cbn in *; try contradiction; auto. Qed.
(** One tile in the first pass, one in the second, over the whole sky. *)
Definition ex_tiles : list tile := [Tile 10 "DARK"%string 0; Tile 20 "DARK"%string 1].
Definition ex_find (tiles : list tile) (pos : R * R) : list nat := [0%nat].
Definition ex_target (i more : Z) : target := Target i (0%R, 0%R) more 0 false [] [].
Definition ex_targets : list target := [ex_target 2 1; ex_target 1 2; ex_target 3 0].
Definition ex_out : list target := [Target 2 (0%R, 0%R) 1 0 true [7; 7] [false; false]; Target 1 (0%R, 0%R) 0 2 true [7; 7] [true; true]; Target 3 (0%R, 0%R) 0 0 false [-1; -1] [false; false]].
Example C47_case : (forall k : nat, sound ex_world) /\ (forall k : nat, shares p_tile one_process) /\ distinct_tiles ex_tiles /\ NoDup (map t_id ex_targets) /\
  apply_fiber_assignment (fun _ => ex_world) ex_find (fun _ => one_process) ex_tiles 2 ex_targets = Ok ex_out.
Proof.
  split; [intros; apply ex_sound|]. split; [intros; apply one_process_shares|]. split; [unfold distinct_tiles; cbn; repeat constructor; cbn; lia|]. split; [cbn; repeat constructor; cbn; lia|]. reflexivity.
Qed.
(** C48: the same over two processes, in another order. *)
Definition other_processes (rows : list prow) : list (list prow) := [[]; rev rows].
Example C48_case : shares p_tile other_processes /\ apply_fiber_assignment (fun _ => ex_world) ex_find (fun _ => other_processes) ex_tiles 2 ex_targets = Ok ex_out /\ ~ in_tile ex_find [] 0 (ex_target 1 1) 10.
Proof.
  split; [|split; [reflexivity|intros [_ H]; discriminate] ]. intros rows. unfold other_processes. cbn. rewrite app_nil_r. split; [symmetry; apply Permutation_rev|]. intros i j r s H1 H2 _. destruct i as [|[|[|i] ] ], j as [|[|[|j] ] ]; cbn in *; try contradiction; auto.
Qed.
Example C49_case : forall good, good_fibers 2 4 10 (repeat (Some (repeat 0 500)) 9 ++ [None]) = Ok good -> good 17 = true /\ good 4500 = false.
Proof. intros good H. unfold good_fibers in H. cbv zeta in H. destruct (Nat.eqb _ _) eqn:E in H; [|discriminate]. apply ok_inj_p in H. subst good. split; vm_compute; reflexivity. Qed.

(** Tiles 10 and 20 of a pass overlap: target 1, in tile 10, is reached from tile 20 too. *)
Definition lap_assign (t : Z) (rows : list prow) : assignment :=
  if existsb (fun r => p_id r =? 1) rows then Assignment [(7, 1)] [(7, [1])] else Assignment [] [(7, [])].
Definition lap_world : world := World lap_assign (fun _ x => Ok x) (fun _ => true) (fun _ => Ok ex_good).
Definition lap_tiles : list tile := [Tile 10 "DARK"%string 0; Tile 20 "DARK"%string 0].
Definition lap_find (tiles : list tile) (pos : R * R) : list nat := if Rlt_dec (fst pos) 1 then [0%nat; 1%nat] else [1%nat].
Definition lap_targets : list target := [Target 1 (0%R, 0%R) 1 0 false [] []; Target 2 (2%R, 0%R) 1 0 false [] []].
Definition by_tile (rows : list prow) : list (list prow) := [filter (fun r => p_tile r =? 10) rows; filter (fun r => negb (p_tile r =? 10)) rows].
Lemma by_tile_shares : shares p_tile by_tile.
Proof.
  intros rows. unfold by_tile. cbn [List.concat]. rewrite app_nil_r. split.
  - induction rows as [|r rows IH]; cbn; auto. destruct (p_tile r =? 10); cbn; [auto|]. eapply perm_trans; [symmetry; apply Permutation_middle|]. auto.
  - intros i j r s H1 H2 E. destruct i as [|[|[|i] ] ], j as [|[|[|j] ] ]; cbn in *; try contradiction; auto; apply filter_In in H1, H2; rewrite E in H1; destruct (p_tile s =? 10); destruct H1, H2; discriminate.
Qed.
Lemma lap_far : Rlt_dec 2 1 = right (Rlt_asym 1 2 ltac:(lra)) \/ exists H, Rlt_dec 2 1 = right H.
Proof. right. destruct (Rlt_dec 2 1) as [H|H]; [exfalso; lra|exists H; auto]. Qed.
Lemma lap_near : exists H, Rlt_dec 0 1 = left H.
Proof. destruct (Rlt_dec 0 1) as [H|H]; [exists H; auto|exfalso; lra]. Qed.
(** C47 is false when tiles of a pass overlap: NUMOBS counts two observations for one pass, and NUMOBS_MORE becomes negative. *)
Theorem C47_overlap_refuted : exists w find exchange tiles n targets out t, (forall k : nat, shares p_tile (exchange k)) /\ distinct_tiles tiles /\ NoDup (map t_id targets) /\ Forall (fun t => 0 <= t_more t) targets /\
  apply_fiber_assignment w find exchange tiles n targets = Ok out /\ In t out /\ t_numobs t = 2 /\ times_observed t = 1 /\ t_more t < 0.
Proof.
  exists (fun _ => lap_world), lap_find, (fun _ => one_process), lap_tiles, 1%nat, lap_targets, [Target 1 (0%R, 0%R) (-1) 2 true [7] [true]; Target 2 (2%R, 0%R) 1 0 false [-1] [false] ], (Target 1 (0%R, 0%R) (-1) 2 true [7] [true]).
  split; [intros; apply one_process_shares|]. split; [unfold distinct_tiles; cbn; repeat constructor; cbn; lia|]. split; [cbn; repeat constructor; cbn; lia|]. split; [repeat constructor; cbn; lia|]. split.
  - unfold apply_fiber_assignment, lap_targets, lap_find. cbn [seq run_passes map start t_id t_pos t_more repeat]. unfold run_pass, tile_over. cbn. destruct lap_near as (H1 & E1). destruct lap_far as [E2|(H2 & E2)]; rewrite E1, E2; reflexivity.
  - cbn. split; auto. split; auto. split; [reflexivity|lia].
Qed.
Print Assumptions C47_overlap_refuted.
(** C48 is false when tiles of a pass overlap: the result depends on how rows are shared between processes. *)
Theorem C48_overlap_refuted : exists w find exchange exchange' tiles n targets out out', (forall k : nat, shares p_tile (exchange k)) /\ (forall k : nat, shares p_tile (exchange' k)) /\ distinct_tiles tiles /\ NoDup (map t_id targets) /\
  apply_fiber_assignment w find exchange tiles n targets = Ok out /\ apply_fiber_assignment w find exchange' tiles n targets = Ok out' /\ map t_numobs out = [2; 0] /\ map t_numobs out' = [1; 0].
Proof.
  exists (fun _ => lap_world), lap_find, (fun _ => one_process), (fun _ => by_tile), lap_tiles, 1%nat, lap_targets, [Target 1 (0%R, 0%R) (-1) 2 true [7] [true]; Target 2 (2%R, 0%R) 1 0 false [-1] [false] ], [Target 1 (0%R, 0%R) 0 1 true [7] [true]; Target 2 (2%R, 0%R) 1 0 false [-1] [false] ].
  split; [intros; apply one_process_shares|]. split; [intros; apply by_tile_shares|]. split; [unfold distinct_tiles; cbn; repeat constructor; cbn; lia|]. split; [cbn; repeat constructor; cbn; lia|].
  split; [|split; [|auto] ]; unfold apply_fiber_assignment, lap_targets, lap_find; cbn [seq run_passes map start t_id t_pos t_more repeat]; unfold run_pass, tile_over; cbn; destruct lap_near as (H1 & E1); destruct lap_far as [E2|(H2 & E2)]; rewrite E1, E2; reflexivity.
Qed.
Print Assumptions C48_overlap_refuted.
(** C49: target 1 is reached from locations 5 and 7 and observed from 7; the fibre of 5, given to target 2, does not work: target 1 is observed, and not available. *)
Definition bad_assign (t : Z) (rows : list prow) : assignment :=
  Assignment (combine [7; 5] (ex_reached t rows)) [(5, ex_reached t rows); (7, ex_reached t rows)].
Definition bad_good (f : Z) : bool := ex_good f && negb (f =? 5).
Definition bad_world : world := World bad_assign (fun _ x => Ok x) (fun _ => true) (fun _ => Ok bad_good).
Lemma ex_reached_nodup : forall t rows, NoDup (ex_reached t rows).
Proof. intros. unfold ex_reached. apply NoDup_filter. repeat constructor; cbn; lia. Qed.
Lemma bad_sound : sound bad_world.
Proof.
  destruct ex_sound as (_ & LO & _). split; [|split; [|split] ].
  - intros t rows x H _. cbn -[combine] in H. destruct H as [H|H].
    + apply in_map_iff in H. destruct H as ([l i] & E & H). cbn in E. subst i. apply in_combine_r in H. apply ex_reached_in. auto.
    + rewrite app_nil_r in H. apply in_app_iff in H. apply ex_reached_in. tauto.
  - intros t rows rows' P. specialize (LO t rows rows' P). cbn in LO |- *. unfold ex_assign in LO. unfold bad_assign. injection LO as _ E. rewrite E. auto.
  - split; [|split; [|split] ]; cbn -[combine].
    + intros t rows. destruct (ex_reached t rows) as [|a [|b l] ]; cbn; repeat constructor; cbn; lia.
    + intros t rows. pose proof (ex_reached_nodup t rows) as N. revert N. destruct (ex_reached t rows) as [|a [|b l] ]; intros N; cbn; [constructor|repeat constructor; cbn; lia|]. inversion N as [|x xs N1 N2]; subst. constructor; [|repeat constructor; cbn; lia]. cbn in N1 |- *. tauto.
    + intros t rows x i H. exists (ex_reached t rows). revert H. destruct (ex_reached t rows) as [|a [|b l] ]; intros H; cbn in H; [contradiction| |].
      * destruct H as [H|[] ]. injection H as <- <-. cbn. auto.
      * destruct H as [H|[H|[] ] ]; injection H as <- <-; cbn; auto.
    + intros t x y f _ E1 E2. apply ok_inj_p in E1, E2. congruence.
  - intros t good f E G. cbn in E. apply ok_inj_p in E. subst good. unfold bad_good, ex_good in G. rewrite !andb_true_iff, Z.leb_le, Z.ltb_lt in G. tauto.
Qed.
Theorem C49_available_refuted : exists w find exchange tiles n targets out t, (forall k : nat, sound (w k)) /\ (forall k : nat, shares p_tile (exchange k)) /\ distinct_tiles tiles /\ NoDup (map t_id targets) /\
  apply_fiber_assignment w find exchange tiles n targets = Ok out /\ In t out /\ observed t 0 = true /\ t_available t = false.
Proof.
  exists (fun _ => bad_world), ex_find, (fun _ => one_process), ex_tiles, 1%nat, [ex_target 1 1; ex_target 2 1], [Target 1 (0%R, 0%R) 0 1 false [7] [true]; Target 2 (0%R, 0%R) 1 0 false [-1] [false] ], (Target 1 (0%R, 0%R) 0 1 false [7] [true]).
  split; [intros; apply bad_sound|]. split; [intros; apply one_process_shares|]. split; [unfold distinct_tiles; cbn; repeat constructor; cbn; lia|]. split; [cbn; repeat constructor; cbn; lia|]. split; [reflexivity|]. cbn. auto.
Qed.
Print Assumptions C49_available_refuted.
