(** Theorems on completeness weights: C50. *)
Require Import Reals ZArith List Bool Permutation Lia Sorted.
From Verif Require Import Base Box_Model Blind_Model Blind_Thm2 FA_Model FA_Spec FA_Proof FA_Thm Comp_Spec.
Import ListNotations.
Open Scope Z_scope.

(** Fibres wanted in a tile. *)
Definition fibers_of (rows : list crow) (t : Z) : list Z := map c_fiber (filter wanted (filter (fun r => c_tile r =? t) rows)).
Lemma weigh_tile_eq : forall t rows, weigh_tile t rows = map (fun r => if c_tile r =? t then weigh_row (fibers_of rows t) r else r) rows.
Proof. reflexivity. Qed.
Lemma weigh_fibers : forall t t' rows, t' <> t -> fibers_of (weigh_tile t rows) t' = fibers_of rows t'.
Proof.
  intros t t' rows N. rewrite weigh_tile_eq. generalize (fibers_of rows t) as F. intros F. unfold fibers_of. f_equal. f_equal. induction rows as [|r rows IH]; auto. cbn. destruct (c_tile r =? t) eqn:E.
  - cbn [weigh_row c_tile]. apply Z.eqb_eq in E. replace (c_tile r =? t') with false by (symmetry; apply Z.eqb_neq; congruence). auto.
  - rewrite IH. auto.
Qed.
Lemma weigh_fold : forall ts rows, NoDup ts -> fold_left (fun rows t => weigh_tile t rows) ts rows = map (fun r => if existsb (Z.eqb (c_tile r)) ts then weigh_row (fibers_of rows (c_tile r)) r else r) rows.
Proof.
  induction ts as [|t ts IH]; intros rows ND; cbn [fold_left]; [symmetry; apply map_id|]. inversion ND as [|x xs N ND']; subst. rewrite IH by auto. match goal with |- map ?f _ = _ => rewrite (f_equal (map f) (weigh_tile_eq t rows)) end. rewrite map_map. apply map_ext. intros r. cbn [existsb]. destruct (c_tile r =? t) eqn:E.
  - apply Z.eqb_eq in E. cbn [weigh_row c_tile orb]. fold (weigh_row (fibers_of rows t) r). rewrite E. replace (existsb (Z.eqb t) ts) with false by (symmetry; apply existsb_notin; auto). auto.
  - cbn [orb]. apply Z.eqb_neq in E. rewrite weigh_fibers by auto. auto.
Qed.
Lemma perm_length_filter : forall A (f : A -> bool) l m, Permutation l m -> List.length (filter f l) = List.length (filter f m).
Proof. intros. apply Permutation_length, perm_filter. auto. Qed.
Lemma weigh_row_perm : forall F G r, Permutation F G -> weigh_row F r = weigh_row G r.
Proof.
  intros F G r P. unfold weigh_row, count. rewrite (perm_length_filter _ (Z.eqb (c_fiber r)) F G P). replace (existsb (Z.eqb (c_fiber r)) G) with (existsb (Z.eqb (c_fiber r)) F); auto. apply eq_true_iff_eq. rewrite !existsb_in. split; apply Permutation_in; [|symmetry]; auto.
Qed.
Lemma weigh_process_eq : forall tiles exchange rows part, NoDup tiles -> shares c_tile exchange -> In part (exchange rows) -> (forall r, In r rows -> In (c_tile r) tiles) -> weigh_process tiles part = map (fun r => weigh_row (fibers_of rows (c_tile r)) r) part.
Proof.
  intros tiles exchange rows part NT SH HP HT. unfold weigh_process. rewrite weigh_fold by (apply NoDup_filter; auto). apply map_ext_in. intros r R. destruct (SH rows) as [P _].
  replace (existsb _ _) with true.
  - apply weigh_row_perm. unfold fibers_of. apply Permutation_map, perm_filter. apply (shares_tile _ c_tile exchange); auto.
  - symmetry. apply existsb_in, filter_In. split; [apply HT; eapply Permutation_in; [exact P|]; apply in_concat; eauto|]. apply existsb_in, in_map. auto.
Qed.

(** Rows of a pass, without the test on the shape of columns. *)
Definition crow_of (pass : nat) (tid : Z) (g : weighted) (i : nat) : crow := CRow (g_weight g) tid (observed (g_target g) pass) (fiber_in (g_target g) pass) (g_unused g) i.
Fixpoint crows (pass i : nat) (tids : list Z) (l : list weighted) : list crow :=
  match tids, l with
  | tid :: tids, g :: l => if 0 <=? tid then crow_of pass tid g i :: crows pass (S i) tids l else crows pass i tids l
  | _, _ => []
  end.
Lemma weight_rows_eq : forall pass tids l i rows, weight_rows pass i tids l = Ok rows -> rows = crows pass i tids l.
Proof.
  induction tids as [|tid tids IH]; intros [|g l] i rows H; cbn in H |- *; try (apply ok_inj_p in H; auto). destruct (0 <=? tid); [|apply IH; auto].
  destruct (nth_error (t_obs (g_target g)) pass) as [o|] eqn:EO; [|discriminate]. destruct (nth_error (t_fiber (g_target g)) pass) as [f|] eqn:EF; [|discriminate]. destruct (weight_rows pass (S i) tids l) as [r|] eqn:ER; [|discriminate]. cbn [bind] in H. apply ok_inj_p in H. subst rows. rewrite (IH _ _ _ ER). f_equal. unfold crow_of, observed, fiber_in. rewrite (nth_error_nth _ _ _ EO), (nth_error_nth _ _ _ EF). auto.
Qed.
Lemma crows_index : forall pass tids l i r, In r (crows pass i tids l) -> (i <= c_index r)%nat.
Proof. induction tids as [|tid tids IH]; intros [|g l] i r H; cbn in H; try contradiction. destruct (0 <=? tid); [destruct H as [<-|H]; [cbn; lia|apply IH in H; lia]|apply IH in H; auto]. Qed.
Lemma crows_sorted : forall pass tids l i, StronglySorted (fun r s => (c_index r < c_index s)%nat) (crows pass i tids l).
Proof. induction tids as [|tid tids IH]; intros [|g l] i; cbn; try constructor. destruct (0 <=? tid); auto. constructor; auto. apply Forall_forall. intros r H. apply crows_index in H. cbn. lia. Qed.
Lemma crows_tiles : forall pass tids l i r, In r (crows pass i tids l) -> In (c_tile r) tids /\ 0 <= c_tile r.
Proof. induction tids as [|tid tids IH]; intros [|g l] i r H; cbn in H; try contradiction. destruct (0 <=? tid) eqn:E; [apply Z.leb_le in E; destruct H as [<-|H]; [cbn; auto|]|]; destruct (IH _ _ _ H); cbn; auto. Qed.
Definition reweigh (pass : nat) (rows : list crow) (tid : Z) (g : weighted) : weighted :=
  if 0 <=? tid then let r := weigh_row (fibers_of rows tid) (crow_of pass tid g 0) in Weighted (g_target g) (c_weight r) (c_unused r) else g.
Lemma assign_weights : forall pass rows tids l i out, List.length tids = List.length l ->
  assign update_weight (map (fun tid => 0 <=? tid) tids) (map (fun r => weigh_row (fibers_of rows (c_tile r)) r) (crows pass i tids l)) l = Ok out -> out = map (fun x => reweigh pass rows (fst x) (snd x)) (combine tids l).
Proof.
  induction tids as [|tid tids IH]; intros [|g l] i out L H; try discriminate; [cbn in H; apply ok_inj_p in H; auto|]. cbn in L. cbn [map combine fst snd]. cbn [crows] in H. unfold reweigh at 1. destruct (0 <=? tid) eqn:E; cbn [map assign] in H; rewrite E in H.
  - cbn [update_weight bind] in H. destruct (assign _ _ _ l) as [out'|] eqn:EA; [|discriminate]. cbn [bind] in H. apply ok_inj_p in H. subst out. rewrite (IH l (S i) out') by (auto; lia). reflexivity.
  - destruct (assign _ _ _ l) as [out'|] eqn:EA; [|discriminate]. cbn [bind] in H. apply ok_inj_p in H. subst out. rewrite (IH l i out') by (auto; lia). reflexivity.
Qed.
Lemma tids_nth : forall find tiles (l : list weighted) tids, map_result (fun g => tile_over find tiles (t_pos (g_target g))) l = Ok tids -> tids = map (fun g => match tile_over find tiles (t_pos (g_target g)) with Ok tid => tid | Err _ => -1 end) l.
Proof. intros find tiles l tids H. apply map_result_forall2 in H. induction H as [|g tid l tids E F IH]; cbn; auto. rewrite E, IH. auto. Qed.
Lemma weigh_pass_eq : forall find exchange tiles pass l out, distinct_tiles tiles -> shares c_tile exchange -> weigh_pass find exchange tiles pass l = Ok out ->
  exists rows, rows = crows pass 0 (map (fun g => tile_in find tiles pass (g_target g)) l) l /\ out = map (fun g => reweigh pass rows (tile_in find tiles pass (g_target g)) g) l.
Proof.
  intros find exchange tiles pass l out DT SH H. unfold weigh_pass in H. cbv zeta in H. destruct (map_result _ l) as [tids|] eqn:ET; [|discriminate]. cbn [bind] in H. destruct (weight_rows pass 0 tids l) as [rows|] eqn:ER; [|discriminate]. cbn [bind] in H. destruct (list_eqb _ _ _); [|discriminate]. cbn [negb] in H.
  apply weight_rows_eq in ER. pose proof (map_result_length _ _ _ ET) as LT. exists rows.
  assert (TI : forall r, In r rows -> In (c_tile r) (map tile_id (tiles_in tiles pass))).
  { intros r R. rewrite ER in R. apply crows_tiles in R. destruct R as [R1 R2]. apply map_result_forall2 in ET. apply (forall2_in_r _ _ _ _ _ _ ET) in R1. destruct R1 as (g & _ & E). eapply tile_over_in; eauto. }
  assert (S : sort_by c_index (List.concat (map (weigh_process (map tile_id (tiles_in tiles pass))) (exchange rows))) = map (fun r => weigh_row (fibers_of rows (c_tile r)) r) rows).
  { apply forall2_map. destruct (SH rows) as [P _]. eapply sort_back; [| |exact P|]; [intros r r' ->; reflexivity|rewrite ER; apply crows_sorted|]. apply forall2_concat.
    assert (HP : forall part, In part (exchange rows) -> Forall2 (fun a b => b = weigh_row (fibers_of rows (c_tile a)) a) part (weigh_process (map tile_id (tiles_in tiles pass)) part)).
    { intros part IN. rewrite (weigh_process_eq _ exchange rows part); auto; [|apply distinct_in; auto]. apply (forall2_of_map _ _ (fun r => weigh_row (fibers_of rows (c_tile r)) r)). }
    clear - HP. induction (exchange rows) as [|part parts IH]; cbn; constructor; [apply HP; cbn; auto|]. apply IH. intros; apply HP; cbn; auto. }
  rewrite S in H. assert (H' : assign update_weight (map (fun tid => 0 <=? tid) tids) (map (fun r => weigh_row (fibers_of rows (c_tile r)) r) (crows pass 0 tids l)) l = Ok out) by (rewrite <- ER; exact H). clear H. rename H' into H. apply assign_weights in H; auto. rewrite (tids_nth _ _ _ _ ET) in *. unfold tile_in. split; auto. rewrite H. clear. induction l; cbn; f_equal; auto.
Qed.
Lemma count_fibers : forall find tiles pass l i f tid, count f (fibers_of (crows pass i (map (fun g => tile_in find tiles pass (g_target g)) l) l) tid) =
  how_many (fun g => (0 <=? tile_in find tiles pass (g_target g)) && (tile_in find tiles pass (g_target g) =? tid) && g_unused g && negb (fiber_in (g_target g) pass =? -1) && (f =? fiber_in (g_target g) pass)) l.
Proof.
  intros find tiles pass l. unfold count, how_many, fibers_of. induction l as [|g l IH]; intros i f tid; cbn [map crows filter]; auto. destruct (0 <=? tile_in find tiles pass (g_target g)); cbn [filter crow_of c_tile andb]; [|apply IH].
  destruct (tile_in find tiles pass (g_target g) =? tid); cbn [filter andb]; [|apply IH]. unfold wanted at 1. cbn [crow_of c_unused c_fiber]. destruct (g_unused g && negb (fiber_in (g_target g) pass =? -1)); cbn [map filter andb c_fiber crow_of]; [|apply IH].
  destruct (f =? fiber_in (g_target g) pass); cbn [List.length]; rewrite ?Nat2Z.inj_succ, IH; auto.
Qed.
Lemma count_zero : forall f l, existsb (Z.eqb f) l = false -> count f l = 0.
Proof. intros f l H. unfold count. induction l as [|x l IH]; auto. cbn in H |- *. destruct (f =? x); [discriminate|auto]. Qed.
Lemma how_many_map : forall A B (g : A -> B) f l, how_many f (map g l) = how_many (fun a => f (g a)) l.
Proof. intros. unfold how_many. induction l as [|a l IH]; auto. cbn. destruct (f (g a)); cbn [List.length]; rewrite ?Nat2Z.inj_succ, IH; auto. Qed.
Lemma how_many_ext : forall A (f g : A -> bool) l, (forall a, In a l -> f a = g a) -> how_many f l = how_many g l.
Proof. intros A f g l H. unfold how_many. rewrite (filter_ext_in f g l); auto. Qed.
Lemma Zsum_app : forall l m, Zsum (l ++ m) = Zsum l + Zsum m.
Proof. unfold Zsum. induction l as [|a l IH]; intros m; cbn [app fold_right]; [|rewrite IH]; lia. Qed.
Section Weights.
  Variables (find : list tile -> R * R -> list nat) (tiles : list tile) (targets : list target).
  Definition at_pass (k : nat) (t : target) : weighted :=
    Weighted t (expected_weight find tiles targets k t) (waits t && forallb (fun p => negb (wants find tiles p t)) (seq 0 k)).
  Lemma at_start : map start_weight targets = map (at_pass 0) targets.
  Proof. apply map_ext. intros t. unfold at_pass, start_weight, expected_weight, waits, excess. cbn. rewrite andb_true_r. auto. Qed.
  Lemma at_step : forall k t, reweigh k (crows k 0 (map (fun g => tile_in find tiles k (g_target g)) (map (at_pass k) targets)) (map (at_pass k) targets)) (tile_in find tiles k t) (at_pass k t) = at_pass (S k) t.
  Proof.
    intros k t. unfold reweigh. assert (ES : forall f : nat -> Z, Zsum (map f (seq 0 (S k))) = Zsum (map f (seq 0 k)) + f k) by (intros f; rewrite seq_S, map_app, Zsum_app; unfold Zsum; cbn [map fold_right Nat.add]; lia).
    assert (EF : forall u, forallb (fun p => negb (wants find tiles p u)) (seq 0 (S k)) = forallb (fun p => negb (wants find tiles p u)) (seq 0 k) && negb (wants find tiles k u)) by (intros u; rewrite seq_S, forallb_app; cbn; rewrite andb_true_r; auto).
    destruct (0 <=? tile_in find tiles k t) eqn:E.
    - cbv zeta. set (rows := crows _ _ _ _). unfold weigh_row. cbn [crow_of c_weight c_obs c_fiber c_unused c_tile c_index wanted at_pass g_weight g_unused g_target]. change (at_pass (S k) t) with (Weighted t (expected_weight find tiles targets (S k) t) (waits t && forallb (fun p => negb (wants find tiles p t)) (seq 0 (S k)))). f_equal.
      + assert (C : count (fiber_in t k) (fibers_of rows (tile_in find tiles k t)) = how_many (wanted_by find tiles k t) targets).
        { unfold rows. rewrite count_fibers, how_many_map. apply how_many_ext. intros u _. unfold wanted_by, first_wants, at_pass. cbn [g_target g_unused]. rewrite (Z.eqb_sym (fiber_in t k)). unfold wants at 2. destruct (0 <=? tile_in find tiles k u), (tile_in find tiles k u =? tile_in find tiles k t), (waits u), (forallb _ _), (fiber_in u k =? -1), (fiber_in u k =? fiber_in t k); auto. }
        assert (X : (if observed t k && existsb (Z.eqb (fiber_in t k)) (fibers_of rows (tile_in find tiles k t)) then option_map (fun w => w + count (fiber_in t k) (fibers_of rows (tile_in find tiles k t))) (expected_weight find tiles targets k t) else expected_weight find tiles targets k t) =
          option_map (fun w => w + if observed t k then how_many (wanted_by find tiles k t) targets else 0) (expected_weight find tiles targets k t)).
        { destruct (observed t k); cbn [andb]; [|destruct (expected_weight _ _ _ _ _); cbn; f_equal; lia]. rewrite C. destruct (existsb _ _) eqn:EX; auto. apply count_zero in EX. rewrite <- C, EX. destruct (expected_weight _ _ _ _ _); cbn; f_equal; lia. }
        rewrite X. unfold expected_weight. destruct (t_numobs t =? 0); auto. cbn [option_map]. f_equal. unfold excess. rewrite ES, E, andb_true_r. lia.
      + unfold wanted. cbn [c_unused c_fiber crow_of at_pass g_unused g_target]. rewrite EF. assert (W : wants find tiles k t = negb (fiber_in t k =? -1)) by (unfold wants; rewrite E; auto). rewrite W. destruct (waits t), (forallb _ _), (fiber_in t k =? -1); auto.
    - unfold at_pass. f_equal.
      + unfold expected_weight. destruct (t_numobs t =? 0); auto. do 2 f_equal. unfold excess. rewrite ES, E, andb_false_r. lia.
      + rewrite EF. unfold wants at 3. rewrite E. cbn. rewrite andb_true_r. auto.
  Qed.
End Weights.
(** C50: the weight is one, plus the number of targets that wanted the fibre and were never observed, each being counted in the first pass it has a fibre in. It does not
    depend on the processes. *)
Theorem C50_weight : forall find exchange tiles n targets out, (forall k, shares c_tile (exchange k)) -> distinct_tiles tiles -> compute_completeness_weight find exchange tiles n targets = Ok out ->
  map g_target out = targets /\ map g_weight out = map (expected_weight find tiles targets n) targets.
Proof.
  intros find exchange tiles n targets out SH DT H. assert (E : out = map (at_pass find tiles targets n) targets); [|subst out; rewrite !map_map; split; [apply map_id|auto] ].
  unfold compute_completeness_weight in H. rewrite (at_start find tiles targets) in H. assert (G : forall m k, (k + m = n)%nat -> weigh_passes find exchange tiles (seq k m) (map (at_pass find tiles targets k) targets) = Ok out -> out = map (at_pass find tiles targets n) targets).
  { induction m as [|m IH]; intros k K W; cbn in W; [apply ok_inj_p in W; replace n with k by lia; auto|]. destruct (weigh_pass find (exchange k) tiles k (map (at_pass find tiles targets k) targets)) as [l'|] eqn:EW; [|discriminate]. cbn [bind] in W. destruct (weigh_pass_eq _ _ _ _ _ _ DT (SH k) EW) as (rows & -> & EL). apply (IH (S k)); [lia|]. rewrite <- W. f_equal. rewrite EL, map_map. apply map_ext. intros t. symmetry. apply at_step. }
  apply (G n 0%nat); auto.
Qed.
Print Assumptions C50_weight.
Lemma how_many_pos : forall A (f : A -> bool) l, 0 <= how_many f l.
Proof. intros. unfold how_many. lia. Qed.
Lemma Zsum_pos : forall l, Forall (fun x => 0 <= x) l -> 0 <= Zsum l.
Proof. unfold Zsum. induction 1; cbn [fold_right]; lia. Qed.
(** C50: the weight of a target is nan exactly when it was never observed, otherwise it is at least one. *)
Theorem C50_defined : forall find exchange tiles n targets out, (forall k, shares c_tile (exchange k)) -> distinct_tiles tiles -> compute_completeness_weight find exchange tiles n targets = Ok out ->
  Forall2 (fun t g => g_target g = t /\ (g_weight g = None <-> t_numobs t = 0) /\ (forall w, g_weight g = Some w -> 1 <= w)) targets out.
Proof.
  intros find exchange tiles n targets out SH DT H. destruct (C50_weight _ _ _ _ _ _ SH DT H) as [E1 E2].
  assert (P : forall t, (expected_weight find tiles targets n t = None <-> t_numobs t = 0) /\ forall w, expected_weight find tiles targets n t = Some w -> 1 <= w).
  { intros t. unfold expected_weight. destruct (t_numobs t =? 0) eqn:EN.
    - apply Z.eqb_eq in EN. split; [tauto|discriminate].
    - apply Z.eqb_neq in EN. split; [split; [discriminate|contradiction] |]. intros w X. assert (XW : w = 1 + excess find tiles targets n t) by congruence. assert (0 <= excess find tiles targets n t); [|lia]. unfold excess. apply Zsum_pos. apply Forall_map, Forall_forall. intros q _. destruct (_ && _); [apply how_many_pos|lia]. }
  revert E2 P. generalize (expected_weight find tiles targets n) as ew. clear - E1. revert out E1. induction targets as [|t l IH]; intros [|g out] E1 ew E2 P; try discriminate; [constructor|]. constructor; [|apply (IH out ltac:(cbn in E1; congruence) ew); [cbn in E2; congruence|auto] ].
  cbn in E1, E2. injection E1 as <- _. injection E2 as E2 _. split; auto. rewrite E2. apply P.
Qed.
Print Assumptions C50_defined.

Lemma Zsum_zero : forall A (f : A -> Z) l, (forall a, In a l -> f a = 0) -> Zsum (map f l) = 0.
Proof. unfold Zsum. induction l as [|a l IH]; intros H; cbn [map fold_right]; auto. rewrite H by (cbn; auto). rewrite IH; auto. intros; apply H; cbn; auto. Qed.
Lemma Zsum_ext : forall A (f g : A -> Z) l, (forall a, In a l -> f a = g a) -> Zsum (map f l) = Zsum (map g l).
Proof. intros A f g l H. f_equal. apply map_ext_in. auto. Qed.
Lemma Zsum_add : forall A (f g : A -> Z) l, Zsum (map (fun a => f a + g a) l) = Zsum (map f l) + Zsum (map g l).
Proof. unfold Zsum. induction l as [|a l IH]; cbn [map fold_right]; lia. Qed.
Lemma Zsum_swap : forall A B (f : A -> B -> Z) l m, Zsum (map (fun a => Zsum (map (f a) m)) l) = Zsum (map (fun b => Zsum (map (fun a => f a b) l)) m).
Proof.
  intros A B f l m. induction l as [|a l IH]; [symmetry; apply Zsum_zero; auto|]. change (Zsum (map (fun a => Zsum (map (f a) m)) (a :: l))) with (Zsum (map (f a) m) + Zsum (map (fun a => Zsum (map (f a) m)) l)). rewrite IH, <- Zsum_add. apply Zsum_ext. auto.
Qed.
Lemma Zsum_one : forall A (f : A -> Z) l i a, nth_error l i = Some a -> f a = 1 -> (forall j b, j <> i -> nth_error l j = Some b -> f b = 0) -> Zsum (map f l) = 1.
Proof.
  intros A f. unfold Zsum. induction l as [|x l IH]; intros [|i] a H F N; cbn in H; try discriminate; cbn [map fold_right].
  - injection H as ->. rewrite F. assert (Z0 : Zsum (map f l) = 0). { apply Zsum_zero. intros b B. apply In_nth_error in B. destruct B as (j & B). apply (N (S j)); auto. } unfold Zsum in Z0. rewrite Z0. auto.
  - rewrite (N 0%nat x) by auto. rewrite (IH i a); auto. intros j b J B. apply (N (S j)); auto.
Qed.
Lemma how_many_sum : forall A (f : A -> bool) l, how_many f l = Zsum (map (fun a => Z.b2z (f a)) l).
Proof. intros A f l. unfold how_many, Zsum. induction l as [|a l IH]; auto. cbn [filter map fold_right]. destruct (f a); cbn [List.length Z.b2z]; rewrite ?Nat2Z.inj_succ, <- IH; lia. Qed.
Lemma tile_in_spec : forall find tiles q t tid, 0 <= tid -> (tile_in find tiles q t = tid <-> in_tile find tiles q t tid).
Proof.
  intros find tiles q t tid P. unfold tile_in, in_tile. destruct (tile_over find (tiles_in tiles q) (t_pos t)) as [x|e]; split.
  - intros ->. auto.
  - intros [_ E]. apply ok_inj_p in E. auto.
  - intros E. lia.
  - intros [_ E]. discriminate.
Qed.
Lemma first_of : forall (f : nat -> bool) n, (exists q, (q < n)%nat /\ f q = true) -> exists q, (q < n)%nat /\ f q = true /\ forallb (fun p => negb (f p)) (seq 0 q) = true.
Proof.
  intros f n. induction n as [|n IH]; intros (q & Q & F); [lia|]. destruct (forallb (fun p => negb (f p)) (seq 0 n)) eqn:E.
  - rewrite forallb_forall in E. destruct (Nat.eq_dec q n) as [->|NE]; [exists n; split; [lia|]; split; auto; apply forallb_forall; auto|]. specialize (E q). rewrite F in E. assert (In q (seq 0 n)) by (apply in_seq; lia). specialize (E H). discriminate.
  - assert (X : exists q, (q < n)%nat /\ f q = true). { clear - E. assert (G : forall l, forallb (fun p => negb (f p)) l = false -> exists x, In x l /\ f x = true). { induction l as [|a l IH]; cbn; intros H; [discriminate|]. destruct (f a) eqn:FA; [exists a; auto|]. cbn in H. destruct (IH H) as (x & X1 & X2). exists x. auto. } destruct (G _ E) as (x & X1 & X2). exists x. apply in_seq in X1. split; auto. lia. }
    destruct (IH X) as (p & P1 & P2). exists p. split; [lia|auto].
Qed.
Lemma count_nth : forall l q, nth q l false = true -> 1 <= count_true l.
Proof. unfold count_true. induction l as [|b l IH]; intros [|q] H; cbn in H; try discriminate; [subst b; cbn [filter List.length]; lia|]. cbn [filter]. specialize (IH q H). destruct b; cbn [List.length]; lia. Qed.
(** C50: after fibre assignment, weights add up to one for each target observed, plus one for each target available and never observed: each of these is counted once. *)
Theorem C50_total : forall w find exchange exchange' tiles n targets l out, (forall k, sound (w k)) -> (forall k, shares p_tile (exchange k)) -> (forall k, shares c_tile (exchange' k)) -> distinct_tiles tiles -> NoDup (map t_id targets) ->
  apply_fiber_assignment w find exchange tiles n targets = Ok l -> compute_completeness_weight find exchange' tiles n l = Ok out ->
  total_excess (map g_weight out) = how_many waits l.
Proof.
  intros w find exchange exchange' tiles n targets l out SW SH SH' DT ND HA HC. destruct (C50_weight _ _ _ _ _ _ SH' DT HC) as [_ ->]. destruct (history_holds _ _ _ _ _ _ _ SW SH DT ND HA) as (F & HX & AV).
  assert (NO : forall t q, In t l -> observed t q = true -> (t_numobs t =? 0) = false /\ fiber_in t q <> -1 /\ (q < n)%nat).
  { intros t q T O. destruct (forall2_in_r _ _ _ _ _ _ F T) as (t0 & _ & (C1 & C2 & C3 & C4 & C5 & C6 & C7 & C8)). split; [apply Z.eqb_neq; rewrite C5; pose proof (count_nth _ _ O) as X; unfold count_true in X; unfold times_observed; lia|]. split; [specialize (C8 q O); lia|]. destruct (Nat.lt_ge_cases q n) as [|G]; auto. destruct (C7 q G). congruence. }
  set (g := fun t q u => Z.b2z (observed t q && (0 <=? tile_in find tiles q t) && wanted_by find tiles q t u)).
  assert (E1 : total_excess (map (expected_weight find tiles l n) l) = Zsum (map (fun t => Zsum (map (fun q => Zsum (map (g t q) l)) (seq 0 n))) l)).
  { unfold total_excess. rewrite map_map. apply Zsum_ext. intros t T. unfold expected_weight. destruct (t_numobs t =? 0) eqn:EN.
    - symmetry. apply Zsum_zero. intros q _. apply Zsum_zero. intros u _. unfold g. destruct (observed t q) eqn:O; auto. destruct (NO t q T O). congruence.
    - replace (1 + excess find tiles l n t - 1) with (excess find tiles l n t) by lia. unfold excess. apply Zsum_ext. intros q _. unfold g. destruct (observed t q && (0 <=? tile_in find tiles q t)); cbn [andb]; [apply how_many_sum|symmetry; apply Zsum_zero; auto]. }
  rewrite E1. rewrite (Zsum_ext _ _ (fun t => Zsum (map (fun u => Zsum (map (fun q => g t q u) (seq 0 n))) l))) by (intros t _; apply (Zsum_swap _ _ (g t))). rewrite (Zsum_swap _ _ (fun t u => Zsum (map (fun q => g t q u) (seq 0 n)))). rewrite how_many_sum. apply Zsum_ext. intros u U.
  rewrite (Zsum_swap _ _ (fun t q => g t q u)). destruct (waits u) eqn:W; cbn [Z.b2z].
  - assert (A : t_available u = true) by (unfold waits in W; apply andb_true_iff in W; tauto). destruct (AV u U A) as (q1 & Q1 & FN1).
    assert (WT : exists q, (q < n)%nat /\ wants find tiles q u = true). { exists q1. split; auto. destruct (HX q1 Q1) as [_ SV]. destruct (SV u U FN1) as (tid & good & t' & I & _). unfold wants. destruct I as [P I]. apply andb_true_iff. split; [|apply negb_true_iff, Z.eqb_neq; auto]. apply Z.leb_le. unfold tile_in. rewrite I. auto. }
    destruct (first_of (fun q => wants find tiles q u) n WT) as (q & Q & WQ & FQ). destruct (HX q Q) as [EXC SV].
    assert (FN : fiber_in u q <> -1) by (unfold wants in WQ; apply andb_true_iff in WQ; destruct WQ as [_ WQ]; apply negb_true_iff, Z.eqb_neq in WQ; auto).
    destruct (SV u U FN) as (tid & good & t' & I & _ & _ & T' & I' & O' & F').
    assert (TU : tile_in find tiles q u = tid) by (apply tile_in_spec; auto; apply I). assert (TT : tile_in find tiles q t' = tid) by (apply tile_in_spec; auto; apply I'). destruct I as [P I]. destruct I' as [_ I'].
    apply (Zsum_one _ _ _ q q); [rewrite nth_error_nth' with (d := 0%nat) by (rewrite seq_length; auto); rewrite seq_nth by auto; auto| |].
    + apply In_nth_error in T'. destruct T' as (i & T'). apply (Zsum_one _ _ _ i t'); auto.
      * unfold g, wanted_by, first_wants. rewrite O', TT, TU, W, WQ, FQ, F', !Z.eqb_refl. replace (0 <=? tid) with true by (symmetry; apply Z.leb_le; auto). auto.
      * intros j t J T. unfold g. destruct (observed t q) eqn:O; auto. destruct (0 <=? tile_in find tiles q t) eqn:PT; auto. cbn [andb]. unfold wanted_by. rewrite TU. destruct (tid =? tile_in find tiles q t) eqn:ET; [|rewrite andb_false_r; auto]. destruct (fiber_in u q =? fiber_in t q) eqn:EF; [|rewrite !andb_false_r; auto]. exfalso. apply Z.eqb_eq in ET, EF.
        apply (EXC j i t t' tid J T T'); auto; [apply tile_in_spec; auto|split; auto|congruence].
    + intros j b J B. assert (b = j). { assert (JL : (j < List.length (seq 0 n))%nat) by (apply nth_error_Some; congruence). rewrite (nth_error_nth' _ 0%nat JL) in B. rewrite seq_length in JL. rewrite seq_nth in B by auto. injection B as <-. auto. } subst b. apply Zsum_zero. intros t _. unfold g, wanted_by. replace (first_wants find tiles j u) with false; [rewrite !andb_false_r; auto|].
      symmetry. unfold first_wants. destruct (wants find tiles j u) eqn:WJ; auto. cbn [andb]. destruct (Nat.lt_ge_cases q j) as [L|G].
      * apply not_true_is_false. intros X. rewrite forallb_forall in X. specialize (X q ltac:(apply in_seq; lia)). rewrite WQ in X. discriminate.
      * exfalso. rewrite forallb_forall in FQ. specialize (FQ j ltac:(apply in_seq; lia)). rewrite WJ in FQ. discriminate.
  - apply Zsum_zero. intros q _. apply Zsum_zero. intros t _. unfold g, wanted_by. rewrite W. cbn [andb]. rewrite andb_false_r. auto.
Qed.
Print Assumptions C50_total.
Lemma map_result_total : forall A B (f : A -> result B) l, (forall a, In a l -> exists b, f a = Ok b) -> exists m, map_result f l = Ok m.
Proof. induction l as [|a l IH]; intros H; cbn; eauto. destruct (H a) as (b & ->); [cbn; auto|]. cbn [bind]. destruct IH as (m & ->); [intros; apply H; cbn; auto|]. cbn [bind]. eauto. Qed.
Lemma weight_rows_total : forall pass tids l i, (forall g, In g l -> (pass < List.length (t_obs (g_target g)))%nat /\ (pass < List.length (t_fiber (g_target g)))%nat) -> exists rows, weight_rows pass i tids l = Ok rows.
Proof.
  induction tids as [|tid tids IH]; intros [|g l] i H; cbn; eauto. destruct (0 <=? tid); [|apply IH; intros; apply H; cbn; auto]. destruct (H g) as [H1 H2]; [cbn; auto|].
  destruct (nth_error (t_obs (g_target g)) pass) as [o|] eqn:EO; [|apply nth_error_None in EO; lia]. destruct (nth_error (t_fiber (g_target g)) pass) as [f|] eqn:EF; [|apply nth_error_None in EF; lia]. destruct (IH l (S i)) as (rows & ->); [intros; apply H; cbn; auto|]. cbn [bind]. eauto.
Qed.
Lemma assign_weights_total : forall tids l back pass i, List.length tids = List.length l -> List.length back = List.length (crows pass i tids l) -> exists out, assign update_weight (map (fun tid => 0 <=? tid) tids) back l = Ok out.
Proof.
  induction tids as [|tid tids IH]; intros [|g l] back pass i L LB; try discriminate; [cbn; eauto|]. cbn in L. cbn [map assign]. cbn [crows] in LB. destruct (0 <=? tid).
  - destruct back as [|r back]; [discriminate|]. cbn [bind update_weight]. cbn in LB. destruct (IH l back pass (S i)) as (out & ->); try lia. cbn [bind]. eauto.
  - destruct (IH l back pass i) as (out & ->); try lia. cbn [bind]. eauto.
Qed.
Lemma weigh_pass_total : forall find exchange tiles pass l, distinct_tiles tiles -> shares c_tile exchange -> (forall g, In g l -> exists tid, tile_over find (tiles_in tiles pass) (t_pos (g_target g)) = Ok tid) ->
  (forall g, In g l -> (pass < List.length (t_obs (g_target g)))%nat /\ (pass < List.length (t_fiber (g_target g)))%nat) -> exists out, weigh_pass find exchange tiles pass l = Ok out.
Proof.
  intros find exchange tiles pass l DT SH HT HL. unfold weigh_pass. cbv zeta. destruct (map_result_total _ _ (fun g => tile_over find (tiles_in tiles pass) (t_pos (g_target g))) l HT) as (tids & ET). rewrite ET. cbn [bind]. destruct (weight_rows_total pass tids l 0 HL) as (rows & ER). rewrite ER. cbn [bind]. apply weight_rows_eq in ER. pose proof (map_result_length _ _ _ ET) as LT.
  assert (TI : forall r, In r rows -> In (c_tile r) (map tile_id (tiles_in tiles pass))).
  { intros r R. rewrite ER in R. apply crows_tiles in R. destruct R as [R1 R2]. apply map_result_forall2 in ET. apply (forall2_in_r _ _ _ _ _ _ ET) in R1. destruct R1 as (g & _ & E). eapply tile_over_in; eauto. }
  assert (S : sort_by c_index (List.concat (map (weigh_process (map tile_id (tiles_in tiles pass))) (exchange rows))) = map (fun r => weigh_row (fibers_of rows (c_tile r)) r) rows).
  { apply forall2_map. destruct (SH rows) as [P _]. eapply sort_back; [| |exact P|]; [intros r r' ->; reflexivity|rewrite ER; apply crows_sorted|]. apply forall2_concat.
    assert (HP : forall part, In part (exchange rows) -> Forall2 (fun a b => b = weigh_row (fibers_of rows (c_tile a)) a) part (weigh_process (map tile_id (tiles_in tiles pass)) part)).
    { intros part IN. rewrite (weigh_process_eq _ exchange rows part); auto; [|apply distinct_in; auto]. apply (forall2_of_map _ _ (fun r => weigh_row (fibers_of rows (c_tile r)) r)). }
    clear - HP. induction (exchange rows) as [|part parts IH]; cbn; constructor; [apply HP; cbn; auto|]. apply IH. intros; apply HP; cbn; auto. }
  rewrite S. replace (list_eqb _ _ _) with true; [|symmetry; apply list_eqb_eq; rewrite map_map; apply map_ext; auto]. cbn [negb]. eapply (assign_weights_total tids l _ pass 0); auto. rewrite map_length, ER. auto.
Qed.
(** C50: the weights are computed for any output of fibre assignment. *)
Theorem C50_computed : forall w find exchange exchange' tiles n targets l, (forall k, shares p_tile (exchange k)) -> (forall k, shares c_tile (exchange' k)) -> distinct_tiles tiles ->
  apply_fiber_assignment w find exchange tiles n targets = Ok l -> exists out, compute_completeness_weight find exchange' tiles n l = Ok out.
Proof.
  intros w find exchange exchange' tiles n targets l SH SH' DT HA. pose proof (C47_budget _ _ _ _ _ _ _ SH HA) as B.
  assert (HT : forall k, (k < n)%nat -> forall t, In t l -> exists tid, tile_over find (tiles_in tiles k) (t_pos t) = Ok tid).
  { refine (passes_ind (fun k l => forall q, (q < k)%nat -> forall t, In t l -> exists tid, tile_over find (tiles_in tiles q) (t_pos t) = Ok tid) w find exchange tiles n targets l _ _ HA); [intros; lia|].
    intros k m m' K IH R q Q t T. pose proof (run_pass_budget _ _ _ _ _ _ _ (SH k) R) as RB. destruct (forall2_in_r _ _ _ _ _ _ RB T) as (s & S1 & [_ P] & _). rewrite P. destruct (Nat.eq_dec q k) as [->|NE]; [|apply IH; auto; lia]. destruct (run_pass_inv _ _ _ _ _ _ _ R) as (tids & _ & _ & ET & _). apply map_result_forall2 in ET. destruct (forall2_in _ _ _ _ _ _ ET S1) as (tid & _ & E). eauto. }
  assert (HL : forall t, In t l -> List.length (t_obs t) = n /\ List.length (t_fiber t) = n). { intros t T. destruct (forall2_in_r _ _ _ _ _ _ B T) as (s & _ & _ & _ & L1 & L2). auto. }
  unfold compute_completeness_weight. rewrite (at_start find tiles l). assert (G : forall m k, (k + m = n)%nat -> exists out, weigh_passes find exchange' tiles (seq k m) (map (at_pass find tiles l k) l) = Ok out).
  { induction m as [|m IH]; intros k K; cbn [seq weigh_passes]; eauto. destruct (weigh_pass_total find (exchange' k) tiles k (map (at_pass find tiles l k) l) DT (SH' k)) as (l' & EW).
    - intros g Hg. apply in_map_iff in Hg. destruct Hg as (t & <- & T). apply (HT k); auto. lia.
    - intros g Hg. apply in_map_iff in Hg. destruct Hg as (t & <- & T). cbn. destruct (HL t T). lia.
    - rewrite EW. cbn [bind]. destruct (weigh_pass_eq _ _ _ _ _ _ DT (SH' k) EW) as (rows & -> & EL). destruct (IH (S k)) as (out & EO); [lia|]. exists out. rewrite <- EO. f_equal. rewrite EL, map_map. apply map_ext. intros t. apply at_step. }
  apply (G n 0%nat). auto.
Qed.
Print Assumptions C50_computed.
(** The targets of [C47_case]: target 2 waits, and wanted the fibre given to target 1 in the first pass. *)
Definition one_cprocess (rows : list crow) : list (list crow) := [rows].
Example C50_case : (forall k : nat, shares c_tile one_cprocess) /\ exists out, compute_completeness_weight ex_find (fun _ => one_cprocess) ex_tiles 2 ex_out = Ok out /\ map g_weight out = [None; Some 2; None] /\ how_many waits ex_out = 1.
Proof.
  split.
  - intros _ rows. unfold one_cprocess. cbn. rewrite app_nil_r. split; auto. intros i j r s H1 H2 _. destruct i as [|[|i] ], j as [|[|j] ]; cbn in *; try contradiction; auto.
  - eexists. split; [reflexivity|]. split; reflexivity.
Qed.
(** C50 is false when tiles of a pass overlap: tile 20 observes target 1, that is in tile 10, with a fibre target 2, in tile 20, wanted. Target 2 is not counted. *)
Definition lost_assign (t : Z) (rows : list prow) : assignment := if t =? 20 then Assignment [(7, 1)] [(7, [1; 2])] else Assignment [] [].
Definition lost_world : world := World lost_assign (fun _ x => Ok x) (fun _ => true) (fun _ => Ok ex_good).
Theorem C50_overlap_refuted : exists w find exchange exchange' tiles n targets l out, (forall k : nat, shares p_tile (exchange k)) /\ (forall k : nat, shares c_tile (exchange' k)) /\ distinct_tiles tiles /\ NoDup (map t_id targets) /\
  apply_fiber_assignment w find exchange tiles n targets = Ok l /\ compute_completeness_weight find exchange' tiles n l = Ok out /\ how_many waits l = 1 /\ total_excess (map g_weight out) = 0.
Proof.
  exists (fun _ => lost_world), lap_find, (fun _ => one_process), (fun _ => one_cprocess), lap_tiles, 1%nat, lap_targets, [Target 1 (0%R, 0%R) 0 1 true [7] [true]; Target 2 (2%R, 0%R) 1 0 true [7] [false] ],
    [Weighted (Target 1 (0%R, 0%R) 0 1 true [7] [true]) (Some 1) false; Weighted (Target 2 (2%R, 0%R) 1 0 true [7] [false]) None false].
  split; [intros; apply one_process_shares|]. split; [apply (proj1 C50_case)|]. split; [unfold distinct_tiles; cbn; repeat constructor; cbn; lia|]. split; [cbn; repeat constructor; cbn; lia|].
  split; [|split; [|split; reflexivity] ]; unfold apply_fiber_assignment, compute_completeness_weight, lap_targets, lap_find; cbn [seq run_passes weigh_passes map start start_weight t_id t_pos t_more t_numobs repeat]; unfold run_pass, weigh_pass, tile_over; cbn; destruct lap_near as (H1 & E1); destruct lap_far as [E2|(H2 & E2)]; rewrite E1, E2; reflexivity.
Qed.
Print Assumptions C50_overlap_refuted.
