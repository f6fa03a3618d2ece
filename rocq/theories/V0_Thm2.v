(** Property C76: the two versions of fibre assignment agree. *)
Require Import Reals ZArith String List Bool Lia Lra Permutation.
From Verif Require Import Base Box_Model Blind_Model FA_Model Blind_Thm2 FA_Spec FA_Proof FA_Thm V0_Model V0_Spec.
Import ListNotations.
Open Scope Z_scope.

Lemma zassoc_app : forall A k (l m : list (Z * A)), zassoc k (l ++ m) = match zassoc k l with Some a => Some a | None => zassoc k m end.
Proof. intros A k. induction l as [|[n a] l IH]; intros m; cbn; auto. destruct (n =? k); auto. Qed.
Lemma zassoc_concat : forall A B (f : B -> list (Z * A)) k (l : list B) b, NoDup l -> In b l -> (forall c, In c l -> c <> b -> ~ In k (map fst (f c))) -> zassoc k (List.concat (map f l)) = zassoc k (f b).
Proof.
  intros A B f k. induction l as [|c l IH]; intros b ND I H; [contradiction|]. inversion ND; subst. cbn. rewrite zassoc_app. destruct I as [->|I].
  - destruct (zassoc k (f b)) eqn:E; auto. apply zassoc_none. intros C. apply in_map_iff in C. destruct C as ([k' a] & <- & C). apply in_concat in C. destruct C as (m & M & C). apply in_map_iff in M. destruct M as (d & <- & D).
    apply (H d); [right; auto|intros ->; contradiction|]. apply in_map_iff. exists (k', a). auto.
  - assert (N : zassoc k (f c) = None) by (apply zassoc_none, H; [left; auto|intros ->; contradiction]). rewrite N. apply IH; auto. intros d D. apply H. right. auto.
Qed.
Lemma zassoc_concat_none : forall A B (f : B -> list (Z * A)) k (l : list B), (forall c, In c l -> ~ In k (map fst (f c))) -> zassoc k (List.concat (map f l)) = None.
Proof. intros A B f k. induction l as [|c l IH]; intros H; auto. cbn. rewrite zassoc_app, (proj2 (zassoc_none _ _ _)), IH; auto; [intros; apply H; right|apply H; left]; auto. Qed.
Lemma all_work_info : forall w t rows, all_work w -> tile_info w t rows = extract_info (w_fiber w t) (w_science w) (w_assign w t rows).
Proof.
  intros w t rows AW. unfold tile_info. destruct (extract_info _ _ _) as [[assigned avail]|] eqn:E; auto. cbn [bind]. destruct (AW t) as (good & -> & G). cbn [bind fst snd]. destruct (extract_facts _ _ _ _ _ E) as (F1 & F2 & _). f_equal. unfold kept.
  f_equal; apply filter_idem.
  - intros [i f] I. apply F1 in I. destruct I as (x & _ & _ & I). cbn. eauto.
  - intros [i f] I. apply F2 in I. destruct I as (x & l & _ & _ & _ & I & _). cbn. eauto.
Qed.
Lemma map_result_ex : forall A B (f : A -> result B) l, (exists bs, map_result f l = Ok bs) <-> (forall a, In a l -> exists b, f a = Ok b).
Proof.
  intros A B f. induction l as [|a l IH]; cbn; [split; eauto; intros _ a []|]. split.
  - intros [bs H]. destruct (f a) as [b|] eqn:E; [|discriminate]. cbn [bind] in H. destruct (map_result f l) as [cs|]; [|discriminate]. intros c [<-|C]; eauto. apply IH; eauto.
  - intros H. destruct (H a) as [b ->]; auto. cbn [bind]. destruct (proj2 IH) as [bs ->]; eauto. cbn [bind]. eauto.
Qed.
Lemma one_pass_v0 : forall w, own_targets w -> local w -> all_work w -> forall ts rows, NoDup ts -> NoDup (map p_id rows) -> (forall t, In t ts -> In t (map p_tile rows)) ->
  forall out, (do info <- extract_all w ts rows; Ok (apply_mtl_one_pass (fst info) (snd info) rows)) = Ok out <-> one_pass w ts rows = Ok out.
Proof.
  intros w OT LO AW ts rows NT ND Sub out. destruct (one_pass_canon w OT LO ts rows NT ND) as [O1 O2].
  assert (K : (forall t, In t ts -> exists info, tile_info w t rows = Ok info) -> (do info <- extract_all w ts rows; Ok (apply_mtl_one_pass (fst info) (snd info) rows)) = Ok (map (fun r => if existsb (Z.eqb (p_tile r)) ts then canon w rows r else r) rows)).
  { intros H. set (g := fun t => match tile_info w t rows with Ok i => i | Err _ => ([], []) end).
    assert (E : map_result (fun t => extract_info (w_fiber w t) (w_science w) (w_assign w t rows)) ts = Ok (map g ts)).
    { clear -H AW. induction ts as [|t ts IH]; auto. cbn [map_result map]. rewrite <- all_work_info by auto. destruct (H t) as [i Ei]; [left; auto|]. rewrite Ei. cbn [bind]. rewrite IH by (intros; apply H; right; auto). cbn [bind]. unfold g at 2. rewrite Ei. reflexivity. }
    unfold extract_all. rewrite E. cbn [bind fst snd]. f_equal. unfold apply_mtl_one_pass. apply map_ext_in. intros r R. rewrite !map_map.
    assert (Own : forall t, In t ts -> p_tile r <> t -> ~ In (p_id r) (map fst (fst (g t))) /\ ~ In (p_id r) (map fst (snd (g t)))).
    { intros t T N. destruct (H t T) as [i Ei]. unfold g. rewrite Ei. split; intros C; [destruct (info_own w t rows i (p_id r) OT Ei (or_introl C)) as (s & S1 & S2 & S3)|destruct (info_own w t rows i (p_id r) OT Ei (or_intror C)) as (s & S1 & S2 & S3)]; rewrite (nodup_row rows s r) in S3; auto; congruence. }
    assert (Z : forall (h : list (Z * BinNums.Z) * list (Z * BinNums.Z) -> list (Z * BinNums.Z)), (h = fst \/ h = snd) -> zassoc (p_id r) (List.concat (map (fun x => h (g x)) ts)) = if existsb (Z.eqb (p_tile r)) ts then zassoc (p_id r) (h (g (p_tile r))) else None).
    { intros h Hh. destruct (existsb (Z.eqb (p_tile r)) ts) eqn:X.
      - apply existsb_in in X. apply (zassoc_concat _ _ (fun x => h (g x)) (p_id r) ts (p_tile r)); auto. intros c C N. destruct (Own c C (not_eq_sym N)). destruct Hh as [-> | ->]; auto.
      - apply existsb_notin in X. apply zassoc_concat_none. intros c C. destruct (Own c C) as [A B]; [intros E'; apply X; rewrite E'; auto|]. destruct Hh as [-> | ->]; auto. }
    pose proof (Z fst (or_introl eq_refl)) as Z1. pose proof (Z snd (or_intror eq_refl)) as Z2. destruct (existsb (Z.eqb (p_tile r)) ts) eqn:X.
    - apply existsb_in in X. destruct (H _ X) as [i Ei]. unfold canon. rewrite Ei. unfold touch. assert (Eg : g (p_tile r) = i) by (unfold g; rewrite Ei; auto). rewrite Eg in Z1, Z2.
      unfold mark_available. rewrite Z2. destruct (zassoc (p_id r) (snd i)) as [f|]; unfold mark_assigned; cbn [p_id]; rewrite Z1; reflexivity.
    - unfold mark_available. rewrite Z2. unfold mark_assigned. rewrite Z1. reflexivity. }
  split.
  - intros H. assert (T : forall t, In t ts -> exists info, tile_info w t rows = Ok info).
    { unfold extract_all in H. destruct (map_result _ ts) as [infos|] eqn:Em; [|discriminate]. intros t It. rewrite all_work_info by auto.
      exact (proj1 (map_result_ex _ _ (fun t => extract_info (w_fiber w t) (w_science w) (w_assign w t rows)) ts) (ex_intro _ infos Em) t It). }
    rewrite (K T) in H. rewrite (O2 T). auto.
  - intros H. pose proof (O1 out H) as T. rewrite (O2 T) in H. rewrite (K T). auto.
Qed.
Lemma map_result_same : forall A B (f g : A -> result B) l, (forall a, In a l -> forall b, f a = Ok b <-> g a = Ok b) -> forall bs, map_result f l = Ok bs <-> map_result g l = Ok bs.
Proof.
  intros A B f g. induction l as [|a l IH]; intros H bs; cbn; [tauto|].
  assert (IHl : forall bs, map_result f l = Ok bs <-> map_result g l = Ok bs) by (apply IH; intros; apply H; right; auto). pose proof (H a (or_introl eq_refl)) as Ha.
  split; intros E.
  - destruct (f a) as [b|]; [|discriminate]. cbn [bind] in E. rewrite (proj1 (Ha b) eq_refl). cbn [bind]. destruct (map_result f l) as [cs|]; [|discriminate]. rewrite (proj1 (IHl cs) eq_refl). auto.
  - destruct (g a) as [b|]; [|discriminate]. cbn [bind] in E. rewrite (proj2 (Ha b) eq_refl). cbn [bind]. destruct (map_result g l) as [cs|]; [|discriminate]. rewrite (proj2 (IHl cs) eq_refl). auto.
Qed.
Lemma run_pass_same : forall w find exchange tiles pass targets out, own_targets w -> local w -> all_work w -> shares p_tile exchange -> distinct_tiles tiles -> NoDup (map t_id targets) ->
  run_pass_v0 w find exchange tiles pass targets = Ok out <-> run_pass w find exchange tiles pass targets = Ok out.
Proof.
  intros w find exchange tiles pass targets out OT LO AW SH DT ND. unfold run_pass_v0, run_pass. cbv zeta. destruct (map_result (fun t => tile_over find (tiles_in tiles pass) (t_pos t)) targets) as [tids|] eqn:ET; [|split; discriminate]. cbn [bind].
  set (rows := pass_rows 0 tids targets).
  assert (S : forall parts, map_result (on_process_v0 w (map tile_id (tiles_in tiles pass))) (exchange rows) = Ok parts <-> map_result (on_process w (map tile_id (tiles_in tiles pass))) (exchange rows) = Ok parts).
  { apply map_result_same. intros part HP o. apply one_pass_v0; auto.
    - apply NoDup_filter, distinct_in, DT.
    - assert (NR : NoDup (map p_id rows)) by (apply pass_rows_ids; auto). destruct (SH rows) as [P _]. apply (Permutation_map p_id) in P. symmetry in P. assert (ND2 : NoDup (map p_id (List.concat (exchange rows)))) by (eapply Permutation_NoDup; eauto).
      destruct (in_split _ _ HP) as (l1 & l2 & E). rewrite E, concat_app, map_app in ND2. cbn in ND2. rewrite map_app in ND2. apply nodup_app in ND2. destruct ND2 as [_ ND2]. apply nodup_app in ND2. tauto.
    - intros t T. apply filter_In in T. destruct T as [_ T]. apply existsb_in in T. auto. }
  split; intros H.
  - destruct (map_result (on_process_v0 w _) _) as [parts|]; [|discriminate]. rewrite (proj1 (S parts) eq_refl). auto.
  - destruct (map_result (on_process w _) _) as [parts|]; [|discriminate]. rewrite (proj2 (S parts) eq_refl). auto.
Qed.
(** One version succeeds when the other does, with the same targets. *)
Theorem C76_agree : forall w find exchange tiles n targets out, (forall k, own_targets (w k)) -> (forall k, local (w k)) -> (forall k, all_work (w k)) -> (forall k, shares p_tile (exchange k)) -> distinct_tiles tiles -> NoDup (map t_id targets) ->
  apply_fiber_assignment_v0 w find exchange tiles n targets = Ok out <-> apply_fiber_assignment w find exchange tiles n targets = Ok out.
Proof.
  intros w find exchange tiles n targets out OT LO AW SH DT ND. unfold apply_fiber_assignment_v0, apply_fiber_assignment.
  assert (ND' : NoDup (map t_id (map (start n) targets))) by (rewrite start_ids; auto). revert ND'. generalize (map (start n) targets). generalize (seq 0 n). induction l as [|p ps IH]; intros l ND'; cbn; [tauto|].
  pose proof (fun o => run_pass_same (w p) find (exchange p) tiles p l o (OT p) (LO p) (AW p) (SH p) DT ND') as S.
  assert (N : forall o, run_pass (w p) find (exchange p) tiles p l = Ok o -> NoDup (map t_id o)).
  { intros o Ho. apply run_pass_budget in Ho; auto. erewrite ids_of_objects; [exact ND'|]. eapply forall2_impl; [|exact Ho]. cbn. tauto. }
  split; intros H.
  - destruct (run_pass_v0 (w p) find (exchange p) tiles p l) as [o|]; [|discriminate]. cbn [bind] in H. pose proof (proj1 (S o) eq_refl) as E. rewrite E. cbn [bind]. apply IH; auto.
  - destruct (run_pass (w p) find (exchange p) tiles p l) as [o|]; [|discriminate]. cbn [bind] in H. pose proof (proj2 (S o) eq_refl) as E. rewrite E. cbn [bind]. apply IH; auto.
Qed.
Print Assumptions C76_agree.
(** Two tiles in a pass: targets 1 and 2 are in tile 10, target 3 in tile 20. *)
Definition v0_world : world := World ex_assign (fun _ x => Ok x) (fun _ => true) (fun _ => Ok (fun _ => true)).
Definition v0_find (tiles : list tile) (pos : R * R) : list nat := if Rlt_dec (fst pos) 1 then [0%nat] else [1%nat].
Definition v0_targets : list target := [Target 2 (0%R, 0%R) 1 0 false [] []; Target 3 (2%R, 0%R) 1 0 false [] []; Target 1 (0%R, 0%R) 2 0 false [] [] ].
Example C76_case : own_targets v0_world /\ local v0_world /\ all_work v0_world /\ distinct_tiles [Tile 10 "DARK"%string 0; Tile 20 "DARK"%string 0] /\ NoDup (map t_id v0_targets) /\
  apply_fiber_assignment_v0 (fun _ => v0_world) v0_find (fun _ => one_process) [Tile 10 "DARK"%string 0; Tile 20 "DARK"%string 0] 1 v0_targets =
  Ok [Target 2 (0%R, 0%R) 1 0 true [7] [false]; Target 3 (2%R, 0%R) 0 1 true [7] [true]; Target 1 (0%R, 0%R) 1 1 true [7] [true] ].
Proof.
  destruct ex_sound as (A & B & _). split; [exact A|]. split; [exact B|]. split; [intros t; exists (fun _ => true); auto|]. split; [unfold distinct_tiles; cbn; repeat constructor; cbn; lia|]. split; [cbn; repeat constructor; cbn; lia|].
  assert (F : forall ts, v0_find ts (0%R, 0%R) = [0%nat] /\ v0_find ts (2%R, 0%R) = [1%nat]).
  { intros ts. unfold v0_find. cbn [fst]. destruct (Rlt_dec 0 1), (Rlt_dec 2 1); try lra; auto. }
  unfold apply_fiber_assignment_v0. cbn [map start seq run_passes_v0 v0_targets]. unfold run_pass_v0. cbn [map_result t_pos]. unfold tile_over. cbn [start t_pos].
  rewrite !(proj1 (F _)), !(proj2 (F _)). reflexivity.
Qed.
