(** Property C68: sky targets given to the assignment. *)
Require Import ZArith String List Bool Lia Sorted.
From Verif Require Import Base Box_Model Blind_Model FA_Model Blind_Thm2 V0_Model V0_Spec.
Import ListNotations.
Open Scope Z_scope.

Lemma insert_once_In : forall x l y, In y (insert_once x l) <-> y = x \/ In y l.
Proof. intros x l y. induction l as [|z l IH]; cbn; [intuition|]. destruct (Z.eqb_spec x z); [subst; cbn; intuition|]. destruct (x <? z); cbn; [intuition|]. rewrite IH. intuition. Qed.
Lemma insert_once_sorted : forall x l, StronglySorted Z.lt l -> StronglySorted Z.lt (insert_once x l).
Proof.
  intros x. induction l as [|z l IH]; intros H; cbn; [constructor; constructor|]. inversion H; subst. destruct (Z.eqb_spec x z); auto. destruct (Z.ltb_spec x z).
  - constructor; auto. constructor; auto. eapply Forall_impl; [|apply H3]. intros; lia.
  - constructor; auto. apply Forall_forall. intros y Hy. apply insert_once_In in Hy. destruct Hy as [->|Hy]; [lia|]. rewrite Forall_forall in H3. auto.
Qed.
Lemma unique_In : forall l y, In y (unique l) <-> In y l.
Proof. induction l; intros y; cbn; [tauto|]. rewrite insert_once_In, IHl. intuition. Qed.
Lemma unique_sorted : forall l, StronglySorted Z.lt (unique l).
Proof. induction l; cbn; [constructor|]. apply insert_once_sorted. auto. Qed.
Lemma target_tiles_In : forall g y, In y (target_tiles g) <-> In y (concat g).
Proof.
  intros g y. unfold target_tiles. rewrite unique_In, !in_concat. split.
  - intros (l & L & Y). apply in_map_iff in L. destruct L as (m & <- & M). rewrite unique_In in Y. eauto.
  - intros (l & L & Y). exists (unique l). split; [apply in_map, L|apply unique_In, Y].
Qed.
Lemma sorted_eq : forall l m, StronglySorted Z.lt l -> StronglySorted Z.lt m -> (forall y, In y l <-> In y m) -> l = m.
Proof.
  induction l as [|a l IH]; intros [|b m] Sl Sm E; auto; [destruct (proj2 (E b)); left; auto|destruct (proj1 (E a)); left; auto|].
  inversion Sl; subst. inversion Sm; subst. rewrite Forall_forall in *. assert (a = b).
  { destruct (proj1 (E a)) as [|Ha]; [left; auto|auto|]. destruct (proj2 (E b)) as [|Hb]; [left; auto|auto|]. specialize (H2 b Hb). specialize (H4 a Ha). lia. }
  subst b. f_equal. apply IH; auto. intros y. split; intros Y.
  - destruct (proj1 (E y)) as [->|]; [right; auto| |auto]. specialize (H2 y Y). lia.
  - destruct (proj2 (E y)) as [->|]; [right; auto| |auto]. specialize (H4 y Y). lia.
Qed.
Definition with_targets (gathered : list (list Z)) (tiles : list tile) : list tile := filter (fun t => existsb (Z.eqb (tile_id t)) (target_tiles gathered)) tiles.
Lemma with_targets_ids : forall g tiles, (forall y, In y (concat g) -> In y (map tile_id tiles)) -> forall y, In y (map tile_id (with_targets g tiles)) <-> In y (concat g).
Proof.
  intros g tiles H y. rewrite in_map_iff. unfold with_targets. split.
  - intros (t & <- & T). apply filter_In in T. destruct T as [_ T]. apply existsb_exists in T. destruct T as (z & Hz & E). apply Z.eqb_eq in E. subst z. apply target_tiles_In, Hz.
  - intros Y. specialize (H y Y). apply in_map_iff in H. destruct H as (t & <- & T). exists t. split; auto. apply filter_In. split; auto. apply existsb_exists. exists (tile_id t). split; [apply target_tiles_In, Y|apply Z.eqb_refl].
Qed.
(** The labels are those of tiles when the table is in the order of identifiers. *)
Lemma sky_tile_sorted : forall P covers (find : list tile -> P -> list nat) tiles g p, finds covers find -> (forall y, In y (concat g) -> In y (map tile_id tiles)) -> Forall (fun t => 0 <= tile_id t) tiles ->
  StronglySorted Z.lt (map tile_id (with_targets g tiles)) ->
  exists id, sky_tile find tiles (target_tiles g) p = Ok id /\
    ((0 <= id /\ exists t, In t (with_targets g tiles) /\ tile_id t = id /\ covers t p) \/ (id = -1 /\ forall t, In t (with_targets g tiles) -> ~ covers t p)).
Proof.
  intros P covers find tiles g p F Sub Pos So. pose proof (with_targets_ids g tiles Sub) as Ids.
  assert (E : target_tiles g = map tile_id (with_targets g tiles)).
  { apply sorted_eq; auto; [apply unique_sorted|]. intros y. rewrite Ids, target_tiles_In. tauto. }
  unfold sky_tile. fold (with_targets g tiles). destruct (find (with_targets g tiles) p) as [|i l] eqn:Ef.
  - exists (-1). split; auto. right. split; auto. intros t T C. apply In_nth_error in T. destruct T as [n N]. assert (In n (find (with_targets g tiles) p)) by (apply F; eauto). rewrite Ef in H. destruct H.
  - assert (I : In i (find (with_targets g tiles) p)) by (rewrite Ef; left; auto). apply F in I. destruct I as (t & N & C). rewrite E, (map_nth_error tile_id _ _ N). exists (tile_id t). split; auto. left.
    apply nth_error_In in N. split; [|eauto]. apply filter_In in N. rewrite Forall_forall in Pos. apply Pos, N.
Qed.
Lemma map_result_total : forall {A B} (f : A -> result B) l, (forall a, In a l -> exists b, f a = Ok b) -> exists bs, map_result f l = Ok bs.
Proof. intros A B f. induction l as [|a l IH]; intros H; cbn; eauto. destruct (H a) as [b ->]; [left; auto|]. cbn [bind]. destruct IH as [bs ->]; [intros; apply H; right; auto|]. cbn [bind]. eauto. Qed.
(** Tables in the order of identifiers: every sky target in a tile with targets is kept, with the identifier of a tile that covers it. *)
Theorem C68_sorted_partial : forall P A covers (find : list tile -> P -> list nat) tiles g (sky : list (P * A)), finds covers find -> (forall y, In y (concat g) -> In y (map tile_id tiles)) ->
  Forall (fun t => 0 <= tile_id t) tiles -> StronglySorted Z.lt (map tile_id tiles) ->
  exists out, sky_in_pass find tiles g sky = Ok out /\ (forall s id, In (s, id) out -> In s sky /\ given_well covers tiles g s id) /\
    (forall s, In s sky -> (exists id, given_well covers tiles g s id) -> exists id, In (s, id) out).
Proof.
  intros P A covers find tiles g sky F Sub Pos So.
  assert (So' : StronglySorted Z.lt (map tile_id (with_targets g tiles))).
  { clear -So. unfold with_targets. set (p := fun t => existsb (Z.eqb (tile_id t)) (target_tiles g)). clearbody p. clear g. induction tiles as [|t tiles IH]; cbn; auto. cbn in So. inversion So; subst. destruct (p t); auto. cbn. constructor; auto.
    apply Forall_forall. intros y Y. rewrite Forall_forall in H2. apply H2. apply in_map_iff in Y. destruct Y as (u & <- & U). apply in_map. apply filter_In in U. tauto. }
  pose proof (fun p => sky_tile_sorted P covers find tiles g p F Sub Pos So') as T.
  destruct (map_result_total (fun s : P * A => sky_tile find tiles (target_tiles g) (fst s)) sky) as [ids Ei]; [intros a _; destruct (T (fst a)) as (id & E & _); eauto|].
  unfold sky_in_pass. rewrite Ei. cbn [bind]. eexists. split; [reflexivity|].
  assert (C : forall s id, In (s, id) (combine sky ids) -> In s sky /\ sky_tile find tiles (target_tiles g) (fst s) = Ok id).
  { clear -Ei. revert ids Ei. induction sky as [|a sky IH]; intros ids Ei s id I; cbn in Ei; [injection Ei as <-; destruct I|]. destruct (sky_tile find tiles (target_tiles g) (fst a)) as [z|] eqn:Ez; [|discriminate]. cbn [bind] in Ei.
    destruct (map_result _ sky) as [zs|] eqn:Es; [|discriminate]. cbn [bind] in Ei. injection Ei as <-. destruct I as [I|I]; [injection I as <- <-; split; [left|]; auto|]. destruct (IH zs eq_refl s id I). split; [right|]; auto. }
  assert (D : forall s, In s sky -> exists id, In (s, id) (combine sky ids)).
  { clear -Ei. revert ids Ei. induction sky as [|a sky IH]; intros ids Ei s I; [destruct I|]. cbn in Ei. destruct (sky_tile find tiles (target_tiles g) (fst a)) as [z|] eqn:Ez; [|discriminate]. cbn [bind] in Ei.
    destruct (map_result _ sky) as [zs|] eqn:Es; [|discriminate]. cbn [bind] in Ei. injection Ei as <-. destruct I as [->|I]; [exists z; left; auto|]. destruct (IH zs eq_refl s I) as [id]. exists id. right. auto. }
  assert (W : forall t, In t (with_targets g tiles) -> In t tiles /\ In (tile_id t) (concat g)).
  { intros t Ht. split; [apply filter_In in Ht; tauto|]. apply (with_targets_ids g tiles Sub). apply in_map, Ht. }
  split.
  - intros s id I. apply filter_In in I. destruct I as [I K]. cbn in K. apply Z.leb_le in K. apply C in I. destruct I as [I E]. split; auto. destruct (T (fst s)) as (id' & E' & Q). rewrite E in E'. injection E' as <-.
    destruct Q as [(_ & t & Ht & <- & Hc)|(-> & _)]; [|lia]. destruct (W t Ht) as [W1 W2]. exists t. auto.
  - intros s I (id & t & Ht & <- & Hc & Cv). destruct (D s I) as [id' I']. exists id'. apply filter_In. split; auto. cbn. apply Z.leb_le. apply C in I'. destruct I' as [_ E]. destruct (T (fst s)) as (id'' & E' & Q). rewrite E in E'. injection E' as <-.
    destruct Q as [(? & _)|(_ & N)]; auto. exfalso. apply (N t); auto. apply filter_In. split; auto. apply existsb_exists. exists (tile_id t). split; [apply target_tiles_In, Hc|apply Z.eqb_refl].
Qed.
Print Assumptions C68_sorted_partial.
(** The order of identifiers is needed: labels are right whatever tiles cover if and only if the tiles with targets are in that order. *)
Theorem C68_exactly : forall tiles g, (forall y, In y (concat g) -> In y (map tile_id tiles)) -> Forall (fun t => 0 <= tile_id t) tiles -> NoDup (map tile_id tiles) ->
  ((forall covers (find : list tile -> Z -> list nat) p id, finds covers find -> sky_tile find tiles (target_tiles g) p = Ok id -> id <> -1 -> given_well covers tiles g (p, tt) id) <->
   StronglySorted Z.lt (map tile_id (with_targets g tiles))).
Proof.
  intros tiles g Sub Pos ND. pose proof (with_targets_ids g tiles Sub) as Ids. split.
  - intros H. set (find := fun (ts : list tile) (p : Z) => filter (fun i => match nth_error ts i with Some t => tile_id t =? p | None => false end) (seq 0 (List.length ts))).
    assert (F : finds (fun t p => tile_id t = p) find).
    { intros ts p i. unfold find. rewrite filter_In, in_seq. split.
      - intros [_ K]. destruct (nth_error ts i) as [t|]; [|discriminate]. apply Z.eqb_eq in K. eauto.
      - intros (t & N & <-). rewrite N, Z.eqb_refl. split; auto. assert (i < List.length ts)%nat by (apply nth_error_Some; congruence). lia. }
    assert (E : target_tiles g = map tile_id (with_targets g tiles)); [|rewrite <- E; apply unique_sorted].
    assert (Nd : NoDup (map tile_id (with_targets g tiles))).
    { clear -ND. unfold with_targets. set (q := fun t => existsb (Z.eqb (tile_id t)) (target_tiles g)). clearbody q. clear g. induction tiles as [|t tiles IH]; cbn; auto. cbn in ND. inversion ND; subst. destruct (q t); auto. cbn. constructor; auto.
      intros C. apply H1. apply in_map_iff in C. destruct C as (u & <- & U). apply in_map. apply filter_In in U. tauto. }
    assert (Ns : forall l, StronglySorted Z.lt l -> NoDup l) by (induction l; intros K; constructor; inversion K; subst; auto; intros C; rewrite Forall_forall in H3; specialize (H3 _ C); lia).
    assert (L : List.length (target_tiles g) = List.length (map tile_id (with_targets g tiles))).
    { apply Nat.le_antisymm; apply NoDup_incl_length; auto; try (apply Ns, unique_sorted); intros y Y; [apply Ids; apply target_tiles_In in Y; auto|apply target_tiles_In, Ids; auto]. }
    apply nth_ext with (d := 0) (d' := 0); auto. intros i Hi. rewrite L, map_length in Hi. destruct (nth_error (with_targets g tiles) i) as [t|] eqn:Et; [|apply nth_error_None in Et; lia].
    rewrite (nth_error_nth (map tile_id (with_targets g tiles)) i 0 (map_nth_error tile_id _ _ Et)).
    (* the point is the tile's identifier *)
    assert (S1 : find (with_targets g tiles) (tile_id t) = [i]).
    { assert (I : In i (find (with_targets g tiles) (tile_id t))) by (apply F; eauto). assert (U : forall j, In j (find (with_targets g tiles) (tile_id t)) -> j = i).
      { intros j J. apply F in J. destruct J as (u & Nu & Eu). rewrite NoDup_nth_error in Nd. apply Nd; [apply nth_error_Some; rewrite (map_nth_error tile_id _ _ Nu); discriminate|]. rewrite (map_nth_error tile_id _ _ Nu), (map_nth_error tile_id _ _ Et), Eu. reflexivity. }
      assert (NDf : NoDup (find (with_targets g tiles) (tile_id t))) by (unfold find; apply NoDup_filter, seq_NoDup).
      destruct (find (with_targets g tiles) (tile_id t)) as [|a [|b l] ]; [destruct I|f_equal; apply U; left; auto|]. exfalso. inversion NDf; subst. apply H2. left. rewrite (U a), (U b); auto; [right; left|left]; auto. }
    assert (Hn : (i < List.length (target_tiles g))%nat) by (rewrite L, map_length; auto). destruct (nth_error (target_tiles g) i) as [z|] eqn:Ez; [|apply nth_error_None in Ez; lia].
    assert (Kz : sky_tile find tiles (target_tiles g) (tile_id t) = Ok z) by (unfold sky_tile; fold (with_targets g tiles); rewrite S1, Ez; reflexivity).
    assert (Pz : 0 <= z). { apply nth_error_In in Ez. apply target_tiles_In, Sub, in_map_iff in Ez. destruct Ez as (u & <- & Hu). rewrite Forall_forall in Pos. auto. }
    destruct (H _ find (tile_id t) z F Kz) as (u & _ & Eu & _ & Cu); [lia|]. cbn in Cu. rewrite (nth_error_nth _ _ 0 Ez). congruence.
  - intros So covers find p id F E N. destruct (sky_tile_sorted Z covers find tiles g p F Sub Pos So) as (id' & E' & Q). rewrite E in E'. injection E' as <-. destruct Q as [(_ & t & T & <- & C)|(-> & _)]; [|easy].
    exists t. repeat split; auto; [apply filter_In in T; tauto|apply Ids, in_map, T].
Qed.
Print Assumptions C68_exactly.
(** With the tiles of targets in another order a sky target is given to a tile that does not cover it. *)
Theorem C68_order_refuted : exists (covers : tile -> Z -> Prop) find tiles gathered (sky : list (Z * unit)) out s id, finds covers find /\ (forall y, In y (concat gathered) -> In y (map tile_id tiles)) /\ Forall (fun t => 0 <= tile_id t) tiles /\ NoDup (map tile_id tiles) /\
  sky_in_pass find tiles gathered sky = Ok out /\ In (s, id) out /\ forall t, In t tiles -> tile_id t = id -> ~ covers t (fst s).
Proof.
  exists (fun t p => tile_id t = p), (fun (ts : list tile) (p : Z) => filter (fun i => match nth_error ts i with Some t => tile_id t =? p | None => false end) (seq 0 (List.length ts))).
  exists [Tile 20 "DARK"%string 0; Tile 10 "DARK"%string 0], [[10]; [20]], [(20, tt)], [((20, tt), 10)], (20, tt), 10. split.
  - intros ts p i. rewrite filter_In, in_seq. split.
    + intros [_ K]. destruct (nth_error ts i) as [t|]; [|discriminate]. apply Z.eqb_eq in K. eauto.
    + intros (t & N & <-). rewrite N, Z.eqb_refl. split; auto. assert (i < List.length ts)%nat by (apply nth_error_Some; congruence). lia.
  - split; [cbn; intuition|]. split; [repeat constructor; cbn; lia|]. split; [cbn; constructor; [cbn; lia|constructor; auto; constructor]|]. split; [reflexivity|]. split; [left; auto|]. intros t [<-|[<-|[] ] ] E; cbn in *; lia.
Qed.
Print Assumptions C68_order_refuted.
(** Sky targets that are given are never used: the assignment is run with those on disk, or with none. *)
Theorem C68_ignored : forall X (read_disk : list tile -> list X) tiles targets use_sky sky, run_assign_init read_disk tiles targets use_sky sky = targets ++ (if use_sky then read_disk tiles else []).
Proof. reflexivity. Qed.
Print Assumptions C68_ignored.
Theorem C68_used_refuted : exists (read_disk : list tile -> list Z) tiles targets sky s, In s sky /\ ~ In s (run_assign_init read_disk tiles targets true (Some sky)).
Proof. exists (fun _ => [7]), [Tile 20 "DARK"%string 0], [1; 2], [5; 6], 5. split; [left; auto|]. cbn. lia. Qed.
Print Assumptions C68_used_refuted.
(** The function that reads sky targets keeps exactly those inside a tile, but the script calls it with a keyword that it does not have. *)
Theorem C68_read : forall P A inside tiles (sky : list (P * A)) s, In s (read_sky_targets inside tiles sky) <-> In s sky /\ inside tiles (fst s) = true.
Proof. intros. unfold read_sky_targets. apply filter_In. Qed.
Print Assumptions C68_read.
Theorem C68_script_refuted : forall X (f : result X), call_with read_sky_keywords script_keywords f = Err TypeError.
Proof. reflexivity. Qed.
Print Assumptions C68_script_refuted.
Example C68_case : let find := fun (ts : list tile) (p : Z) => filter (fun i => match nth_error ts i with Some t => tile_id t =? p | None => false end) (seq 0 (List.length ts)) in
  StronglySorted Z.lt (map tile_id [Tile 10 "DARK"%string 0; Tile 15 "DARK"%string 0; Tile 20 "DARK"%string 0]) /\
  sky_in_pass find [Tile 10 "DARK"%string 0; Tile 15 "DARK"%string 0; Tile 20 "DARK"%string 0] [[20]; []; [10; 10]] [(20, "a"); (15, "b"); (10, "c"); (3, "d")]%string = Ok [(20, "a"%string, 20); (10, "c"%string, 10)].
Proof. split; [repeat constructor; cbn; lia|reflexivity]. Qed.
