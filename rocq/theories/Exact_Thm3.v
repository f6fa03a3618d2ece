(** Exact conditions, continued: available targets. *)
Require Import Reals Lra Lia ZArith List Bool Arith.
From Verif Require Import Base Box_Model Blind_Model FA_Model FA_Spec FA_Proof FA_Thm Blind_Thm2 Exact_Spec3.
Import ListNotations.
Open Scope Z_scope.

Lemma existsb_z : forall k l, existsb (Z.eqb k) l = true <-> In k l.
Proof. intros k l. rewrite existsb_exists. split; [intros (x & I & E); apply Z.eqb_eq in E; subst; auto|intros I; exists k; split; auto; apply Z.eqb_refl]. Qed.
Lemma zassoc_first : forall l seen k, ~ In k seen -> zassoc k (first_rows seen l) = zassoc k l.
Proof.
  induction l as [|[t f] l IH]; intros seen k N; cbn; auto. destruct (existsb (Z.eqb t) seen) eqn:E.
  - apply existsb_z in E. rewrite IH by auto. destruct (Z.eqb_spec t k); [subst; contradiction|reflexivity].
  - cbn. destruct (Z.eqb_spec t k); auto. apply IH. intros [->|I]; auto.
Qed.
Lemma first_rows_filter : forall good l seen k, ~ In k seen -> zassoc k (filter (fun x : Z * Z => good (snd x)) (first_rows seen l)) = match zassoc k l with Some f => if good f then Some f else None | None => None end.
Proof.
  induction l as [|[t f] l IH]; intros seen k N; cbn; auto. destruct (existsb (Z.eqb t) seen) eqn:E.
  - apply existsb_z in E. rewrite IH by auto. destruct (Z.eqb_spec t k); [subst; contradiction|reflexivity].
  - cbn [filter snd]. destruct (Z.eqb_spec t k) as [->|D].
    + destruct (good f) eqn:G; cbn; [rewrite Z.eqb_refl; auto|]. destruct (zassoc k (filter _ _)) eqn:Z0; auto. apply zassoc_in in Z0. apply filter_In in Z0. destruct Z0 as [Z0 _]. apply first_rows_spec in Z0. destruct Z0 as [_ Z0]. exfalso. apply Z0. left. auto.
    + assert (M : ~ In k (t :: seen)) by (intros [->|I]; auto). destruct (good f); cbn; [destruct (Z.eqb_spec t k); [easy|]|]; apply IH; auto.
Qed.
(** Looking up in the flattened table finds the first entry that holds the key. *)
Lemma zassoc_flat : forall (science : Z -> bool) (tab : list (Z * list Z)) k f, zassoc k (flat_map (fun x => map (fun t => (t, fst x)) (filter science (snd x))) tab) = Some f <->
  science k = true /\ exists before l after, tab = before ++ (f, l) :: after /\ In k l /\ forall g m, In (g, m) before -> ~ In k m.
Proof.
  intros science tab k f. induction tab as [|[g m] tab IH]; cbn [flat_map fst snd].
  - split; [discriminate|]. intros (_ & before & l & after & E & _). destruct before; discriminate.
  - assert (Z : forall r, zassoc k (map (fun t => (t, g)) (filter science m) ++ r) = if existsb (Z.eqb k) m && science k then Some g else zassoc k r).
    { induction m as [|a m IHm]; intros r; [reflexivity|]. cbn [filter existsb]. destruct (Z.eqb_spec k a) as [<-|D].
      - cbn [orb andb]. destruct (science k) eqn:S; cbn; [rewrite Z.eqb_refl; reflexivity|]. rewrite IHm, andb_false_r. reflexivity.
      - cbn [orb]. destruct (science a); cbn; [destruct (Z.eqb_spec a k); [congruence|]|]; apply IHm. }
    rewrite Z. destruct (existsb (Z.eqb k) m) eqn:X; cbn [andb].
    + apply existsb_z in X. destruct (science k) eqn:S.
      * split.
        -- intros [= <-]. split; auto. exists [], m, tab. repeat split; auto.
        -- intros (_ & before & l & after & E & I & B). destruct before as [|[g' m'] before]; injection E as E1 E2; [congruence|]. subst. exfalso. eapply B; [left; reflexivity|]. auto.
      * split; [intros H; apply IH in H; destruct H; congruence|intros [H _]; congruence].
    + assert (NX : ~ In k m) by (intros I; apply existsb_z in I; congruence). rewrite IH. split; intros (S & before & l & after & E & I & B); split; auto.
      * exists ((g, m) :: before), l, after. subst. split; [reflexivity|]. split; auto. intros g' m' [J|J]; [injection J as <- <-; auto|eauto].
      * destruct before as [|[g' m'] before]; cbn in E; injection E as E1 E2 E3; [subst; contradiction|]. exists before, l, after. subst. split; auto. split; auto. intros g2 m2 J. apply (B g2 m2). right. auto.
Qed.

(** After a tile, a target counts as available if and only if it did before or the first used fibre that reaches it works. *)
Theorem C49_available_exactly : forall w t rows out, one_tile w t rows = Ok out -> exists good, w_good w t = Ok good /\ List.length out = List.length rows /\
  forall n r r', nth_error rows n = Some r -> nth_error out n = Some r' ->
    p_id r' = p_id r /\ (p_available r' = true <-> p_available r = true \/ exists f, first_used w t (w_assign w t rows) (p_id r) f /\ good f = true).
Proof.
  intros w t rows out H. unfold one_tile in H. set (a := w_assign w t rows) in *. destruct (extract_info _ _ a) as [[assigned avail]|] eqn:E; [|discriminate]. cbn [bind] in H. destruct (w_good w t) as [good|]; [|discriminate]. injection H as <-.
  exists good. split; auto. split; [unfold apply_mtl; apply map_length|]. cbn [fst snd].
  assert (A : forall i, (exists f, zassoc i (filter (fun x : Z * Z => good (snd x)) avail) = Some f) <-> exists f, first_used w t a i f /\ good f = true).
  { unfold extract_info in E. destruct (filter (fun x : Z * Z => w_science w (snd x)) (a_located a)) as [|p0 located] eqn:L.
    { injection E as <- <-. intros i. split; [intros (f & F); discriminate|]. intros (f & (_ & b & x & l & af & _ & _ & U & _) & _). destruct U as (y & j & I & S & _).
      assert (J : In (y, j) (filter (fun x : Z * Z => w_science w (snd x)) (a_located a))) by (apply filter_In; auto). rewrite L in J. easy. }
    rewrite <- L in E. destruct (map_result _ (filter _ (a_located a))) as [as0|] eqn:M1; [|discriminate]. cbn [bind] in E. destruct (map_result _ (a_avail a)) as [av|] eqn:M2; [|discriminate]. cbn [bind] in E.
    apply map_result_forall2 in M1. apply map_result_forall2 in M2.
    assert (U : forall f, In f (map snd as0) <-> used_fiber w t a f).
    { intros f. unfold used_fiber. clear -M1. assert (Q : forall l, Forall2 (fun x b => (do f <- w_fiber w t (fst x); Ok (snd x, f)) = Ok b) l as0 -> (In f (map snd as0) <-> exists x i, In (x, i) l /\ w_fiber w t x = Ok f)).
      { clear M1. intros l F. induction F as [|[x i] [i' g] l l' P F IH]; [split; [easy|intros (x & i & [] & _)]|]. cbn in P. destruct (w_fiber w t x) as [g'|] eqn:W; [|discriminate]. injection P as <- <-. cbn [map In snd]. rewrite IH. split.
        - intros [<-|(y & j & I & V)]; [exists x, i; split; [left|]; auto|exists y, j; split; [right|]; auto].
        - intros (y & j & [J|J] & V); [injection J as <- <-; left; congruence|right; eauto]. }
      rewrite (Q _ M1). split; [intros (x & i & I & V); apply filter_In in I; destruct I; eauto|intros (x & i & I & S & V); exists x, i; split; auto; apply filter_In; auto]. }
    set (keep := fun x : Z * list Z => existsb (Z.eqb (fst x)) (map snd as0)) in *.
    assert (K : forall g m, keep (g, m) = true <-> used_fiber w t a g) by (intros; unfold keep; cbn; rewrite existsb_z; apply U).
    intros i. set (pairs := flat_map _ (filter keep av)) in *. assert (Av : avail = first_rows [] pairs \/ pairs = []) by (destruct pairs; [auto|injection E as _ <-; auto]).
    assert (Z0 : forall f, zassoc i pairs = Some f <-> first_used w t a i f).
    { intros f. unfold pairs. rewrite zassoc_flat. unfold first_used. split; intros (S & R); split; auto.
      - destruct R as (before & l & after & EQ & I & B). clear -EQ I B M2 K. revert before EQ B. generalize dependent (a_avail a). intros tab0 M2. induction M2 as [|[x m] [g m'] tab tab' P F IH]; intros before EQ B; [destruct before; discriminate|].
        cbn [fst snd] in P. destruct (w_fiber w t x) as [g'|] eqn:W; [|discriminate]. injection P as <- <-. cbn [filter] in EQ. destruct (keep (g', m)) eqn:Kg.
        + destruct before as [|[g2 m2] before]; injection EQ as E1 E2 E3.
          * subst. apply K in Kg. exists [], x, l, tab. repeat split; auto.
          * subst g2 m2. destruct (IH _ E3) as (b & y & l' & af & Q1 & Q2 & Q3 & Q4 & Q5); [intros; eapply B; right; eauto|]. exists ((x, m) :: b), y, l', af. split; [rewrite Q1; reflexivity|]. repeat split; auto.
            intros y' m' g [J|J] I' V; [injection J as <- <-; exfalso; eapply B; [left; reflexivity|]; auto|eauto].
        + destruct (IH _ EQ B) as (b & y & l' & af & Q1 & Q2 & Q3 & Q4 & Q5). exists ((x, m) :: b), y, l', af. split; [rewrite Q1; reflexivity|]. repeat split; auto.
          intros y' m' g [J|J] I' V; [injection J as <- <-; rewrite V in W; injection W as <-; intros Us; apply (K _ m) in Us; congruence|eauto].
      - destruct R as (before & x & l & after & EQ & Fx & Us & I & B). rewrite EQ in M2. apply Forall2_app_inv_l in M2. destruct M2 as (av1 & av2 & F1 & F2 & ->). inversion F2 as [|? [g m] ? av3 P F3]; subst. cbn in P. rewrite Fx in P. injection P as <- <-.
        exists (filter keep av1), l, (filter keep av3). split; [rewrite filter_app; cbn [filter]; replace (keep (f, l)) with true by (symmetry; apply K; auto); reflexivity|]. split; auto.
        intros g m J Im. apply filter_In in J. destruct J as [J Kg]. apply K in Kg. clear -F1 J Im B Kg. induction F1 as [|[y m'] [g' m2] before av1 P F IH]; [easy|]. cbn in P. destruct (w_fiber w t y) as [g2|] eqn:W; [|discriminate]. injection P as <- <-.
        destruct J as [J|J]; [injection J as <- <-; apply (B y m' g2); auto; left; auto|apply IH; auto; intros; eapply B; eauto; right; eauto]. }
    destruct Av as [->|Nil].
    - rewrite first_rows_filter by auto. split.
      + intros (f & F). destruct (zassoc i pairs) as [g|] eqn:Zp; [|discriminate]. destruct (good g) eqn:G; [|discriminate]. exists g. split; auto. apply Z0. auto.
      + intros (f & F & G). apply Z0 in F. rewrite F, G. eauto.
    - rewrite Nil in E. discriminate. }
  intros n r r' R R'. unfold apply_mtl in R'. rewrite nth_error_map, R in R'. injection R' as <-. unfold mark_assigned, mark_available. specialize (A (p_id r)).
  destruct (zassoc (p_id r) (filter (fun x : Z * Z => good (snd x)) avail)) as [f|] eqn:Z1.
  - cbn [p_id p_available]. assert (X : exists f, first_used w t a (p_id r) f /\ good f = true) by (apply A; eauto). destruct (zassoc (p_id r) (filter _ assigned)); cbn; split; auto; tauto.
  - assert (X : ~ exists f, first_used w t a (p_id r) f /\ good f = true) by (intros Y; apply A in Y; destruct Y; discriminate). destruct (zassoc (p_id r) (filter _ assigned)); cbn; split; auto; tauto.
Qed.
Print Assumptions C49_available_exactly.
(** Two rows in the world of the refutation: the first used fibre that reaches them is number 5, which is broken. *)
Example C49_exact_case : exists rows out, one_tile bad_world 1 rows = Ok out /\ List.length rows = 2%nat /\ Forall (fun r => p_available r = false) out /\ first_used bad_world 1 (bad_assign 1 rows) 1 5 /\ bad_good 5 = false.
Proof.
  exists [PRow 1 1 0 false 1 false (-1) 0; PRow 2 1 0 false 1 false (-1) 1], [PRow 1 0 1 false 1 true 7 0; PRow 2 1 0 false 1 false (-1) 1]. split; [reflexivity|]. split; auto. split; [repeat constructor|]. split; [|reflexivity].
  split; auto. exists [], 5, [1; 2], [(7, [1; 2])]. split; [reflexivity|]. split; auto. split; [exists 5, 2; split; [right; left; reflexivity|auto]|]. split; [left; auto|intros y m g []].
Qed.
