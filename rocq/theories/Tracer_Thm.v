(** C61: tables of redshift errors. *)
Require Import Reals Lra Lia ZArith String List Bool Permutation Sorting.Sorted.
From Verif Require Import Base Cutsky_Model Box_Model Mask_Model Sample_Model Smear_Model Smear_Spec Blind_Thm2 Tracer_Model Tracer_Spec.
Import ListNotations.
Open Scope R_scope.

(* ---------- sorting ---------- *)
Lemma insert_row_perm : forall r l, Permutation (r :: l) (insert_row r l).
Proof.
  induction l as [|s l IH]; cbn; auto. destruct (Rleb (r_z r) (r_z s)); auto. apply perm_trans with (s :: r :: l); [apply perm_swap|]. apply perm_skip; auto.
Qed.
Lemma sort_rows_perm : forall l, Permutation l (sort_rows l).
Proof. induction l as [|r l IH]; cbn; auto. apply perm_trans with (r :: sort_rows l); [apply perm_skip; auto|apply insert_row_perm]. Qed.
Lemma sort_rows_in : forall r l, In r (sort_rows l) <-> In r l.
Proof. intros. split; apply Permutation_in; [apply Permutation_sym|]; apply sort_rows_perm. Qed.
Definition le_row (a b : row) : Prop := r_z a <= r_z b.
Definition lt_row (a b : row) : Prop := r_z a < r_z b.
Lemma insert_row_sorted : forall r l, StronglySorted le_row l -> StronglySorted le_row (insert_row r l).
Proof.
  induction l as [|s l IH]; intros H; cbn; [repeat constructor|]. inversion H as [|? ? H1 H2]; subst. destruct (Rleb (r_z r) (r_z s)) eqn:E.
  - apply Rleb_true in E. constructor; auto. constructor; auto. apply Forall_forall. intros x I. rewrite Forall_forall in H2. specialize (H2 x I). unfold le_row in *. lra.
  - apply Rleb_false in E. constructor; auto. apply Forall_forall. intros x I. apply Permutation_in with (l' := r :: l) in I; [|apply Permutation_sym, insert_row_perm].
    destruct I as [<-|I]; [unfold le_row; lra|]. rewrite Forall_forall in H2. auto.
Qed.
Lemma sort_rows_sorted : forall l, StronglySorted le_row (sort_rows l).
Proof. induction l as [|r l IH]; cbn; [constructor|]. apply insert_row_sorted; auto. Qed.
Lemma strict_sorted : forall l, StronglySorted le_row l -> NoDup (map r_z l) -> StronglySorted lt_row l.
Proof.
  induction l as [|r l IH]; intros H N; [constructor|]. inversion H as [|? ? H1 H2]; subst. cbn in N. inversion N as [|? ? N1 N2]; subst. constructor; auto.
  apply Forall_forall. intros x I. rewrite Forall_forall in H2. specialize (H2 x I). unfold le_row, lt_row in *. destruct (Req_dec (r_z r) (r_z x)) as [E|]; [|lra].
  exfalso. apply N1. rewrite E. apply in_map; auto.
Qed.
Lemma sort_strict : forall l, one_row_per_redshift l -> StronglySorted lt_row (sort_rows l).
Proof. intros l N. apply strict_sorted; [apply sort_rows_sorted|]. apply Permutation_NoDup with (map r_z l); auto. apply Permutation_map, sort_rows_perm. Qed.
Lemma sorted_app : forall {A} (R1 : A -> A -> Prop) l m, StronglySorted R1 l -> StronglySorted R1 m -> (forall a b, In a l -> In b m -> R1 a b) -> StronglySorted R1 (l ++ m).
Proof.
  induction l as [|a l IH]; intros m H1 H2 H; cbn; auto. inversion H1 as [|? ? H3 H4]; subst. constructor; [apply IH; auto; intros; apply H; auto; right; auto|].
  apply Forall_forall. intros x I. apply in_app_or in I. destruct I as [I|I]; [rewrite Forall_forall in H4; auto|]. apply H; auto. left; auto.
Qed.
Lemma sorted_filter : forall {A} (R1 : A -> A -> Prop) f l, StronglySorted R1 l -> StronglySorted R1 (filter f l).
Proof.
  induction l as [|a l IH]; intros H; cbn; [constructor|]. inversion H as [|? ? H3 H4]; subst. destruct (f a); auto. constructor; auto. apply Forall_forall. intros x I. apply filter_In in I.
  rewrite Forall_forall in H4. apply H4, I.
Qed.
Lemma sorted_rows_rising : forall t, StronglySorted lt_row t -> by_redshift t.
Proof.
  unfold by_redshift. induction t as [|r t IH]; intros H i j I; [cbn in I; lia|]. inversion H as [|? ? H1 H2]; subst. cbn [map length] in *. destruct j as [|j]; [lia|]. destruct i as [|i].
  - cbn [nth]. assert (IN : In (nth j (map r_z t) 0) (map r_z t)) by (apply nth_In; lia). apply in_map_iff in IN. destruct IN as (x & <- & IN). rewrite Forall_forall in H2. apply (H2 x IN).
  - cbn [nth]. apply (IH H1). lia.
Qed.

(* ---------- stacking ---------- *)
Lemma stack_ok : forall table new t, stack table new = Ok t -> forall r, In r t <-> In r new \/ (In r table /\ forall s, In s new -> r_z r < r_z s).
Proof.
  intros table new t H r. unfold stack in H. cbv zeta in H. destruct table as [|t0 table].
  - apply ok_inj_p in H. subst t. rewrite sort_rows_in. split; [left; auto|intros [?|[[] _]]; auto].
  - pose proof (sort_rows_sorted new) as SS. pose proof (sort_rows_in) as SI. destruct (sort_rows new) as [|f l] eqn:E; [discriminate|]. apply ok_inj_p in H. subst t.
    rewrite in_app_iff. rewrite <- E. rewrite sort_rows_in. rewrite filter_In. split.
    + intros [[I L]|I]; [right|left; auto]. split; auto. intros s IS. apply Rltb_true in L. apply (SI s new) in IS. rewrite E in IS. inversion SS as [|? ? S1 S2]; subst.
      destruct IS as [<-|IS]; auto. rewrite Forall_forall in S2. specialize (S2 s IS). unfold le_row in S2. lra.
    + intros [I|[I L]]; [right; auto|left]. split; auto. apply Rltb_true. apply L. apply SI. rewrite E. left; auto.
Qed.
Lemma stack_sorted : forall table new t, stack table new = Ok t -> StronglySorted lt_row table -> one_row_per_redshift new -> StronglySorted lt_row t.
Proof.
  intros table new t H ST N. pose proof (stack_ok _ _ _ H) as SO. unfold stack in H. cbv zeta in H. pose proof (sort_strict new N) as SN. destruct table as [|t0 table].
  - apply ok_inj_p in H. subst t. auto.
  - destruct (sort_rows new) as [|f l] eqn:E; [discriminate|]. apply ok_inj_p in H. subst t. apply sorted_app; auto; [apply sorted_filter; auto|].
    intros a b IA IB. apply filter_In in IA. destruct IA as [_ L]. apply Rltb_true in L. unfold lt_row. inversion SN as [|? ? S1 S2]; subst. destruct IB as [<-|IB]; auto.
    rewrite Forall_forall in S2. specialize (S2 b IB). unfold lt_row in S2. lra.
Qed.
Lemma merge_ok : forall files table t, merge_from table files = Ok t -> forall r, In r t <-> counts files r \/ (In r table /\ forall j s, (j < length files)%nat -> In s (nth j files []) -> r_z r < r_z s).
Proof.
  induction files as [|f files IH]; intros table t H r; cbn [merge_from] in H.
  - apply ok_inj_p in H. subst t. split; [intros I; right; split; auto; intros j s L; cbn in L; lia|]. intros [(i & L & _)|[I _]]; [cbn in L; lia|auto].
  - destruct (stack table f) as [t1|] eqn:E; [|discriminate]. cbn [bind] in H. pose proof (stack_ok _ _ _ E r) as SO. rewrite (IH _ _ H r). rewrite SO. split.
    + intros [(i & L & I & J)|[[I|[I S0]] J]].
      * left. exists (S i). cbn [length nth]. split; [lia|]. split; auto. intros [|j] s LJ IS; [lia|]. apply (J j); auto. lia.
      * left. exists 0%nat. cbn [length nth]. split; [lia|]. split; auto. intros [|j] s LJ IS; [lia|]. apply (J j); auto. lia.
      * right. split; auto. intros [|j] s LJ IS; [apply S0; auto|]. apply (J j); auto. cbn in LJ. lia.
    + intros [([|i] & L & I & J)|[I J]]; cbn [length nth] in *.
      * right. split; [left; auto|]. intros j s LJ IS. apply (J (S j)); auto. lia.
      * left. exists i. split; [lia|]. split; auto. intros j s LJ IS. apply (J (S j)); auto. lia.
      * right. split; [right; split; auto; intros s IS; apply (J 0%nat); auto; lia|]. intros j s LJ IS. apply (J (S j)); auto. lia.
Qed.
Lemma merge_sorted : forall files table t, merge_from table files = Ok t -> StronglySorted lt_row table -> Forall one_row_per_redshift files -> StronglySorted lt_row t.
Proof.
  induction files as [|f files IH]; intros table t H ST F; cbn [merge_from] in H; [apply ok_inj_p in H; subst; auto|]. inversion F; subst.
  destruct (stack table f) as [t1|] eqn:E; [|discriminate]. cbn [bind] in H. apply (IH t1); auto. apply (stack_sorted table f); auto.
Qed.

(** Redshifts come in increasing order, and the rows are those that lie below all later files. *)
Theorem C61_merge : forall files t, Forall one_row_per_redshift files -> merge files = Ok t -> by_redshift t /\ forall r, In r t <-> counts files r.
Proof.
  intros files t F H. unfold merge in H. destruct files as [|f files]; [discriminate|]. split.
  - apply sorted_rows_rising. apply (merge_sorted _ _ _ H); auto. constructor.
  - intros r. rewrite (merge_ok _ _ _ H r). split; [intros [C|[[] _]]; auto|auto].
Qed.
Print Assumptions C61_merge.

(** All the rows of the last file are kept. *)
Theorem C61_last_file : forall files t r, files <> [] -> merge files = Ok t -> In r (last files []) -> In r t.
Proof.
  intros files t r NE H I. unfold merge in H. destruct files as [|f files]; [congruence|]. rewrite (merge_ok _ _ _ H r). left. exists (length files). cbn [length]. split; [lia|]. split.
  - clear H NE t. revert f I. induction files as [|g files IH]; intros f I; [exact I|]. cbn [length nth]. apply IH. exact I.
  - intros j s J. lia.
Qed.
Print Assumptions C61_last_file.

(** Files without rows are the only ones that cannot be merged. *)
Lemma merge_total : forall files table, Forall (fun f => f <> []) files -> exists t, merge_from table files = Ok t.
Proof.
  induction files as [|f files IH]; intros table F; cbn [merge_from]; [eauto|]. inversion F as [|? ? F1 F2]; subst. unfold stack. cbv zeta. destruct table as [|t0 table]; [cbn [bind]; apply IH; auto|].
  destruct (sort_rows f) as [|s l] eqn:E; [|cbn [bind]; apply IH; auto]. exfalso. apply F1. apply Permutation_nil. rewrite <- E. apply Permutation_sym. apply sort_rows_perm.
Qed.
Theorem C61_total : forall files, files <> [] -> Forall (fun f => f <> []) files -> exists t, merge files = Ok t.
Proof. intros [|f files] NE F; [congruence|]. apply merge_total; auto. Qed.
Print Assumptions C61_total.

(* ---------- the function ---------- *)
Lemma map_result_in : forall {A B} (f : A -> result B) l m, map_result f l = Ok m -> forall a, In a l -> exists b, f a = Ok b /\ In b m.
Proof.
  intros A B f l m H a I. apply map_result_forall2 in H. induction H as [|x y l m E F IH]; [easy|]. destruct I as [<-|I]; [exists y; split; [auto|left; auto]|].
  destruct (IH I) as (b & E1 & E2). exists b. split; auto. right; auto.
Qed.
Lemma eqb_str : forall a b : string, String.eqb a b = true <-> a = b.
Proof. intros. apply String.eqb_eq. Qed.

Lemma row_laws_spec : forall w tracer unc r b g la, row_laws w tracer unc r = Ok (b, g, la) -> describes w tracer unc r b g /\ la = weight_of r.
Proof.
  intros w tracer unc r b g la H. unfold row_laws, truncated in H. unfold describes, weight_of, quasar_statistical, truncation. destruct (r_fit r) as [[[[f1 f2] f3] f4] f5] eqn:E.
  destruct (String.eqb tracer "QSO") eqn:T1; [apply eqb_str in T1; subst tracer; destruct (String.eqb unc "statistical") eqn:U1; [apply eqb_str in U1; subst unc|destruct (String.eqb unc "clustering") eqn:U2; [apply eqb_str in U2; subst unc|discriminate]]
    |destruct (String.eqb tracer "LRG") eqn:T2; [apply eqb_str in T2; subst tracer|destruct (String.eqb tracer "ELG" || String.eqb tracer "BGS")%bool eqn:T3; [|discriminate]]].
  - injection H as <- <- <-. split; auto. split; [intros _; exists f1, f2, f3, f4, f5; auto|]. intros v [(_ & C & _)|[(C & _)|([C|C] & _)]]; discriminate.
  - injection H as <- <- <-. split; auto. split; [intros [_ C]; discriminate|]. intros v [(_ & _ & ->)|[(C & _)|([C|C] & _)]]; try discriminate. exists f1, f2, f3, f4, f5. auto.
  - injection H as <- <- <-. split; auto. split; [intros [C _]; discriminate|]. intros v [(C & _)|[(_ & ->)|([C|C] & _)]]; try discriminate. exists f1, f2, f3, f4, f5. auto.
  - injection H as <- <- <-. split; auto. apply orb_prop in T3. split; [intros [-> _]; discriminate|].
    intros v [(-> & _)|[(-> & _)|(_ & ->)]]; [discriminate|discriminate|]. exists f1, f2, f3, f4, f5. auto.
Qed.
Lemma row_laws_known : forall w tracer unc r, known tracer unc -> exists x, row_laws w tracer unc r = Ok x.
Proof.
  intros w tracer unc r H. unfold row_laws. destruct (r_fit r) as [[[[f1 f2] f3] f4] f5]. destruct H as [-> |[-> |[-> |(-> & [-> | ->])]]]; cbn [String.eqb Ascii.eqb Bool.eqb orb]; eauto.
Qed.

(** Given files: redshifts of the merged table, and for each redshift the distributions and weights of its row. *)
Theorem C61_distributions : forall read w tracer fn unc z b g w1 w2 tr, tracer_rvs read w tracer (Some fn) unc = Ok (z, (b, g), (w1, w2), tr) ->
  exists files t, Forall2 (fun name file => read name = Ok file) fn files /\ merge files = Ok t /\ z = map r_z t /\ w1 = map weight_of t /\ w2 = map (fun r => 1 - weight_of r) t /\
    Forall2 (fun r x => describes w tracer unc r (fst x) (snd x)) t (combine b g) /\ length b = length t /\ length g = length t.
Proof.
  intros read w tracer fn unc z b g w1 w2 tr H. unfold tracer_rvs in H. cbn [bind] in H. destruct (map_result read fn) as [files|] eqn:E1; [|discriminate]. cbn [bind] in H.
  destruct (merge files) as [t|] eqn:E2; [|discriminate]. cbn [bind] in H. destruct (map_result (row_laws w tracer unc) t) as [fits|] eqn:E3; [|discriminate]. cbn [bind] in H. cbv zeta in H. injection H as <- <- <- <- <- <-.
  exists files, t. split; [apply map_result_forall2 in E1; auto|]. split; auto. split; auto. apply map_result_forall2 in E3. clear E1 E2 files.
  induction E3 as [|r [[b g] la] t fits R0 F IH]; [repeat split; auto; constructor|]. destruct (row_laws_spec _ _ _ _ _ _ _ R0) as [D ->]. destruct IH as (I1 & I2 & I3 & I4 & I5). cbn [map combine fst snd length].
  cbn [map] in I2. split; [f_equal; auto|]. split; [f_equal; auto|]. split; [constructor; auto|]. split; f_equal; auto.
Qed.
Print Assumptions C61_distributions.

(** Without files, the tables shipped for the tracer are used. *)
Theorem C61_shipped : forall read w tracer unc names, shipped tracer unc names -> tracer_rvs read w tracer None unc = tracer_rvs read w tracer (Some names) unc.
Proof. intros read w tracer unc names [([-> ->] & ->)|[(-> & -> & ->)|[(-> & -> & ->)|[(-> & -> & ->)|(-> & -> & ->)]]]]; reflexivity. Qed.
Print Assumptions C61_shipped.

(** Known tracers: every file that can be read and has rows gives distributions. *)
Lemma map_result_all : forall {A B} (f : A -> result B) l, (forall a, In a l -> exists b, f a = Ok b) -> exists m, map_result f l = Ok m.
Proof.
  induction l as [|a l IH]; intros H; [exists []; auto|]. destruct (H a (or_introl eq_refl)) as [b E]. destruct IH as [m F]; [intros; apply H; right; auto|]. exists (b :: m). cbn. rewrite E. cbn. rewrite F. auto.
Qed.
Theorem C61_accepted : forall read w tracer fn unc files, known tracer unc -> fn <> [] -> Forall2 (fun name file => read name = Ok file /\ file <> []) fn files ->
  exists x, tracer_rvs read w tracer (Some fn) unc = Ok x.
Proof.
  intros read w tracer fn unc files K NE F. unfold tracer_rvs. cbn [bind]. assert (E : map_result read fn = Ok files).
  { clear NE. induction F as [|name file fn files [E _] F IH]; auto. cbn. rewrite E. cbn. rewrite IH. auto. }
  rewrite E. cbn [bind]. destruct (C61_total files) as [t E2].
  - destruct F; congruence.
  - clear - F. induction F as [|? ? ? ? [_ ?] F IH]; constructor; auto.
  - rewrite E2. cbn [bind]. destruct (map_result_all (row_laws w tracer unc) t) as [fits E3]; [intros r _; apply row_laws_known; auto|]. rewrite E3. cbn [bind]. eauto.
Qed.
Print Assumptions C61_accepted.

(** Others: no table with rows is accepted. *)
Lemma row_laws_unknown : forall w tracer unc r, ~ known tracer unc -> row_laws w tracer unc r = Err NameError.
Proof.
  intros w tracer unc r H. unfold row_laws. destruct (String.eqb tracer "QSO") eqn:T1.
  - apply eqb_str in T1. destruct (String.eqb unc "statistical") eqn:U1; [apply eqb_str in U1; exfalso; apply H; unfold known; auto 10|]. destruct (String.eqb unc "clustering") eqn:U2; [apply eqb_str in U2; exfalso; apply H; unfold known; auto 10|]. auto.
  - destruct (String.eqb tracer "LRG") eqn:T2; [apply eqb_str in T2; exfalso; apply H; unfold known; auto|]. destruct (_ || _)%bool eqn:T3; auto.
    apply orb_prop in T3. rewrite !eqb_str in T3. exfalso. apply H. unfold known. tauto.
Qed.
Theorem C61_refused : forall read w tracer fn unc z b g w1 w2 tr, ~ known tracer unc -> tracer_rvs read w tracer fn unc = Ok (z, (b, g), (w1, w2), tr) -> z = [].
Proof.
  intros read w tracer fn unc z b g w1 w2 tr K H. unfold tracer_rvs in H. destruct (match fn with None => _ | Some fn => _ end) as [fn'|]; [|discriminate]. cbn [bind] in H. destruct (map_result read fn') as [files|]; [|discriminate]. cbn [bind] in H.
  destruct (merge files) as [t|]; [|discriminate]. cbn [bind] in H. destruct (map_result (row_laws w tracer unc) t) as [fits|] eqn:E3; [|discriminate]. cbn [bind] in H. cbv zeta in H. injection H as <- <- <- <- <- <-.
  destruct t as [|r t]; auto. cbn in E3. rewrite row_laws_unknown in E3 by auto. discriminate.
Qed.
Print Assumptions C61_refused.

(** But not with a ValueError: a variable is used before it is set; for quasars without files, None is iterated over. *)
Theorem C61_error_refuted : forall w r, exists tracer read,
  tracer_rvs read w tracer (Some ["table"%string]) "statistical" = Err NameError /\ read "table"%string = Ok [r] /\ tracer_rvs read w "QSO" None "other" = Err TypeError.
Proof. intros w r. exists "Lya"%string, (fun _ => Ok [r]). repeat split. Qed.
Print Assumptions C61_error_refuted.
(** And unknown kinds of uncertainty are accepted for other tracers than quasars, even without files. *)
Theorem C61_uncertainty_refuted : forall read w tracer, In tracer ["LRG"; "ELG"; "BGS"]%string -> tracer_rvs read w tracer None "other" = tracer_rvs read w tracer None "statistical".
Proof. intros read w tracer [<- |[<- |[<- |[]]]]; reflexivity. Qed.
Print Assumptions C61_uncertainty_refuted.
(** "clustering" is refused for them without files, and the same is accepted with files. *)
Theorem C61_clustering : forall read w tracer fn, In tracer ["LRG"; "ELG"; "BGS"]%string ->
  tracer_rvs read w tracer None "clustering" = Err ValueError /\ tracer_rvs read w tracer (Some fn) "clustering" = tracer_rvs read w tracer (Some fn) "statistical".
Proof. intros read w tracer fn [<- |[<- |[<- |[]]]]; split; reflexivity. Qed.
Print Assumptions C61_clustering.

(** Two tables that overlap between 0.8 and 1, given in any order of rows. *)
Definition a_fit (x : R) : R * R * R * R * R := (50, 0, 40, 0, x).
Example C61_case : exists t, merge [[Row 1 (a_fit 1); Row (5 / 10) (a_fit 2)]; [Row (12 / 10) (a_fit 3); Row (8 / 10) (a_fit 4)]] = Ok t /\ t = [Row (5 / 10) (a_fit 2); Row (8 / 10) (a_fit 4); Row (12 / 10) (a_fit 3)].
Proof.
  assert (S1 : sort_rows [Row 1 (a_fit 1); Row (5 / 10) (a_fit 2)] = [Row (5 / 10) (a_fit 2); Row 1 (a_fit 1)]).
  { cbn [sort_rows fold_right insert_row r_z]. unfold Rleb. destruct (Rle_dec 1 (5 / 10)); [lra|]. auto. }
  assert (S2 : sort_rows [Row (12 / 10) (a_fit 3); Row (8 / 10) (a_fit 4)] = [Row (8 / 10) (a_fit 4); Row (12 / 10) (a_fit 3)]).
  { cbn [sort_rows fold_right insert_row r_z]. unfold Rleb. destruct (Rle_dec (12 / 10) (8 / 10)); [lra|]. auto. }
  eexists. split; [|reflexivity]. unfold merge. cbn [merge_from]. unfold stack at 1. cbv zeta. rewrite S1. cbn [bind]. unfold stack. cbv zeta. rewrite S2. cbn [bind filter r_z].
  unfold Rltb. destruct (Rlt_dec (5 / 10) (8 / 10)); [|lra]. destruct (Rlt_dec 1 (8 / 10)); [lra|]. auto.
Qed.
