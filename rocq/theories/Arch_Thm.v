(** C90: the archive of sky targets. *)
Require Import Lia ZArith String Ascii List Bool Permutation.
From Verif Require Import Base Tile_Model Tile_Thm SV3_Model SV3_Thm Arch_Model Arch_Spec Arch_Proof Arch_Proof2.
Import ListNotations.
Open Scope string_scope.
Open Scope list_scope.

Lemma filter_perm : forall {A} (f : A -> bool) l l', Permutation l l' -> Permutation (filter f l) (filter f l').
Proof. intros A f l l' P. induction P; cbn; auto; [destruct (f x); auto|destruct (f x), (f y); auto; constructor|eapply Permutation_trans; eauto]. Qed.
Lemma path_dotless : forall dir m, dotless (path_join dir m) -> dotless m.
Proof.
  intros dir m H I0. apply H. assert (G : exists p, path_join dir m = (p ++ m)%string).
  { unfold path_join. destruct m as [|c m]; [exists (match dir with "" => "" | _ => if String.eqb (substring (String.length dir - 1) 1 dir) "/" then dir else (dir ++ "/")%string end)|].
    - destruct dir as [|a dir]; auto. destruct (String.eqb _ _); auto. rewrite app_assoc_s. auto.
    - assert (Q : exists p, match dir with "" => String c m | _ => if String.eqb (substring (String.length dir - 1) 1 dir) "/" then (dir ++ String c m)%string else (dir ++ "/" ++ String c m)%string end = (p ++ String c m)%string).
      { destruct dir as [|a dir]; [exists ""; auto|]. destruct (String.eqb _ _); eauto. exists (String a dir ++ "/")%string. rewrite app_assoc_s. auto. }
      destruct c as [[|] [|] [|] [|] [|] [|] [|] [|] ]; auto; exists ""; auto. }
  destruct G as [p ->]. rewrite list_app, in_app_iff. auto.
Qed.

Section Read.
Context {T : Type}.
Lemma listed : forall listing (p q : string -> bool) (d : directory T) (P : string -> Prop), lists listing -> NoDup (map fst d) -> (forall n, p n = true /\ q n = true <-> P n) ->
  holds P d (flat_map (value d) (filter q (listing (filter p (map fst d))))).
Proof.
  intros listing p q d P LS N H. destruct (holds_names P (fun n => p n && q n)%bool d) as (l & A & B & C); auto; [intro n; rewrite andb_true_iff; apply H|]. exists l. repeat split; auto; try apply B; auto. rewrite <- C. apply flat_perm.
  eapply Permutation_trans; [apply filter_perm, LS|]. assert (E : forall m, filter q (filter p m) = filter (fun n => (p n && q n)%bool) m); [|rewrite E; auto]. induction m as [|a m IH]; auto. cbn. destruct (p a); cbn; rewrite ?IH; auto.
Qed.
Lemma filter_true : forall {A} (l : list A), filter (fun _ => true) l = l. Proof. induction l; cbn; congruence. Qed.

(** ** Reading after a run *)
(** The FITS files of any directory, after a run: every row of the survey once, and the rows of files that the run did not write. *)
Theorem C90_fits : forall listing listing' share none (in_tiles : T -> bool) dirname n b1 b2 sky skysupp d w r, lists listing -> lists listing' -> shares share -> (1 <= n)%nat -> catalogs b1 b2 sky skysupp ->
  NoDup (map fst d) -> write_all_skytargets true listing share sky skysupp n = (w, r) -> (forall x, In x d -> named ".fits" (fst x) -> ~ In (fst x) (map fst w) -> exists l, snd x = Fits l) ->
  r = Ok tt /\ exists out all old, read_sky_targets true listing' none in_tiles dirname "fits" (apply_writes w d) = Ok out /\ survey_rows sky skysupp all /\
    holds (fun m => named ".fits" m /\ ~ In m (map fst w)) d old /\ Permutation out (filter in_tiles (all ++ old)).
Proof.
  intros listing listing' share none in_tiles dirname n b1 b2 sky skysupp d w r LS LS' SH N CT ND W OLD. destruct (run_ok listing share n b1 b2 sky skysupp CT LS) as (t1 & t2 & W' & SR & NN). rewrite W' in W. injection W as <- <-. split; auto.
  destruct CT as [(_ & H1 & F1 & _) S2]. set (w := written share n b1 b2 t1 t2) in *.
  assert (S2' : t2 <> None -> (forall s, b2 <> String "." s) /\ (forall p, b2 <> (p ++ ".fits")%string) /\ b1 <> b2) by (intro Q; destruct skysupp as [dir|]; [destruct S2 as [(_ & H2 & F2 & _) D]; auto|destruct Q; apply NN; auto]).
  assert (Nw : NoDup (map fst w)) by (apply written_nodup; auto; intro Q; apply S2' in Q; tauto).
  assert (HW : holds (named ".fits") w (t1 ++ match t2 with None => [] | Some t => t end)).
  { unfold w, written in *. apply holds_app; auto; [apply saved_fits; auto|]. destruct t2 as [t2|]; [apply saved_fits; auto; apply S2'; discriminate|]. exists []. cbn. split; [constructor|]. split; [tauto|constructor]. }
  assert (TY : forall x, In x w -> named ".fits" (fst x) -> exists l, snd x = Fits l).
  { intros x X. unfold w, written in X. apply in_app_iff in X. destruct X as [X|X]; [apply (saved_type _ _ _ _ _ X F1)|]. destruct t2 as [t2|]; [|destruct X]. apply (saved_type _ _ _ _ _ X). apply S2'. discriminate. }
  set (d' := apply_writes w d) in *. assert (ND' : NoDup (map fst d')) by (apply nodup_apply; auto). set (p := fun n => (visible n && ends_with ".fits" n)%bool). set (fns := listing' (filter p (map fst d'))).
  assert (PM : Permutation fns (filter p (map fst d'))) by apply LS'.
  assert (RD : read_files true d' fns = Ok (flat_map (value d') fns)).
  { apply read_ok. intros m M. apply (Permutation_in _ PM) in M. apply filter_In in M. destruct M as [M Q]. apply named_spec in Q. apply in_map_iff in M. destruct M as ([m' f] & E & M). cbn in E. subst m'.
    assert (X : exists l, f = Fits l). { pose proof M as M'. apply in_apply in M'; auto. destruct M' as [M'|[M' NI] ]; [apply (TY _ M' Q)|apply (OLD _ M' Q NI)]. } destruct X as [l ->]. exists l. apply get_in; auto. }
  assert (NE : fns <> []).
  { intro E. rewrite E in PM. apply Permutation_nil in PM. assert (I0 : In (piece b1 0) (filter p (map fst d'))); [|rewrite PM in I0; destruct I0]. apply filter_In. split; [|apply named_spec, piece_named; auto].
    apply names_apply. left. unfold w, written. rewrite map_app. apply in_app_iff. left. rewrite saved_names by auto. apply in_app_iff. left. apply in_map, in_seq. lia. }
  set (old := flat_map (value d) (filter (fun m => (p m && negb (existsb (String.eqb m) (map fst w)))%bool) (map fst d))).
  assert (HO : holds (fun m => named ".fits" m /\ ~ In m (map fst w)) d old).
  { apply (holds_names (fun m => named ".fits" m /\ ~ In m (map fst w)) _ d); auto. intro m. rewrite andb_true_iff, negb_true_iff. unfold p. rewrite named_spec. split; intros [A B]; split; auto.
    - intro I0. assert (X : existsb (String.eqb m) (map fst w) = true); [|congruence]. apply existsb_exists. exists m. split; auto. apply String.eqb_refl.
    - apply not_true_is_false. intro X. apply existsb_exists in X. destruct X as (m' & I0 & E). apply String.eqb_eq in E. subst. auto. }
  exists (filter in_tiles (flat_map (value d') fns)), (t1 ++ match t2 with None => [] | Some t => t end), old. split; [|split; [auto|split; [auto|]]].
  - unfold read_sky_targets. cbn [String.eqb Ascii.eqb Bool.eqb]. fold p. fold fns. cbn [bind]. destruct fns as [|a l] eqn:E; [contradiction|]. rewrite RD. reflexivity.
  - apply filter_perm. apply (holds_same (named ".fits") d'); [|apply holds_apply; auto].
    pose proof (listed listing' p (fun _ => true) d' (named ".fits") LS' ND') as Q. rewrite filter_true in Q. apply Q. intro m. unfold p. rewrite named_spec. tauto.
Qed.
(** The same for the other type of files, in a path without dots. *)
Theorem C90_bigfile : forall listing listing' share none (in_tiles : T -> bool) dirname n b1 b2 sky skysupp d w r, lists listing -> lists listing' -> shares share -> (1 <= n)%nat -> catalogs b1 b2 sky skysupp ->
  NoDup (map fst d) -> dotless (path_join dirname b1) -> dotless (path_join dirname b2) -> write_all_skytargets true listing share sky skysupp n = (w, r) ->
  let picked m := dotless (path_join dirname m) in
  (forall x, In x d -> picked (fst x) -> ~ In (fst x) (map fst w) -> exists l, snd x = Big l) ->
  r = Ok tt /\ exists out all old, read_sky_targets true listing' none in_tiles dirname "bigfile" (apply_writes w d) = Ok out /\ survey_rows sky skysupp all /\
    holds (fun m => picked m /\ ~ In m (map fst w)) d old /\ Permutation out (filter in_tiles (all ++ old)).
Proof.
  intros listing listing' share none in_tiles dirname n b1 b2 sky skysupp d w r LS LS' SH N CT ND D1 D2 W picked OLD. destruct (run_ok listing share n b1 b2 sky skysupp CT LS) as (t1 & t2 & W' & SR & NN). rewrite W' in W. injection W as <- <-. split; auto.
  destruct CT as [(_ & H1 & F1 & _) S2]. set (w := written share n b1 b2 t1 t2) in *.
  assert (S2' : t2 <> None -> (forall s, b2 <> String "." s) /\ (forall p, b2 <> (p ++ ".fits")%string) /\ b1 <> b2) by (intro Q; destruct skysupp as [dir|]; [destruct S2 as [(_ & H2 & F2 & _) D]; auto|destruct Q; apply NN; auto]).
  assert (Nw : NoDup (map fst w)) by (apply written_nodup; auto; intro Q; apply S2' in Q; tauto).
  assert (NP : forall b i, ~ picked (piece b i)) by (intros b i Q; apply path_dotless in Q; apply Q; unfold piece; rewrite !list_app, !in_app_iff; right; right; right; left; auto).
  assert (HW : holds picked w (t1 ++ match t2 with None => [] | Some t => t end)).
  { unfold w, written in *. apply holds_app; auto; [apply saved_big; auto|]. destruct t2 as [t2|]; [apply saved_big; auto|]. exists []. cbn. split; [constructor|]. split; [tauto|constructor]. }
  assert (TY : forall x, In x w -> picked (fst x) -> exists l, snd x = Big l).
  { intros x X Q. apply path_dotless in Q. unfold w, written in X. apply in_app_iff in X. destruct X as [X|X]; [apply (saved_type _ _ _ _ _ X F1); auto|]. destruct t2 as [t2|]; [|destruct X]. apply (saved_type _ _ _ _ _ X); auto. apply S2'. discriminate. }
  set (d' := apply_writes w d) in *. assert (ND' : NoDup (map fst d')) by (apply nodup_apply; auto). set (q := fun n => Nat.eqb (List.length (split_on "." (path_join dirname n))) 1). set (fns := filter q (listing' (filter visible (map fst d')))).
  assert (PV : forall m, picked m -> visible m = true) by (intros m Q; apply path_dotless in Q; apply visible_spec; intros s ->; apply Q; cbn; auto).
  assert (SP : forall m, visible m = true /\ q m = true <-> picked m) by (intro m; unfold q; rewrite dots_spec; split; [tauto|auto]).
  assert (IN : forall m, In m fns <-> In m (map fst d') /\ picked m) by (intro m; unfold fns; rewrite filter_In, <- SP; split; [intros [A B]; apply (Permutation_in _ (LS' _)) in A; apply filter_In in A; tauto|intros (A & B & C); split; auto; apply (Permutation_in _ (Permutation_sym (LS' _))); apply filter_In; auto]).
  assert (RD : read_files false d' fns = Ok (flat_map (value d') fns)).
  { apply read_ok. intros m M. apply IN in M. destruct M as [M Q]. apply in_map_iff in M. destruct M as ([m' f] & E & M). cbn in E. subst m'.
    assert (X : exists l, f = Big l). { pose proof M as M'. apply in_apply in M'; auto. destruct M' as [M'|[M' NI] ]; [apply (TY _ M' Q)|apply (OLD _ M' Q NI)]. } destruct X as [l ->]. exists l. apply get_in; auto. }
  assert (NE : fns <> []).
  { intro E. assert (I0 : In b1 fns); [|rewrite E in I0; destruct I0]. apply IN. split; [|apply D1].
    apply names_apply. left. unfold w, written. rewrite map_app. apply in_app_iff. left. rewrite saved_names by auto. apply in_app_iff. right. left. auto. }
  set (old := flat_map (value d) (filter (fun m => (visible m && q m && negb (existsb (String.eqb m) (map fst w)))%bool) (map fst d))).
  assert (HO : holds (fun m => picked m /\ ~ In m (map fst w)) d old).
  { apply (holds_names (fun m => picked m /\ ~ In m (map fst w)) _ d); auto. intro m. rewrite andb_true_iff, negb_true_iff, andb_true_iff, SP. split; intros [A B]; split; auto.
    - intro I0. assert (X : existsb (String.eqb m) (map fst w) = true); [|congruence]. apply existsb_exists. exists m. split; auto. apply String.eqb_refl.
    - apply not_true_is_false. intro X. apply existsb_exists in X. destruct X as (m' & I0 & E). apply String.eqb_eq in E. subst. auto. }
  exists (filter in_tiles (flat_map (value d') fns)), (t1 ++ match t2 with None => [] | Some t => t end), old. split; [|split; [auto|split; [auto|]]].
  - unfold read_sky_targets. cbn [String.eqb Ascii.eqb Bool.eqb]. fold q. fold fns. cbn [bind]. destruct fns as [|a l] eqn:E; [contradiction|]. rewrite RD. reflexivity.
  - apply filter_perm. apply (holds_same picked d'); [|apply holds_apply; auto]. apply (listed listing' visible q d' picked LS' ND' SP).
Qed.

(** ** Histories of runs *)
Lemma survey_same : forall (sky : directory T) skysupp a b, survey_rows sky skysupp a -> survey_rows sky skysupp b -> Permutation a b.
Proof.
  intros sky skysupp a b (a1 & a2 & A1 & A2 & ->) (b1 & b2 & B1 & B2 & ->). apply Permutation_app; [eapply holds_same; eauto|]. destruct skysupp; [eapply holds_same; eauto|subst; auto].
Qed.
(** Names and types in a directory left by runs. *)
Lemma left_names : forall share (sky : directory T) skysupp b1 b2 most d, shares share -> catalogs b1 b2 sky skysupp -> left_by share sky skysupp most d ->
  NoDup (map fst d) /\ forall x, In x d -> exists b, (b = b1 \/ (b = b2 /\ skysupp <> None)) /\ ((exists i l, (i < most)%nat /\ x = (piece b i, Fits l)) \/ exists l, x = (b, Big l)).
Proof.
  intros share sky skysupp b1 b2 most d SH CT LB. induction LB as [|d listing n k w r LB [ND IH] LS N W].
  - split; [constructor|intros x []].
  - split; [apply nodup_apply; auto|]. destruct (run_ok listing share n b1 b2 sky skysupp CT LS) as (t1 & t2 & W' & _ & NN). rewrite W' in W. injection W as <- <-.
    assert (G : forall b t x, In x (saved share n b t) -> (exists i l, (i < most)%nat /\ x = (piece b i, Fits l)) \/ exists l, x = (b, Big l)).
    { intros b t [m f] X. unfold saved in X. apply in_app_iff in X. destruct X as [X|[X|[] ] ]; [left|right; eexists; eauto]. pose proof (in_combine_l _ _ _ _ X) as A. apply in_combine_r in X. apply in_map_iff in X, A. destruct X as (l & <- & _), A as (i & <- & I0). apply in_seq in I0. exists i, l. split; auto. lia. }
    assert (GW : forall x, In x (firstn k (written share n b1 b2 t1 t2)) -> exists b, (b = b1 \/ (b = b2 /\ skysupp <> None)) /\ ((exists i l, (i < most)%nat /\ x = (piece b i, Fits l)) \/ exists l, x = (b, Big l))).
    { intros x X. assert (X' : In x (written share n b1 b2 t1 t2)) by (rewrite <- (firstn_skipn k); apply in_app_iff; auto). unfold written in X'. apply in_app_iff in X'. destruct X' as [X'|X']; [exists b1; eauto|]. destruct t2 as [t2|]; [|destruct X']. exists b2. split; [|eauto]. right. split; auto. intro E. apply NN in E. discriminate. }
    revert GW. generalize (firstn k (written share n b1 b2 t1 t2)). clear - IH. intros w GW x X. revert d IH X. induction w as [|[m f] w IHw]; intros d IH X; [apply IH; auto|].
    apply (IHw (fun y Y => GW y (or_intror Y)) (set_file m f d)); auto. clear - IH GW. intros y Y. assert (Y' : In y d \/ y = (m, f)). { revert Y. clear. induction d as [|[k g] d IH]; cbn; [intros [E|[] ]; auto|]. destruct (String.eqb_spec k m) as [->|D]; cbn; intros [E|E]; auto. destruct (IH E); auto. }
    destruct Y' as [Y'| ->]; [auto|]. apply GW. left. auto.
Qed.
(** Whatever runs were made, interrupted or not, with no more files, a complete run sets things right for both types of files. *)
Theorem C90_rerun : forall listing listing' share none (in_tiles : T -> bool) dirname n b1 b2 sky skysupp most d w r, lists listing -> lists listing' -> shares share -> (1 <= n)%nat -> (most <= n)%nat -> catalogs b1 b2 sky skysupp ->
  left_by share sky skysupp most d -> write_all_skytargets true listing share sky skysupp n = (w, r) ->
  exists all out, survey_rows sky skysupp all /\ read_sky_targets true listing' none in_tiles dirname "fits" (apply_writes w d) = Ok out /\ Permutation out (filter in_tiles all) /\
    (dotless (path_join dirname b1) -> dotless (path_join dirname b2) -> exists out', read_sky_targets true listing' none in_tiles dirname "bigfile" (apply_writes w d) = Ok out' /\ Permutation out' (filter in_tiles all)).
Proof.
  intros listing listing' share none in_tiles dirname n b1 b2 sky skysupp most d w r LS LS' SH N M CT LB W. destruct (left_names share sky skysupp b1 b2 most d SH CT LB) as [ND NM].
  assert (IW : forall x, In x d -> In (fst x) (map fst w)).
  { destruct (run_ok listing share n b1 b2 sky skysupp CT LS) as (t1 & t2 & W' & _ & NN). rewrite W' in W. injection W as <- <-. intros x X. destruct (NM x X) as (b & B & F). unfold written. rewrite map_app, in_app_iff, saved_names by auto.
    assert (Q : In (fst x) (map (piece b) (seq 0 n) ++ [b])). { apply in_app_iff. destruct F as [(i & l & I0 & ->)|(l & ->)]; cbn [fst]; [left; apply in_map, in_seq; lia|right; left; auto]. }
    destruct B as [-> |[-> S] ]; [left; auto|]. right. destruct t2 as [t2|]; [rewrite saved_names by auto; auto|]. destruct S. apply NN. auto. }
  assert (NO : forall (P : string -> Prop) old, holds (fun m => P m /\ ~ In m (map fst w)) d old -> old = []).
  { intros P old (l & _ & I0 & PM). destruct l as [|x l]; [apply Permutation_nil, Permutation_sym; auto|]. destruct (proj1 (I0 x) (or_introl eq_refl)) as (A & _ & B). destruct B. auto. }
  destruct (C90_fits listing listing' share none in_tiles dirname n b1 b2 sky skysupp d w r LS LS' SH N CT ND W) as (_ & out & all & old & RD & SR & HO & PM); [intros x X _ Q; destruct Q; auto|]. rewrite (NO _ _ HO), app_nil_r in PM.
  exists all, out. repeat split; auto. intros D1 D2. destruct (C90_bigfile listing listing' share none in_tiles dirname n b1 b2 sky skysupp d w r LS LS' SH N CT ND D1 D2 W) as (_ & out' & all' & old' & RD' & SR' & HO' & PM'); [intros x X _ Q; destruct Q; auto|].
  rewrite (NO _ _ HO'), app_nil_r in PM'. exists out'. split; auto. eapply Permutation_trans; [apply PM'|]. apply filter_perm. eapply survey_same; eauto.
Qed.
End Read.
Print Assumptions C90_fits.
Print Assumptions C90_bigfile.
Print Assumptions C90_rerun.
