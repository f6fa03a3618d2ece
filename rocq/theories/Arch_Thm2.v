(** C90, continued: where the archive is not what was asked for. *)
Require Import Lia ZArith String Ascii List Bool Permutation.
From Verif Require Import Base Tile_Model Tile_Thm SV3_Model SV3_Thm Arch_Model Arch_Spec Arch_Proof Arch_Proof2 Arch_Thm.
Import ListNotations.
Open Scope string_scope.
Open Scope list_scope.

Lemma combine_app : forall {A B} (a a' : list A) (b b' : list B), List.length a = List.length b -> combine (a ++ a') (b ++ b') = combine a b ++ combine a' b'.
Proof. induction a as [|x a IH]; intros a' [|y b] b' H; cbn in *; try discriminate; auto. f_equal. apply IH. lia. Qed.

(** ** Fewer files than before *)
(** After a run with [n1] files, one with fewer leaves the last files in place, and their rows are read again. *)
Theorem C90_fewer : forall {T} listing1 listing2 listing' share none (in_tiles : T -> bool) dirname n1 n2 b sky w1 r1 w2 r2, lists listing1 -> lists listing2 -> lists listing' -> shares share -> (1 <= n2 <= n1)%nat -> survey b sky ->
  write_all_skytargets true listing1 share sky None n1 = (w1, r1) -> write_all_skytargets true listing2 share sky None n2 = (w2, r2) ->
  exists all t out, survey_rows sky None all /\ Permutation t all /\ read_sky_targets true listing' none in_tiles dirname "fits" (apply_writes w2 (apply_writes w1 [])) = Ok out /\
    Permutation out (filter in_tiles (all ++ concat (skipn n2 (share n1 t)))).
Proof.
  intros T listing1 listing2 listing' share none in_tiles dirname n1 n2 b sky w1 r1 w2 r2 L1 L2 L' SH N SV W1 W2. assert (CT : catalogs b b sky None) by (split; cbn; auto).
  destruct (run_ok listing1 share n1 b b sky None CT L1) as (t & t' & X & SR & NN). rewrite X in W1. injection W1 as <- <-. assert (t' = None) by (apply NN; auto). subst t'. clear NN X. rewrite app_nil_r in SR. unfold written. rewrite app_nil_r.
  pose proof SV as (_ & H1 & F1 & _). assert (N1 : NoDup (map fst (saved share n1 b t))) by (apply saved_nodup; auto; lia). set (d := apply_writes (saved share n1 b t) []). assert (ND : NoDup (map fst d)) by (apply nodup_apply; constructor).
  assert (IND : forall x, In x d <-> In x (saved share n1 b t)) by (intro x; unfold d; rewrite in_apply by (auto; constructor); cbn; tauto).
  assert (MW : map fst w2 = map (piece b) (seq 0 n2) ++ [b]).
  { destruct (run_ok listing2 share n2 b b sky None CT L2) as (s & s' & X & _ & NN). rewrite X in W2. injection W2 as <- <-. assert (s' = None) by (apply NN; auto). subst s'. unfold written. rewrite app_nil_r. apply saved_names; auto. lia. }
  destruct (C90_fits listing2 listing' share none in_tiles dirname n2 b b sky None d w2 r2 L2 L' SH ltac:(lia) CT ND W2) as (_ & out & all & old & RD & SR' & HO & PM).
  { intros x X Q _. apply IND in X. apply (saved_type _ _ _ _ _ X F1); auto. }
  exists all, t, out. split; auto. split; [eapply survey_same; eauto|]. split; auto. eapply Permutation_trans; [apply PM|]. apply filter_perm, Permutation_app_head. eapply holds_same; [apply HO|].
  destruct (SH n1 t ltac:(lia)) as [LN _]. set (parts := share n1 t) in *. exists (combine (map (piece b) (seq n2 (n1 - n2))) (map Fits (skipn n2 parts))).
  assert (LS : List.length (map (piece b) (seq n2 (n1 - n2))) = List.length (map (@Fits T) (skipn n2 parts))) by (rewrite !map_length, seq_length, skipn_length; lia).
  assert (SE : saved share n1 b t = combine (map (piece b) (seq 0 n2)) (map Fits (firstn n2 parts)) ++ combine (map (piece b) (seq n2 (n1 - n2))) (map Fits (skipn n2 parts)) ++ [(b, Big t)]).
  { unfold saved. fold parts. replace (seq 0 n1) with (seq 0 n2 ++ seq n2 (n1 - n2)) by (rewrite <- seq_app; f_equal; lia). rewrite <- (firstn_skipn n2 parts) at 1. rewrite !map_app, combine_app, app_assoc; auto. rewrite !map_length, seq_length, firstn_length. lia. }
  split; [|split].
  - rewrite combine_names by auto. apply FinFun.Injective_map_NoDup; [|apply seq_NoDup]. intros i j E. apply piece_inj in E. tauto.
  - intros [m f]. rewrite IND, SE, !in_app_iff. cbn [fst In]. rewrite MW, in_app_iff. split.
    + intro I0. split; auto. apply in_combine_l in I0. apply in_map_iff in I0. destruct I0 as (i & <- & I0). split; [apply piece_named; auto|]. intros [J|[J|[] ] ].
      * apply in_map_iff in J. destruct J as (j & E & J). apply piece_inj in E. destruct E as [_ ->]. apply in_seq in I0, J. lia.
      * symmetry in J. revert J. apply piece_not_base. auto.
    + intros [[I0|[I0|[E|[] ] ] ] [Q NI] ]; auto.
      * destruct NI. left. apply in_combine_l in I0. auto.
      * injection E as <- <-. destruct NI. right. left. auto.
  - rewrite combine_rows by (rewrite map_length, seq_length, skipn_length; lia). auto.
Qed.
Print Assumptions C90_fewer.

(** Rows dealt one by one, the rest in the last file. *)
Fixpoint deal {T} (n : nat) (l : list T) : list (list T) :=
  match n with
  | O => []
  | S n => match n with O => [l] | S _ => match l with [] => [] :: deal n [] | a :: l => [a] :: deal n l end end
  end.
Lemma deal_shares : forall {T}, shares (@deal T).
Proof.
  intros T n l N. revert l. induction n as [|n IH]; [lia|]. intro l. destruct n as [|n]; [cbn; rewrite app_nil_r; auto|]. destruct l as [|a l]; change (deal (S (S n)) ?l) with (match l with [] => [] :: deal (S n) [] | a :: l' => [a] :: deal (S n) l' end); cbn [List.length concat app].
  - destruct (IH ltac:(lia) []) as [A B]. rewrite A, B. auto.
  - destruct (IH ltac:(lia) l) as [A B]. rewrite A, B. auto.
Qed.
Definition case_sky : directory nat := [("skies-hp-0.fits", Fits [1; 2]); ("README", Big [7]); ("skies-hp-1.fits", Fits [3])]%nat.
Definition case_supp : directory nat := [("skies-supp-hp-5.fits", Fits [4; 5])]%nat.
Definition plain (l : list string) : list string := l.
Lemma plain_lists : lists plain. Proof. intro l. constructor 1 || apply Permutation_refl. Qed.
Lemma no_dash : forall s, (forallb (fun c => negb (Ascii.eqb c "-")) (list_ascii_of_string s) = true) -> ~ In "-"%char (list_ascii_of_string s).
Proof. intros s H I0. rewrite forallb_forall in H. apply H in I0. discriminate. Qed.
Lemma not_fits : forall s, ends_with ".fits" s = false -> forall p, s <> (p ++ ".fits")%string.
Proof. intros s H p E. assert (X : ends_with ".fits" s = true) by (apply ends_with_spec; eauto). congruence. Qed.
Lemma case_sky_ok : survey "skies" case_sky.
Proof.
  split; [discriminate|]. split; [discriminate|]. split; [apply not_fits; reflexivity|]. split; [repeat constructor; cbn; intuition discriminate|]. split.
  - eexists. split; [left; reflexivity|]. apply named_spec. reflexivity.
  - intros x [ <-|[ <-|[ <-|[] ] ] ] H; cbn [fst snd] in *.
    + split; [eauto|]. exists "hp", "0.fits". split; [apply no_dash; reflexivity|]. split; [apply no_dash; reflexivity|reflexivity].
    + apply named_spec in H. discriminate.
    + split; [eauto|]. exists "hp", "1.fits". split; [apply no_dash; reflexivity|]. split; [apply no_dash; reflexivity|reflexivity].
Qed.
Lemma case_supp_ok : survey "skies-supp" case_supp.
Proof.
  split; [discriminate|]. split; [discriminate|]. split; [apply not_fits; reflexivity|]. split; [repeat constructor; cbn; intuition discriminate|]. split.
  - eexists. split; [left; reflexivity|]. apply named_spec. reflexivity.
  - intros x [ <-|[] ] H; cbn [fst snd] in *. split; [eauto|]. exists "hp", "5.fits". split; [apply no_dash; reflexivity|]. split; [apply no_dash; reflexivity|reflexivity].
Qed.
Theorem C90_fewer_refuted : exists (share : nat -> list nat -> list (list nat)) sky b w1 w2 out, shares share /\ survey b sky /\ write_all_skytargets true plain share sky None 3 = (w1, Ok tt) /\ write_all_skytargets true plain share sky None 1 = (w2, Ok tt) /\
  read_sky_targets true plain (Ok []) (fun _ => true) "/sky" "fits" (apply_writes w2 (apply_writes w1 [])) = Ok out /\ ~ NoDup out /\ forall all, survey_rows sky None all -> NoDup all.
Proof.
  exists deal, case_sky, "skies". eexists _, _, [1; 2; 3; 2; 3]%nat. split; [apply deal_shares|]. split; [apply case_sky_ok|]. split; [reflexivity|]. split; [reflexivity|]. split; [reflexivity|]. split.
  - intro H. inversion H as [|? ? _ H1]; subst. inversion H1 as [|? ? NI _]; subst. apply NI. cbn. auto.
  - intros all SR. destruct (run_ok plain deal 1 "skies" "skies" case_sky None (Logic.conj case_sky_ok Logic.I) plain_lists) as (t & t' & X & SR' & NN). assert (t' = None) by (apply NN; auto). subst t'. rewrite app_nil_r in SR'.
    assert (E : t = [1; 2; 3]%nat) by (vm_compute in X; injection X; auto). eapply Permutation_NoDup; [eapply survey_same; eauto|]. rewrite E. repeat constructor; cbn; intuition discriminate.
Qed.
Print Assumptions C90_fewer_refuted.

(** ** Catalogs of one name *)
(** When the two catalogs of the survey have the same name, the files of the first are lost. *)
Theorem C90_same_name_refuted : forall {T} listing listing' share none (in_tiles : T -> bool) dirname n b sky dir w r, lists listing -> lists listing' -> shares share -> (1 <= n)%nat -> survey b sky -> survey b dir ->
  write_all_skytargets true listing share sky (Some dir) n = (w, r) ->
  r = Ok tt /\ exists out kept, read_sky_targets true listing' none in_tiles dirname "fits" (apply_writes w []) = Ok out /\ holds (named "fits") dir kept /\ Permutation out (filter in_tiles kept).
Proof.
  intros T listing listing' share none in_tiles dirname n b sky dir w r LS LS' SH N S1 S2 W. unfold write_all_skytargets in W. destruct (save_ok listing share n b sky S1 LS) as (t1 & H1 & W1). destruct (save_ok listing share n b dir S2 LS) as (t2 & H2 & W2). rewrite W1, W2 in W. injection W as <- <-. split; auto.
  set (d := apply_writes (saved share n b t1) []). replace (apply_writes (saved share n b t1 ++ saved share n b t2) []) with (apply_writes (saved share n b t2) d) by (unfold d, apply_writes; rewrite fold_left_app; auto).
  assert (ND : NoDup (map fst d)) by (apply nodup_apply; constructor). pose proof S1 as (_ & _ & F1 & _).
  assert (IW : forall x, In x d -> In (fst x) (map fst (saved share n b t2))).
  { intros x X. unfold d in X. apply in_apply in X; [|apply saved_nodup; auto|constructor]. destruct X as [X|[ [] _] ]. apply (in_map fst) in X. rewrite saved_names in X |- * by auto. auto. }
  assert (RUN : write_all_skytargets true listing share dir None n = (saved share n b t2, Ok tt)) by (unfold write_all_skytargets; rewrite W2; auto).
  destruct (C90_fits listing listing' share none in_tiles dirname n b b dir None d _ _ LS LS' SH N (Logic.conj S2 Logic.I) ND RUN) as (_ & out & all & old & RD & SR & HO & PM); [intros x X _ Q; destruct Q; auto|].
  destruct SR as (a & b' & A & -> & ->). exists out, a. split; auto. split; auto. destruct HO as (l & _ & I0 & P0). destruct l as [|x l]; [|destruct (proj1 (I0 x) (or_introl eq_refl)) as (X & _ & Q); destruct Q; auto].
  apply Permutation_sym, Permutation_nil in P0. subst old. rewrite !app_nil_r in PM. auto.
Qed.
Print Assumptions C90_same_name_refuted.

(** ** Paths with a dot, unknown types, no communicator *)
(** With a dot anywhere in the path of the directory, no file of the second type is found, whatever the directory holds. *)
Theorem C90_dot_refuted : forall {T} listing none (in_tiles : T -> bool) dirname d, lists listing -> ~ dotless dirname -> (forall x s, In x d -> fst x <> String "/" s) ->
  read_sky_targets true listing none in_tiles dirname "bigfile" d = (do rows <- none; Ok (filter in_tiles rows)).
Proof.
  intros T listing none in_tiles dirname d LS ND NS. unfold read_sky_targets. cbn [String.eqb Ascii.eqb Bool.eqb]. set (fns := filter _ (listing _)).
  assert (E : fns = []); [|rewrite E; reflexivity]. destruct fns as [|m l] eqn:F; auto. exfalso. assert (M : In m fns) by (rewrite F; left; auto). unfold fns in M. apply filter_In in M. destruct M as [M Q]. apply dots_spec in Q. apply (Permutation_in _ (LS _)) in M. apply filter_In in M. destruct M as [M _].
  apply in_map_iff in M. destruct M as (x & <- & X). apply ND. intro I0. apply Q. clear Q F. assert (G : exists q, path_join dirname (fst x) = (dirname ++ q)%string).
  { assert (G : path_join dirname (fst x) = match dirname with "" => fst x | _ => if String.eqb (substring (String.length dirname - 1) 1 dirname) "/" then (dirname ++ fst x)%string else (dirname ++ "/" ++ fst x)%string end).
    { pose proof (NS x) as NS'. destruct (fst x) as [|c s]; [destruct dirname; auto|]. unfold path_join. destruct c as [[|] [|] [|] [|] [|] [|] [|] [|] ]; try reflexivity. destruct (NS' s X); auto. }
    rewrite G. destruct dirname as [|a dirname]; [eexists; reflexivity|]. destruct (String.eqb _ _); eauto. }
  destruct G as [q ->]. rewrite list_app, in_app_iff. auto.
Qed.
Print Assumptions C90_dot_refuted.
(** Other types of files are refused with NameError, and the default communicator with AttributeError, before anything is written; so is a first source without files, with IndexError. *)
Theorem C90_errors : forall {T} listing (share : nat -> list T -> list (list T)) none (in_tiles : T -> bool) dirname filetype d sky skysupp n,
  (filetype <> "fits" -> filetype <> "bigfile" -> read_sky_targets true listing none in_tiles dirname filetype d = Err NameError) /\
  read_sky_targets false listing none in_tiles dirname filetype d = Err AttributeError /\ write_all_skytargets false listing share sky skysupp n = ([], Err AttributeError) /\
  (forall w r, lists listing -> (forall x, In x sky -> ~ named "fits" (fst x)) -> write_all_skytargets true listing share sky skysupp n = (w, r) -> w = [] /\ r = Err IndexError).
Proof.
  intros T listing share none in_tiles dirname filetype d sky skysupp n. split; [|split; [|split] ]; auto.
  - intros A B. unfold read_sky_targets. destruct (String.eqb_spec filetype "fits"); [contradiction|]. destruct (String.eqb_spec filetype "bigfile"); [contradiction|]. reflexivity.
  - intros w r LS NN W. unfold write_all_skytargets, save_directory in W. set (fns := listing _) in W. assert (E : fns = []).
    { destruct fns as [|m l] eqn:F; auto. exfalso. assert (M : In m fns) by (rewrite F; left; auto). apply (Permutation_in _ (LS _)) in M. apply filter_In in M. destruct M as [M Q]. apply named_spec in Q. apply in_map_iff in M. destruct M as (x & <- & X). apply (NN x X Q). }
    rewrite E in W. injection W as <- <-. auto.
Qed.
Print Assumptions C90_errors.

(** ** A case: two catalogs, a run stopped after three files, then a complete one *)
Example C90_case : catalogs "skies" "skies-supp" case_sky (Some case_supp) /\ dotless (path_join "/sky" "skies") /\
  let w := fst (write_all_skytargets true plain deal case_sky (Some case_supp) 2) in List.length w = 6%nat /\ left_by deal case_sky (Some case_supp) 2 (apply_writes (firstn 3 w) []) /\
  read_sky_targets true plain (Ok []) Nat.even "/sky" "fits" (apply_writes w (apply_writes (firstn 3 w) [])) = Ok [2; 4]%nat /\
  read_sky_targets true plain (Ok []) Nat.even "/sky" "bigfile" (apply_writes w (apply_writes (firstn 3 w) [])) = Ok [2; 4]%nat /\ ~ dotless "/home/a.b/sky".
Proof.
  split; [split; [apply case_sky_ok|split; [apply case_supp_ok|discriminate] ]|]. split; [apply dots_spec; reflexivity|]. cbv zeta. split; [reflexivity|]. split; [|split; [reflexivity|split; [reflexivity|] ] ].
  - eapply (left_run deal case_sky (Some case_supp) 2 [] plain 2 3); [constructor|apply plain_lists|lia|]. apply surjective_pairing.
  - intro H. apply dots_spec in H. discriminate.
Qed.
