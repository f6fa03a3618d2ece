(** Theorems C80: catalogs and the mock they come from. *)
Require Import Reals ZArith String List Bool Lia Lra.
From Verif Require Import Base Vec3 Isometry_Model Sky_Model Cutsky_Model Box_Model Rsd_Model Remap_Model Blind_Model Alias_Model Alias_Spec Alias_Thm Rsd_Spec Rsd_Thm.
Import ListNotations.
Open Scope R_scope.

(** From [h], [m] writes only to arrays made after [n], and to [x]; [Q] holds of its result and the memory it leaves. *)
Definition wp {A} (x : option nat) (n : nat) (m : M A) (h : memory) (Q : A -> memory -> Prop) : Prop :=
  let '(h', r) := m h in (next h <= next h')%nat /\ (forall p, (p < n)%nat -> x <> Some p -> cells h' p = cells h p) /\ (forall a, r = Ok a -> Q a h').
Lemma wp_bind : forall A B x n (m : M A) (f : A -> M B) h Q R, wp x n m h Q -> (forall a h1, (next h <= next h1)%nat -> Q a h1 -> wp x n (f a) h1 R) -> wp x n (mbind m f) h R.
Proof.
  intros A B x n m f h Q R Hm Hf. unfold wp, mbind in *. destruct (m h) as [h1 [a|e]].
  - destruct Hm as (N & K & Qa). specialize (Hf a h1 N (Qa a eq_refl)). destruct (f a h1) as [h2 r]. destruct Hf as (N2 & K2 & R2).
    split; [lia|]. split; [|exact R2]. intros p Hp Hx. rewrite K2 by assumption. apply K; assumption.
  - destruct Hm as (N & K & _). split; [exact N|]. split; [exact K|discriminate].
Qed.
Lemma wp_ret : forall A x n (a : A) h (Q : A -> memory -> Prop), Q a h -> wp x n (ret a) h Q.
Proof. intros A x n a h Q H. unfold wp. cbn. repeat split; auto. intros b E. assert (a = b) as <- by congruence. exact H. Qed.
Lemma wp_lift : forall A x n (r : result A) h, wp x n (lift r) h (fun _ _ => True).
Proof. intros. unfold wp. cbn. repeat split; auto. Qed.
Lemma wp_load : forall x n p h, wp x n (load p) h (fun _ _ => True).
Proof. intros. unfold wp. cbn. repeat split; auto. Qed.
Lemma wp_value : forall x n g h, wp x n (value g) h (fun _ _ => True).
Proof. intros x n [p|a] h; cbn [value]; [apply wp_load|apply wp_ret; exact I]. Qed.
Lemma wp_alloc : forall x n a h, (n <= next h)%nat -> wp x n (alloc a) h (fun p h' => (n <= p < next h')%nat).
Proof.
  intros x n a h L. unfold wp. cbn. split; [lia|]. split.
  - intros p Hp _. destruct (Nat.eqb_spec p (next h)); [lia|reflexivity].
  - intros p E. assert (next h = p) as <- by congruence. lia.
Qed.
Lemma wp_inplace : forall x n p f h, (n <= p)%nat \/ x = Some p -> wp x n (inplace p f) h (fun _ _ => True).
Proof.
  intros x n p f h H. unfold wp. cbn. destruct (a_type (cells h p)); cbn; [repeat split; auto|]. destruct (f (a_content (cells h p))); cbn; [|repeat split; auto].
  split; [lia|]. split; [|auto]. intros q Hq Hx. destruct (Nat.eqb_spec q p); [subst; destruct H; [lia|congruence]|reflexivity].
Qed.
Definition inside (n : nat) (p : nat) (h : memory) : Prop := (n <= p < next h)%nat.
Ltac wp1 := lazymatch goal with
  | |- wp _ _ (mbind (value _) _) _ _ => eapply wp_bind; [apply wp_value | intros ? ? ? ?; cbv beta in *]
  | |- wp _ _ (mbind (load _) _) _ _ => eapply wp_bind; [apply wp_load | intros ? ? ? ?; cbv beta in *]
  | |- wp _ _ (mbind (lift _) _) _ _ => eapply wp_bind; [apply wp_lift | intros ? ? ? ?; cbv beta in *]
  | |- wp _ _ (mbind (floats _) _) _ _ => eapply wp_bind; [apply wp_alloc; lia | intros ? ? ? ?; cbv beta in *]
  | |- wp _ _ (mbind (alloc _) _) _ _ => eapply wp_bind; [apply wp_alloc; lia | intros ? ? ? ?; cbv beta in *]
  | |- wp _ _ (mbind (inplace _ _) _) _ _ => eapply wp_bind; [apply wp_inplace; first [left; lia | right; reflexivity] | intros ? ? ? ?; cbv beta in *]
  | |- wp _ _ (ret _) _ _ => apply wp_ret; unfold inside; cbn; try lia
  | |- wp _ _ (floats _) _ _ => apply wp_alloc; lia
  | |- wp _ _ (alloc _) _ _ => apply wp_alloc; lia
  end.
Lemma wp_iso : forall x n s ti g h, (n <= next h)%nat -> wp x n (apply_isometry s ti g) h (inside n).
Proof.
  intros x n s ti g h L. unfold apply_isometry. do 3 wp1.
  eapply wp_bind with (Q := fun _ _ => True); [destruct ti; [apply wp_ret; exact I|apply wp_inplace; left; lia]|]. intros. wp1.
Qed.
Lemma wp_displacement : forall x n p v f los h, (n <= next h)%nat -> wp x n (displacement p v f los) h (inside n).
Proof.
  intros x n p v f los h L. unfold displacement. do 4 wp1. eapply wp_bind with (Q := inside n); [unfold projection; repeat wp1|]. unfold inside. intros. repeat wp1.
Qed.
Lemma wp_copy : forall x n p h, (n <= next h)%nat -> wp x n (column true p) h (inside n).
Proof. intros. unfold column. repeat wp1. Qed.
Lemma wp_export : forall x n m b h, (n <= next h)%nat -> wp x n (export true m b) h (fun c h => inside n (co_position c) h /\ inside n (co_vector c) h /\ inside n (co_boxsize c) h).
Proof.
  intros. unfold export. eapply wp_bind; [apply wp_copy; lia|]. intros. eapply wp_bind; [apply wp_copy; lia|]. intros. unfold inside in *. repeat wp1.
Qed.
Lemma wp_sample : forall x n p d w h, (n <= next h)%nat -> wp x n (mock_sample p d w) h (fun m h => inside n (mo_position m) h /\ inside n (mo_disps m) h).
Proof. intros. unfold mock_sample. repeat wp1. Qed.
Lemma wp_move : forall x n s c h, (n <= next h)%nat -> wp x n (catalog_move s c) h (fun d h => inside n (co_position d) h /\ inside n (co_vector d) h /\ co_boxsize d = co_boxsize c).
Proof.
  intros. unfold catalog_move. eapply wp_bind; [apply wp_iso; lia|]. intros. eapply wp_bind; [apply wp_iso; lia|]. unfold inside in *. intros. wp1.
Qed.
Lemma wp_rsd : forall n m f los h, (n <= next h)%nat -> wp (Some (mo_position m)) n (mock_set_rsd m f los) h (fun _ _ => True).
Proof.
  intros. unfold mock_set_rsd. eapply wp_bind; [apply wp_displacement; lia|]. intros. wp1. apply wp_inplace. right. reflexivity.
Qed.
Lemma wp_pad : forall x n c v h, (n <= next h)%nat -> wp x n (let* b := pad_box true v c in let* p := load (co_position c) in let* v := load (co_vector c) in
    let* p := alloc p in let* v := alloc v in ret (CatalogObject p v b)) h (fun c h => inside n (co_position c) h /\ inside n (co_vector c) h /\ inside n (co_boxsize c) h).
Proof.
  intros. eapply wp_bind with (Q := inside n).
  - unfold pad_box. eapply wp_bind; [apply wp_copy; lia|]. unfold inside. intros. repeat wp1.
  - unfold inside. intros. repeat wp1.
Qed.

Definition within (h : memory) (c : catalog_object) : Prop := (co_position c < next h /\ co_vector c < next h /\ co_boxsize c < next h)%nat.
Definition apart (m : option mock_object) (c : catalog_object) : Prop :=
  match m with None => True | Some m => co_position c <> mo_position m /\ co_vector c <> mo_position m /\ co_boxsize c <> mo_position m end.
Definition sound (h : memory) (w : world) : Prop :=
  Forall (fun c => within h c /\ apart (w_mock w) c) (w_catalogs w) /\ match w_mock w with Some m => (mo_position m < next h)%nat /\ (mo_disps m < next h)%nat | None => True end.
Lemma replace_In : forall A i (a b : A) l, In b (replace i a l) -> b = a \/ In b l.
Proof. intros A. induction i as [|i IH]; intros a b [|c l]; cbn; try tauto; [intuition|]. intros [->|H]; [auto|]. destruct (IH _ _ _ H); auto. Qed.
Lemma replace_other : forall A i j (a : A) l, i <> j -> nth_error (replace i a l) j = nth_error l j.
Proof. intros A. induction i as [|i IH]; intros [|j] a [|c l] D; cbn; try reflexivity; try congruence. apply IH. congruence. Qed.
Lemma seen_kept : forall h h' w w' i x, Forall (within h) (w_catalogs w) ->
  (forall p, (p < next h)%nat -> x <> Some p -> cells h' p = cells h p) -> (forall c, In c (w_catalogs w) -> match x with Some p => co_position c <> p /\ co_vector c <> p /\ co_boxsize c <> p | None => True end) ->
  nth_error (w_catalogs w') i = nth_error (w_catalogs w) i -> seen h' w' i = seen h w i.
Proof.
  intros h h' w w' i x F K X E. unfold seen. rewrite E. destruct (nth_error (w_catalogs w) i) as [c|] eqn:N; [|reflexivity].
  apply nth_error_In in N. rewrite Forall_forall in F. specialize (F c N). specialize (X c N). unfold within in F.
  rewrite !K; try lia; try reflexivity; destruct x; try discriminate; intro Z; injection Z; intros; subst; intuition.
Qed.
Lemma sound_within : forall h w, sound h w -> Forall (within h) (w_catalogs w).
Proof. intros h w [F _]. eapply Forall_impl; [|exact F]. cbn. tauto. Qed.
Lemma sound_more : forall h h' w, sound h w -> (next h <= next h')%nat -> sound h' w.
Proof.
  intros h h' w [F G] L. split; [|destruct (w_mock w); [lia|exact I]]. eapply Forall_impl; [|exact F]. cbn. unfold within. intros c [W A]. split; [lia|exact A].
Qed.
Lemma add_catalog : forall h h' m l c, sound h (World m l) -> (next h <= next h')%nat -> inside (next h) (co_position c) h' -> inside (next h) (co_vector c) h' -> inside (next h) (co_boxsize c) h' ->
  sound h' (World m (l ++ [c])).
Proof.
  intros h h' m l c S L A B C. pose proof (sound_more h h' _ S L) as S'. destruct S as [_ G]. destruct S' as [F' G']. split; [|exact G'].
  cbn in *. apply Forall_app. split; [exact F'|]. constructor; [|constructor]. unfold inside, within, apart in *. split; [lia|]. destruct m; [lia|exact I].
Qed.
Lemma act_sound : forall a h w, sound h w -> let '(h', w') := act true a w h in
  sound h' w' /\ forall i, (forall s, a <> Move i s) -> (i < List.length (w_catalogs w))%nat -> seen h' w' i = seen h w i.
Proof.
  intros a h [m l] S. pose proof (sound_within _ _ S) as W. destruct a as [position disps wrapped|f los|boxsize|i s|i factors]; cbn [act w_mock w_catalogs].
  - pose proof (wp_sample None (next h) position disps wrapped h (Nat.le_refl _)) as P. unfold wp in P. destruct (mock_sample position disps wrapped h) as [h' r]. destruct P as (N & K & Q).
    destruct r as [m'|e].
    + destruct (Q m' eq_refl) as (Q1 & Q2). unfold inside in *. split.
      * destruct S as [F _]. split; cbn; [|lia]. eapply Forall_impl; [|exact F]. cbn. unfold within, apart. intros c [A _]. lia.
      * intros i _ _. eapply seen_kept with (x := None); eauto; cbn; auto.
    + split; [eapply sound_more; eassumption|]. intros i _ _. eapply seen_kept with (x := None); eauto; cbn; auto.
  - destruct m as [m|]; [|auto]. pose proof (wp_rsd (next h) m f los h (Nat.le_refl _)) as P. unfold wp in P. destruct (mock_set_rsd m f los h) as [h' r]. destruct P as (N & K & Q). cbn [fst].
    split; [eapply sound_more; eassumption|]. intros i _ _. eapply seen_kept with (x := Some (mo_position m)); eauto.
    intros c Hc. destruct S as [F _]. rewrite Forall_forall in F. apply F in Hc. destruct Hc as [_ Hc]. exact Hc.
  - destruct m as [m|]; [|auto]. pose proof (wp_export None (next h) m boxsize h (Nat.le_refl _)) as P. unfold wp in P. destruct (export true m boxsize h) as [h' r]. destruct P as (N & K & Q).
    destruct r as [c|e].
    + destruct (Q c eq_refl) as (A & B & C). split; [eapply add_catalog; eassumption|]. intros i _ L. eapply seen_kept with (x := None); eauto; cbn; auto. apply nth_error_app1. exact L.
    + split; [eapply sound_more; eassumption|]. intros i _ _. eapply seen_kept with (x := None); eauto; cbn; auto.
  - destruct (nth_error l i) as [c|] eqn:E; [|auto]. pose proof (wp_move None (next h) s c h (Nat.le_refl _)) as P. unfold wp in P. destruct (catalog_move s c h) as [h' r]. destruct P as (N & K & Q).
    destruct r as [d|e].
    + destruct (Q d eq_refl) as (A & B & C). split.
      * destruct (sound_more _ _ _ S N) as [F G]. split; [|exact G]. cbn in *. apply Forall_forall. intros b Hb. rewrite Forall_forall in F. apply replace_In in Hb. destruct Hb as [->|Hb]; [|auto].
        apply nth_error_In in E. destruct (F c E) as [Wc Ac]. destruct S as [_ G0]. unfold inside, within, apart in *. cbn in *. rewrite C. split; [lia|]. destruct m; [lia|exact I].
      * intros j D L. eapply seen_kept with (x := None); eauto; cbn; auto. apply replace_other. intros ->. apply (D s). reflexivity.
    + split; [eapply sound_more; eassumption|]. intros j _ _. eapply seen_kept with (x := None); eauto; cbn; auto.
  - destruct (nth_error l i) as [c|] eqn:E; [|auto]. pose proof (wp_pad None (next h) c factors h (Nat.le_refl _)) as P. unfold wp in P.
    match type of P with let '(h', r) := ?x in _ => destruct x as [h' r] end. destruct P as (N & K & Q). destruct r as [d|e].
    + destruct (Q d eq_refl) as (A & B & C). split; [eapply add_catalog; eassumption|]. intros j _ L. eapply seen_kept with (x := None); eauto; cbn; auto. apply nth_error_app1. exact L.
    + split; [eapply sound_more; eassumption|]. intros j _ _. eapply seen_kept with (x := None); eauto; cbn; auto.
Qed.
Lemma history_sound : forall l, sound (fst (history true l)) (snd (history true l)).
Proof.
  intros l. unfold history. assert (S0 : sound (fst (Memory (fun _ => Arr DFloat (Flat [])) 0, World None [])) (snd (Memory (fun _ => Arr DFloat (Flat [])) 0, World None []))) by (split; constructor).
  revert S0. generalize (Memory (fun _ => Arr DFloat (Flat [])) 0, World None []). induction l as [|a l IH]; intros [h w] S; cbn [fold_left fst snd] in *; [exact S|].
  apply IH. pose proof (act_sound a h w S) as H. destruct (act true a w h) as [h' w']. apply H.
Qed.
(** When Catalog copies what it is given: after any history, whatever is done next, catalogs already there keep positions, vectors and boxes, except the one which is itself moved. *)
Theorem C80_copies_partial : forall l a i, let '(h, w) := history true l in let '(h', w') := history true (l ++ [a]) in
  (i < List.length (w_catalogs w))%nat -> (forall s, a <> Move i s) -> seen h' w' i = seen h w i.
Proof.
  intros l a i. pose proof (history_sound l) as S. assert (E : history true (l ++ [a]) = act true a (snd (history true l)) (fst (history true l))) by (unfold history; rewrite fold_left_app; reflexivity).
  rewrite E. destruct (history true l) as [h w]. cbn [fst snd] in *. pose proof (act_sound a h w S) as H. destruct (act true a w h) as [h' w']. intros L D. apply H; assumption.
Qed.
Print Assumptions C80_copies_partial.
(** Concrete: a drawing, an export, then redshift-space distortions of the mock, and padding; the catalog is not moved. *)
Example C80_copies_case : let l := [Sample [V 1 0 0] [V 1 0 0] (fun x => x); Export (V 10 10 10)] in
  List.length (w_catalogs (snd (history true l))) = 1%nat /\ (forall s, SetRsd (FNum 1) None <> Move 0 s).
Proof. split; [reflexivity|discriminate]. Qed.

(** What set_rsd does to the mock: its positions become those that rsd_position computes. *)
Theorem C80_set_rsd : forall m h c pos disps f los r, (mo_position m < next h)%nat -> (mo_disps m < next h)%nat ->
  cells h (mo_position m) = Arr DFloat (Table pos) -> cells h (mo_disps m) = Arr DFloat (Table disps) ->
  position c = Ok pos -> velocity c = Ok disps -> rsd_position c f los = Ok r ->
  exists h', mock_set_rsd m f los h = (h', Ok tt) /\ cells h' (mo_position m) = Arr DFloat (Table r) /\ forall p, (p < next h)%nat -> p <> mo_position m -> cells h' p = cells h p.
Proof.
  intros m h c pos disps f los r Lp Lq Cp Cq P V E. unfold rsd_position in E. rewrite P, V in E. cbn [bind] in E.
  assert (G : exists h', mock_set_rsd m f los h = (h', Ok tt) /\ cells h' (mo_position m) = Arr DFloat (Table r)).
  { cbv beta iota delta [mock_set_rsd displacement projection mbind ret lift load alloc store floats value inplace as_table]. cbn. rewrite Cp. cbn.
    destruct (match los with None => map_result local_los pos | Some a => do v <- get_los a; Ok [v] end) as [ll|e]; cbn in *; [|discriminate].
    rewrite ?Nat.eqb_refl. destruct (Nat.eqb_spec (mo_disps m) (next h)); [lia|]. rewrite Cq. cbn. destruct (vector_projection disps ll) as [r1|e]; cbn in *; [|discriminate].
    eb. destruct (match f with FFun f => scale_inplace r1 (map f (map distance pos)) | FNum f => Ok (map (vscale f) r1) end) as [r2|e]; cbn in *; [|discriminate].
    eb. repeat match goal with |- context[Nat.eqb ?a ?b] => destruct (Nat.eqb_spec a b); try lia end. rewrite Cp. cbn. rewrite E. cbn.
    eexists; split; [reflexivity|]. eb. reflexivity. }
  destruct G as (h' & G1 & G2). exists h'. split; [exact G1|]. split; [exact G2|].
  pose proof (wp_rsd (next h) m f los h (Nat.le_refl _)) as W. unfold wp in W. rewrite G1 in W. destruct W as (_ & K & _). intros p Hp D. apply K; [exact Hp|]. congruence.
Qed.
Print Assumptions C80_set_rsd.
(** When Catalog keeps references to the arrays it is given, the catalog already exported is distorted too. *)
Theorem C80_shared_refuted : forall m h b h1 c k pos disps f los r, export false m b h = (h1, Ok c) -> (mo_position m < next h)%nat -> (mo_disps m < next h)%nat ->
  cells h (mo_position m) = Arr DFloat (Table pos) -> cells h (mo_disps m) = Arr DFloat (Table disps) ->
  position k = Ok pos -> velocity k = Ok disps -> rsd_position k f los = Ok r ->
  cells h1 (co_position c) = Arr DFloat (Table pos) /\ exists h2, mock_set_rsd m f los h1 = (h2, Ok tt) /\ cells h2 (co_position c) = Arr DFloat (Table r).
Proof.
  intros m h b h1 c k pos disps f los r E Lp Lq Cp Cq P V R.
  assert (X : (Memory (fun q => if Nat.eqb q (next h) then Arr DFloat (Vec b) else cells h q) (S (next h)), Ok (CatalogObject (mo_position m) (mo_disps m) (next h))) = (h1, Ok c)) by (rewrite <- E; reflexivity).
  assert (c = CatalogObject (mo_position m) (mo_disps m) (next h)) as -> by congruence. assert (h1 = Memory (fun q => if Nat.eqb q (next h) then Arr DFloat (Vec b) else cells h q) (S (next h))) as -> by congruence.
  cbn [co_position]. assert (H1 : cells (Memory (fun q => if Nat.eqb q (next h) then Arr DFloat (Vec b) else cells h q) (S (next h))) (mo_position m) = Arr DFloat (Table pos)).
  { cbn. destruct (Nat.eqb_spec (mo_position m) (next h)); [lia|exact Cp]. }
  split; [exact H1|].
  assert (H2 : cells (Memory (fun q => if Nat.eqb q (next h) then Arr DFloat (Vec b) else cells h q) (S (next h))) (mo_disps m) = Arr DFloat (Table disps)).
  { cbn. destruct (Nat.eqb_spec (mo_disps m) (next h)); [lia|exact Cq]. }
  destruct (C80_set_rsd m (Memory (fun q => if Nat.eqb q (next h) then Arr DFloat (Vec b) else cells h q) (S (next h))) k pos disps f los r ltac:(cbn; lia) ltac:(cbn; lia) H1 H2 P V R) as (h2 & G1 & G2 & _).
  exists h2. split; assumption.
Qed.
Print Assumptions C80_shared_refuted.
Example C80_shared_case : exists r, rsd_position (pv_cat [V 2 0 0] [V 1 0 0]) (FNum 1) None = Ok r /\ r <> [V 2 0 0].
Proof.
  destruct (C20_local_line_of_sight (pv_cat [V 2 0 0] [V 1 0 0]) [V 2 0 0] [V 1 0 0] 1) as (out & E & R); try reflexivity.
  - intros p [<-|[]] X. injection X. lra.
  - exists out. split; [exact E|]. intros ->. destruct R as (_ & R). destruct (R 0%nat _ _ _ eq_refl eq_refl eq_refl) as (u & (k & K & D) & U & Q).
    rewrite <- D in Q. unfold vadd, vscale, vdot in Q. cbn in Q. injection Q as Q _ _.
    assert (0 < k * k) by (apply Rmult_lt_0_compat; exact K). nra.
Qed.
(** Padding: the box of the copy. With attributes copied the original keeps its box; with attributes shared its box grows with that of the copy. *)
Theorem C80_pad : forall c h b factors, (co_boxsize c < next h)%nat -> cells h (co_boxsize c) = Arr DFloat (Vec b) ->
  exists h' q, pad_box true factors c h = (h', Ok q) /\ cells h' q = Arr DFloat (Vec (vmul b factors)) /\ cells h' (co_boxsize c) = Arr DFloat (Vec b).
Proof.
  intros c h b factors L C. unfold pad_box, column, mbind, load, alloc, inplace. cbn. rewrite C. eb.
  eexists; eexists; split; [reflexivity|]. eb. repeat match goal with |- context[Nat.eqb ?a ?b] => destruct (Nat.eqb_spec a b); try lia end. auto.
Qed.
Print Assumptions C80_pad.
Theorem C80_pad_refuted : forall c h b factors, (co_boxsize c < next h)%nat -> cells h (co_boxsize c) = Arr DFloat (Vec b) ->
  exists h' q, pad_box false factors c h = (h', Ok q) /\ cells h' q = Arr DFloat (Vec (vmul b factors)) /\ cells h' (co_boxsize c) = Arr DFloat (Vec (vmul b factors)).
Proof.
  intros c h b factors L C. unfold pad_box, column, mbind, load, alloc, inplace. cbn. rewrite C. eb.
  eexists; eexists; split; [reflexivity|]. eb. repeat match goal with |- context[Nat.eqb ?a ?b] => destruct (Nat.eqb_spec a b); try lia end. auto.
Qed.
Print Assumptions C80_pad_refuted.
Example C80_pad_case : let h := Memory (fun _ => Arr DFloat (Vec (V 10 10 10))) 1 in cells h 0 = Arr DFloat (Vec (V 10 10 10)) /\ vmul (V 10 10 10) (V 2 1 1) <> V 10 10 10.
Proof. split; [reflexivity|]. unfold vmul; cbn. intro X. injection X. lra. Qed.
