(** C51: brick quantities. *)
Require Import Reals ZArith List Bool String Permutation Sorted Lia Lra.
From Verif Require Import Base Box_Model Blind_Model FA_Model FA_Proof Blind_Thm Blind_Thm2 Brick_Model Brick_Spec.
Import ListNotations.
Open Scope string_scope.

Lemma cast_same : forall k v, kind_of v = k -> cast k v = Ok v.
Proof. intros k [z|x|s] <-; reflexivity. Qed.
Lemma assoc_In : forall {A} (l : list (string * A)) n a, assoc n l = Some a -> In (n, a) l.
Proof. intros A. induction l as [|[k x] l IH]; intros n a H; cbn in *; [discriminate|]. destruct (String.eqb_spec k n); [injection H as <-; subst; auto|auto]. Qed.
Lemma set_item_keys : forall {A} (l : list (string * A)) n a, map fst (set_item n a l) = if existsb (fun k => k =? n) (map fst l) then map fst l else (map fst l ++ [n])%list.
Proof. intros A. induction l as [|[k x] l IH]; intros n a; cbn; auto. destruct (k =? n); cbn; auto. rewrite IH. destruct (existsb _ _); auto. Qed.
Lemma set_item_nodup : forall {A} (l : list (string * A)) n a, NoDup (map fst l) -> NoDup (map fst (set_item n a l)).
Proof.
  intros A l n a H. rewrite set_item_keys. destruct (existsb (fun k => k =? n) (map fst l)) eqn:E; auto. apply (Permutation_NoDup (l := n :: map fst l)); [apply Permutation_cons_append|]. constructor; auto.
  intros X. assert (existsb (fun k => k =? n) (map fst l) = true); [|congruence]. apply existsb_exists. exists n. split; auto. apply String.eqb_refl.
Qed.
Lemma update_nodup : forall {A} (items l : list (string * A)), NoDup (map fst l) -> NoDup (map fst (update l items)).
Proof. intros A. unfold update. induction items as [|x items IH]; intros l H; cbn; auto. apply IH. apply set_item_nodup; auto. Qed.

Lemma map_forall2_fun : forall {A B} (g : A -> B) (l : list A), Forall2 (fun a b => b = g a) l (map g l).
Proof. intros A B g. induction l; cbn; constructor; auto. Qed.
Lemma forall2_forall_r : forall {A B} (P : B -> Prop) (l : list A) (l' : list B) (rel : A -> B -> Prop), Forall2 rel l l' -> (forall a x, In a l -> rel a x -> P x) -> Forall P l'.
Proof. intros A B P l l' rel F. induction F; intros H0; constructor; [apply (H0 x y); cbn; auto|apply IHF; intros; apply (H0 a x0); cbn; auto]. Qed.
Lemma forall2_impl_in : forall {A B} (R1 R2 : A -> B -> Prop) l l', (forall a x, In a l -> R1 a x -> R2 a x) -> Forall2 R1 l l' -> Forall2 R2 l l'.
Proof. intros A B R1 R2 l l' H F. induction F; constructor; [apply H; cbn; auto|apply IHF; intros; apply H; cbn; auto]. Qed.

(** A column that gives [name] with kind [k] and the values [f], on the rows [P]. *)
Definition gives (files : string -> option image) (P : brow -> Prop) (c : column) (name : string) (k : kind) (f : string -> string -> brow -> value -> Prop) : Prop :=
  forall region brickname rows items, rows <> [] -> Forall (fun r => P r /\ r_name r = brickname) rows -> quantities files region brickname rows c = Ok items ->
    exists a, assoc name items = Some a /\ a_kind a = k /\ Forall2 (f region brickname) rows (a_values a) /\ Forall (fun v => kind_of v = k) (a_values a).

Lemma quantities_nodup : forall files region brickname rows c items, is_dictionary c -> quantities files region brickname rows c = Ok items -> NoDup (map fst items).
Proof.
  intros files region brickname rows [n|n fn d v|call o] items D H; cbn [quantities] in H.
  - destruct (registered region n rows); [|discriminate]. cbn [bind] in H. apply ok_inj_p in H. subst. cbn. constructor; [cbn; tauto|constructor].
  - destruct (one_brick files (fn region brickname) rows d v); [|discriminate]. cbn [bind] in H. apply ok_inj_p in H. subst. cbn. constructor; [cbn; tauto|constructor].
  - eapply D; eauto.
Qed.
Lemma quantities_leaves : forall files region brickname rows c items name, leaves name c -> quantities files region brickname rows c = Ok items -> assoc name items = None.
Proof.
  intros files region brickname rows [n|n fn d v|call o] items name L H; cbn [quantities] in H.
  - destruct (registered region n rows); [|discriminate]. cbn [bind] in H. apply ok_inj_p in H. subst. cbn in *. destruct (String.eqb_spec n name); congruence.
  - destruct (one_brick files (fn region brickname) rows d v); [|discriminate]. cbn [bind] in H. apply ok_inj_p in H. subst. cbn in *. destruct (String.eqb_spec n name); congruence.
  - apply assoc_none. eapply L; eauto.
Qed.

Lemma brick_items_leaves : forall files region brickname rows cs tmp tmp' name, Forall is_dictionary cs -> Forall (leaves name) cs -> brick_items files region brickname rows cs tmp = Ok tmp' -> assoc name tmp' = assoc name tmp.
Proof.
  intros files region brickname rows. induction cs as [|c cs IH]; intros tmp tmp' name D L H; cbn [brick_items] in H; [apply ok_inj_p in H; subst; auto|].
  inversion D; inversion L; subst. destruct (quantities files region brickname rows c) as [items|] eqn:Q; [|discriminate]. cbn [bind] in H. rewrite (IH _ _ _ H3 H7 H). rewrite assoc_update by (eapply quantities_nodup; eauto).
  rewrite (quantities_leaves _ _ _ _ _ _ _ H6 Q). auto.
Qed.
Lemma brick_items_nodup : forall files region brickname rows cs tmp tmp', NoDup (map fst tmp) -> brick_items files region brickname rows cs tmp = Ok tmp' -> NoDup (map fst tmp').
Proof.
  intros files region brickname rows. induction cs as [|c cs IH]; intros tmp tmp' ND H; cbn [brick_items] in H; [apply ok_inj_p in H; subst; auto|].
  destruct (quantities files region brickname rows c) as [items|] eqn:Q; [|discriminate]. cbn [bind] in H. eapply IH; [|exact H]. apply update_nodup; auto.
Qed.
Lemma brick_items_app : forall files region brickname rows cs1 cs2 tmp, brick_items files region brickname rows (cs1 ++ cs2) tmp = do t <- brick_items files region brickname rows cs1 tmp; brick_items files region brickname rows cs2 t.
Proof. intros files region brickname rows. induction cs1 as [|c cs IH]; intros cs2 tmp; cbn [brick_items app]; auto. destruct (quantities files region brickname rows c); cbn [bind]; auto. Qed.

Lemma brick_items_gives : forall files P cs1 c cs2 name k f region brickname rows items, gives files P c name k f -> Forall is_dictionary (cs1 ++ c :: cs2) -> Forall (leaves name) cs2 -> rows <> [] ->
  Forall (fun r => P r /\ r_name r = brickname) rows -> brick_items files region brickname rows (cs1 ++ c :: cs2) [] = Ok items ->
  NoDup (map fst items) /\ exists a, assoc name items = Some a /\ a_kind a = k /\ Forall2 (f region brickname) rows (a_values a) /\ Forall (fun v => kind_of v = k) (a_values a).
Proof.
  intros files P cs1 c cs2 name k f region brickname rows items G D L NR FR H. split; [eapply brick_items_nodup; [|exact H]; constructor|].
  rewrite brick_items_app in H. destruct (brick_items files region brickname rows cs1 []) as [t|] eqn:E1; [|discriminate]. cbn [bind brick_items] in H.
  destruct (quantities files region brickname rows c) as [its|] eqn:Q; [|discriminate]. cbn [bind] in H. apply Forall_app in D. destruct D as [D1 D2]. inversion D2; subst.
  rewrite (brick_items_leaves _ _ _ _ _ _ _ _ H3 L H). rewrite assoc_update by (eapply quantities_nodup; eauto). destruct (G _ _ _ _ NR FR Q) as (a & A1 & A2). rewrite A1. exists a; auto.
Qed.

(** Assignment under a mask. *)
Lemma assign_put : forall (p : brow -> bool) (k : kind) (G : brow -> value -> Prop) (Q : brow -> option value -> Prop) rows values l l', Forall2 G (filter p rows) values -> Forall (fun v => kind_of v = k) values -> Forall2 Q rows l ->
  assign (put k) (map p rows) values l = Ok l' -> Forall2 (fun r o => if p r then exists v, o = Some v /\ G r v else Q r o) rows l'.
Proof.
  intros p k G Q. induction rows as [|r rows IH]; intros values l l' FG FK FQ H; inversion FQ as [|? o ? l0 Q0 FQ0]; subst; cbn in H; [apply ok_inj_p in H; subst; constructor|].
  cbn in FG. destruct (p r) eqn:E.
  - inversion FG as [|? v ? vs G0 FG0]; subst. inversion FK as [|? ? K0 FK0]; subst. unfold put in H at 1. rewrite cast_same in H by auto. cbn [bind] in H.
    destruct (assign (put (kind_of v)) (map p rows) vs l0) as [l1|] eqn:E1; [|discriminate]. cbn [bind] in H. apply ok_inj_p in H. subst. constructor; [rewrite E; eauto|eapply IH; eauto].
  - destruct (assign (put k) (map p rows) values l0) as [l1|] eqn:E1; [|discriminate]. cbn [bind] in H. apply ok_inj_p in H. subst. constructor; [rewrite E; auto|eapply IH; eauto].
Qed.

Lemma store_all_other : forall size mask items data data' name, ~ In name (map fst items) -> store_all size mask data items = Ok data' -> assoc name data' = assoc name data.
Proof.
  intros size mask. induction items as [|[n a] items IH]; intros data data' name NI H; cbn [store_all] in H; [apply ok_inj_p in H; subst; auto|].
  destruct (store size mask data (n, a)) as [d1|] eqn:S1; [|discriminate]. cbn [bind] in H. cbn in NI. rewrite (IH _ _ name) with (2 := H) by tauto. cbn in S1.
  destruct (match assoc n data with Some c => c | None => (a_kind a, repeat None size) end) as [k l]. destruct (negb _); [discriminate|]. destruct (assign (put k) mask (a_values a) l); [|discriminate]. cbn [bind] in S1. apply ok_inj_p in S1. subst. rewrite assoc_set. destruct (String.eqb_spec n name); auto. subst. tauto.
Qed.
Lemma store_all_gives : forall size mask items data data' name a, NoDup (map fst items) -> assoc name items = Some a -> store_all size mask data items = Ok data' ->
  exists l', assoc name data' = Some (match assoc name data with Some c => fst c | None => a_kind a end, l') /\
    assign (put (match assoc name data with Some c => fst c | None => a_kind a end)) mask (a_values a) (match assoc name data with Some c => snd c | None => repeat None size end) = Ok l'.
Proof.
  intros size mask. induction items as [|[n b] items IH]; intros data data' name a ND HA H; cbn [assoc] in HA; [discriminate|]. cbn in ND. inversion ND as [|? ? NI ND0]; subst. cbn [store_all] in H.
  destruct (store size mask data (n, b)) as [d1|] eqn:S1; [|discriminate]. cbn [bind] in H. cbn [store] in S1.
  destruct (String.eqb_spec n name) as [->|NE].
  - injection HA as ->. rewrite (store_all_other _ _ _ _ _ name NI H). destruct (match assoc name data with Some c => c | None => (a_kind a, repeat None size) end) as [k l] eqn:K. destruct (negb _); [discriminate|].
    destruct (assign (put k) mask (a_values a) l) as [l'|] eqn:AS; [|discriminate]. cbn [bind] in S1. apply ok_inj_p in S1. subst. exists l'. rewrite assoc_set, String.eqb_refl. destruct (assoc name data) as [[k0 l0]|]; injection K as <- <-; cbn; auto.
  - destruct (match assoc n data with Some c => c | None => (a_kind b, repeat None size) end) as [k l]. destruct (negb _); [discriminate|]. destruct (assign (put k) mask (a_values b) l) as [l'|] eqn:AS; [|discriminate]. cbn [bind] in S1. apply ok_inj_p in S1. subst.
    destruct (IH _ _ _ _ ND0 HA H) as (l2 & L2 & L3). rewrite assoc_set in L2, L3. destruct (String.eqb_spec n name); [contradiction|]. eauto.
Qed.

Definition region_at (b : bricks) (r : brow) : string := if Rltb (32375 / 1000) (b_dec b (r_ra r) (r_dec r)) then "north" else "south".
(** Rows of a process once the bricks [done] are. *)
Definition filled (b : bricks) (f : string -> string -> brow -> value -> Prop) (done : string -> Prop) (r : brow) (o : option value) : Prop :=
  done (r_name r) -> exists v, o = Some v /\ f (region_at b r) (r_name r) r v.
Lemma repeat_forall2 : forall {A B} (rel : A -> B -> Prop) (l : list A) (x : B), (forall a, In a l -> rel a x) -> Forall2 rel l (repeat x (List.length l)).
Proof. intros A B rel. induction l; intros x H; cbn; constructor; [apply H; cbn; auto|apply IHl; intros; apply H; cbn; auto]. Qed.

Lemma do_brick_gives : forall files b P cs1 c cs2 name k f rows data data' brickname (done : string -> Prop), gives files P c name k f -> Forall is_dictionary (cs1 ++ c :: cs2) -> Forall (leaves name) cs2 -> 
  Forall P rows -> (forall r r', P r -> P r' -> r_name r = r_name r' -> region_at b r = region_at b r') ->
  match assoc name data with Some (k0, l) => k0 = k /\ Forall2 (filled b f done) rows l | None => forall s, ~ done s end ->
  do_brick files b (cs1 ++ c :: cs2) rows data brickname = Ok data' ->
  exists l, assoc name data' = Some (k, l) /\ Forall2 (filled b f (fun s => s = brickname \/ done s)) rows l.
Proof.
  intros files b P cs1 c cs2 name k f rows data data' brickname done G D L FP RG INV H. unfold do_brick in H.
  destruct (filter (fun r => r_name r =? brickname) rows) as [|r0 mine] eqn:FM; [discriminate|]. fold (region_at b r0) in H. set (rg := region_at b r0) in *. rewrite <- FM in H.
  assert (FR : Forall (fun r => P r /\ r_name r = brickname) (filter (fun r => r_name r =? brickname) rows)).
  { apply Forall_forall. intros r HR. apply filter_In in HR. destruct HR as [HR EN]. apply String.eqb_eq in EN. rewrite Forall_forall in FP. auto. }
  assert (NR : filter (fun r => r_name r =? brickname) rows <> []) by (rewrite FM; discriminate).
  cbv zeta in H. destruct (brick_items files rg brickname (filter (fun r => r_name r =? brickname) rows) (cs1 ++ c :: cs2) []) as [items|] eqn:EB; [|discriminate]. cbn [bind] in H.
  destruct (brick_items_gives _ _ _ _ _ _ _ _ _ _ _ _ G D L NR FR EB) as (ND & a & A1 & A2 & A3 & A4). destruct (store_all_gives _ _ _ _ _ _ _ ND A1 H) as (l' & L1 & L2).
  assert (KK : match assoc name data with Some c0 => fst c0 | None => a_kind a end = k). { destruct (assoc name data) as [[k0 l0]|]; cbn; tauto. }
  rewrite KK in L1, L2. exists l'. split; auto.
  assert (F0 : Forall2 (filled b f done) rows (match assoc name data with Some c0 => snd c0 | None => repeat None (List.length rows) end)).
  { destruct (assoc name data) as [[k0 l0]|]; cbn; [tauto|]. apply repeat_forall2. intros r HR HD. elim (INV _ HD). }
  pose proof (assign_put (fun r => r_name r =? brickname) k _ _ _ _ _ _ A3 A4 F0 L2) as FF.
  eapply forall2_impl_in; [|exact FF]. cbv beta. intros r o HR HO HD. destruct (String.eqb_spec (r_name r) brickname) as [EN|NE].
  - destruct HO as (v & -> & HV). exists v. split; auto. assert (I0 : In r0 (filter (fun r => r_name r =? brickname) rows)) by (rewrite FM; cbn; auto). apply filter_In in I0. destruct I0 as [I0 N0]. apply String.eqb_eq in N0.
    rewrite Forall_forall in FP. rewrite (RG r r0); auto; [|congruence]. rewrite EN. auto.
  - apply HO. tauto.
Qed.

Lemma do_bricks_gives : forall files b P cs1 c cs2 name k f rows, gives files P c name k f -> Forall is_dictionary (cs1 ++ c :: cs2) -> Forall (leaves name) cs2 -> 
  Forall P rows -> (forall r r', P r -> P r' -> r_name r = r_name r' -> region_at b r = region_at b r') -> forall names data data' (done : string -> Prop),
  match assoc name data with Some (k0, l) => k0 = k /\ Forall2 (filled b f done) rows l | None => forall s, ~ done s end ->
  do_bricks files b (cs1 ++ c :: cs2) rows names data = Ok data' ->
  match assoc name data' with Some (k0, l) => k0 = k /\ Forall2 (filled b f (fun s => In s names \/ done s)) rows l | None => forall s, ~ (In s names \/ done s) end.
Proof.
  intros files b P cs1 c cs2 name k f rows G D L FP RG. induction names as [|n names IH]; intros data data' done INV H; cbn [do_bricks] in H.
  - apply ok_inj_p in H. subst. destruct (assoc name data') as [[k0 l]|]; [|cbn; intros s; specialize (INV s); tauto]. split; [tauto|]. eapply forall2_impl_in; [|apply INV]. cbv beta. unfold filled. cbn. intros; tauto.
  - destruct (do_brick files b (cs1 ++ c :: cs2) rows data n) as [d1|] eqn:E1; [|discriminate]. cbn [bind] in H. destruct (do_brick_gives _ _ _ _ _ _ _ _ _ _ _ _ _ _ G D L FP RG INV E1) as (l & L1 & L2).
    specialize (IH d1 data' (fun s => s = n \/ done s)). rewrite L1 in IH. specialize (IH (conj eq_refl L2) H). destruct (assoc name data') as [[k0 l2]|].
    + split; [tauto|]. destruct IH as [_ IH]. eapply forall2_impl_in; [|exact IH]. unfold filled. cbn. intros r o _ HO HD. apply HO. intuition.
    + intros s. specialize (IH s). cbn. intuition.
Qed.

Lemma uniques_in : forall l s, In s (uniques l) <-> In s l.
Proof.
  induction l as [|x l IH]; intros s; cbn; [tauto|]. rewrite filter_In, IH. destruct (String.eqb_spec s x); cbn; [subst; tauto|]. intuition.
Qed.
Lemma on_rows_gives : forall files b P cs1 c cs2 name k f rows sort data, gives files P c name k f -> Forall is_dictionary (cs1 ++ c :: cs2) -> Forall (leaves name) cs2 -> 
  Forall P rows -> (forall r r', P r -> P r' -> r_name r = r_name r' -> region_at b r = region_at b r') -> keeps_names sort -> rows <> [] ->
  on_rows files b (cs1 ++ c :: cs2) sort rows = Ok data ->
  exists l, assoc name data = Some (k, l) /\ Forall2 (fun r o => exists v, o = Some v /\ f (region_at b r) (r_name r) r v) rows l.
Proof.
  intros files b P cs1 c cs2 name k f rows sort data G D L FP RG KN NE H. unfold on_rows in H.
  assert (IN : forall r, In r rows -> In (r_name r) (sort (uniques (map r_name rows)))). { intros r HR. eapply Permutation_in; [symmetry; apply KN|]. apply uniques_in. apply in_map; auto. }
  pose proof (do_bricks_gives _ _ _ _ _ _ _ _ _ _ G D L FP RG _ [] data (fun _ => False) (fun s X => X) H) as INV.
  destruct (assoc name data) as [[k0 l]|].
  - destruct INV as [-> INV]. exists l. split; auto. eapply forall2_impl_in; [|exact INV]. unfold filled. cbv beta. intros r o HR HO. apply HO. left. auto.
  - destruct rows as [|r rows]; [congruence|]. exfalso. apply (INV (r_name r)). left. apply IN. cbn. auto.
Qed.

(** The rows. *)
Lemma rows_at_index : forall b l i, map r_index (rows_at b i l) = seq i (List.length l).
Proof. intros b. induction l as [|p l IH]; intros i; cbn; auto. rewrite IH. auto. Qed.
Lemma rows_at_sorted : forall b l i, StronglySorted (fun r s => (r_index r < r_index s)%nat) (rows_at b i l).
Proof.
  intros b. induction l as [|p l IH]; intros i; cbn; constructor; auto. apply Forall_forall. intros r HR. cbn. apply (in_map r_index) in HR. rewrite rows_at_index in HR. apply in_seq in HR. lia.
Qed.
Definition from_positions (b : bricks) (positions : list (R * R)) (r : brow) : Prop := exists i p, In p positions /\ r = row_at b i p.
Lemma rows_at_from : forall b l i, Forall (from_positions b l) (rows_at b i l).
Proof. intros b l. assert (H : forall l' i, incl l' l -> Forall (from_positions b l) (rows_at b i l')). { induction l' as [|p l' IH]; intros i HI; cbn; constructor; [exists i, p; split; auto; apply HI; cbn; auto|apply IH; intros x X; apply HI; cbn; auto]. } intros i. apply H. intros x X; auto. Qed.
Lemma from_region : forall b positions r r', one_centre b -> from_positions b positions r -> from_positions b positions r' -> r_name r = r_name r' -> region_at b r = region_at b r'.
Proof. intros b positions r r' OC (i & p & _ & ->) (i' & p' & _ & ->) EN. unfold region_at. cbn in *. rewrite (OC _ _ _ _ EN). auto. Qed.
Lemma region_at_in : forall b i p, in_region b p (region_at b (row_at b i p)).
Proof. intros b i p. unfold in_region, region_at. cbn. destruct (Rltb (32375 / 1000) (b_dec b (fst p) (snd p))) eqn:E; [left; apply Rltb_true in E|right; apply Rltb_false in E]; split; auto; lra. Qed.

Lemma in_concat : forall {A} (ls : list (list A)) x, In x (List.concat ls) <-> exists l, In l ls /\ In x l.
Proof. intros A ls x. apply in_concat. Qed.
Lemma concat_nonempty : forall {A} (ls : list (list A)), List.concat (filter (fun part => negb (Nat.eqb (List.length part) 0)) ls) = List.concat ls.
Proof. intros A. induction ls as [|[|x l] ls IH]; cbn; auto. rewrite IH. auto. Qed.

Lemma gather_key : forall indices parts out name, gather indices parts = Ok out -> forall p rest, parts = p :: rest -> (exists c, assoc name (snd p) = Some c) ->
  exists l, assoc name out = Some l /\ exists g, gather_column name parts = Ok g /\ l = map snd (sort_by fst g) /\ list_eqb Nat.eqb (map fst (sort_by fst g)) indices = true.
Proof.
  intros indices parts out name H p rest EP [c HC]. unfold gather in H. rewrite EP in H. rewrite <- EP in H. apply map_result_forall2 in H. revert c HC. induction H as [|[n x] y l out HF F IH]; intros c HC; cbn in HC; [discriminate|].
  cbn [fst] in HF. destruct (gather_column n parts) as [g|] eqn:GC; [|discriminate]. cbn [bind] in HF. cbv zeta in HF. destruct (list_eqb Nat.eqb (map fst (sort_by fst g)) indices) eqn:LE; cbn [negb] in HF; [|discriminate]. apply ok_inj_p in HF. subst y. cbn [assoc].
  destruct (String.eqb_spec n name) as [->|NE]; [|eauto]. exists (map snd (sort_by fst g)). split; auto. exists g. auto.
Qed.

Lemma gather_good : forall name k (parts : list (list brow * pdata)) (good : brow -> option value -> Prop), Forall (fun p => exists l, assoc name (snd p) = Some (k, l) /\ Forall2 good (fst p) l) parts ->
  exists g, gather_column name parts = Ok g /\ Forall2 (fun r x => fst x = r_index r /\ good r (snd x)) (List.concat (map fst parts)) g.
Proof.
  intros name k parts good F. unfold gather_column. induction F as [|[rows data] parts (l & HL & FG) F (g & HG & IH)]; [exists []; split; [reflexivity|constructor]|].
  cbn [fst snd] in HL, FG. cbn [map_result]. cbn [fst snd]. rewrite HL. cbn [bind]. revert HG. match goal with |- context [map_result ?h parts] => destruct (map_result h parts) as [ls|] end; cbn [bind]; intros HG; [|discriminate]. eexists. split; [reflexivity|]. cbn [map List.concat].
  apply Forall2_app; [|assert (EG : List.concat ls = g) by congruence; rewrite EG; exact IH]. clear - FG. cbn [snd fst]. induction FG; cbn; constructor; cbn; auto.
Qed.

Lemma brick_engine : forall files b sort exchange positions cs1 c cs2 name k f out, one_centre b -> keeps_names sort -> keeps_rows exchange -> positions <> [] ->
  gives files (from_positions b positions) c name k f -> Forall is_dictionary (cs1 ++ c :: cs2) -> Forall (leaves name) cs2 ->
  get_brick_pixel_quantities files b sort exchange (cs1 ++ c :: cs2) positions = Ok out ->
  exists l, assoc name out = Some l /\ Forall2 (fun r o => exists v, o = Some v /\ f (region_at b r) (r_name r) r v) (rows_at b 0 positions) l.
Proof.
  intros files b sort exchange positions cs1 c cs2 name k f out OC KN KR NE G D L H. unfold get_brick_pixel_quantities in H. destruct (cs1 ++ c :: cs2)%list as [|c0 cs] eqn:EC; [destruct cs1; discriminate|]. rewrite <- EC in *. clear EC c0 cs.
  destruct positions as [|p0 ps]; [congruence|]. set (positions := p0 :: ps) in *. cbv zeta in H. set (rows := rows_at b 0 positions) in *.
  revert H. match goal with |- context [map_result ?h ?l] => destruct (map_result h l) as [parts|] eqn:MR end; intros H; [|discriminate]. cbn [bind] in H. apply map_result_forall2 in MR.
  assert (FX : Forall (from_positions b positions) (List.concat (exchange rows))). { apply Forall_forall. intros r HR. eapply Permutation_in in HR; [|apply KR]. revert r HR. apply Forall_forall. apply rows_at_from. }
  assert (FP : Forall (fun p => exists l, assoc name (snd p) = Some (k, l) /\ Forall2 (fun r o => exists v, o = Some v /\ f (region_at b r) (r_name r) r v) (fst p) l) parts).
  { eapply forall2_forall_r; [exact MR|]. cbv beta. intros part [part' data] HI HE. destruct (on_rows files b (cs1 ++ c :: cs2) sort part) as [d|] eqn:OR; [|discriminate]. cbn [bind] in HE. assert (part' = part /\ d = data) by (split; congruence). destruct H0; subst part' d. cbn [fst snd].
    apply filter_In in HI. destruct HI as [HI HN]. eapply on_rows_gives; try exact OR; eauto.
    - rewrite Forall_forall in FX |- *. intros r HR. apply FX. apply in_concat. eauto.
    - intros r r'. apply from_region; auto.
    - destruct part; [discriminate|congruence]. }
  destruct (gather_good _ _ _ _ FP) as (g & HG & FG).
  assert (EP : map fst parts = filter (fun part => negb (Nat.eqb (List.length part) 0)) (exchange rows)).
  { clear - MR. induction MR as [|x y l l' HE F IH]; cbn; auto. rewrite IH. f_equal. destruct (on_rows _ _ _ _ x); [|discriminate]. cbn [bind] in HE. apply ok_inj_p in HE. subst. auto. }
  rewrite EP, concat_nonempty in FG. pose proof (sort_back_gen _ fst brow r_index _ rows _ _ (fun r x HX => proj1 HX) (rows_at_sorted _ _ _) (KR rows) FG) as FS.
  destruct parts as [|q parts].
  { exfalso. pose proof (concat_nonempty (exchange rows)) as CE. rewrite <- EP in CE. cbn [map List.concat] in CE. pose proof (KR rows) as PR. rewrite <- CE in PR. apply Permutation_nil in PR. discriminate. }
  destruct (gather_key _ _ _ name H q parts eq_refl) as (l & HL & g' & HG' & EL & _). { inversion FP as [|? ? (l & HL & _) _]; subst. eauto. }
  assert (g' = g) by congruence. subst g' l. exists (map snd (sort_by fst g)). split; auto. clear - FS. remember (sort_by fst g) as sg eqn:ES. clear ES. induction FS as [|r x rs xs [_ HX] F IH]; cbn; constructor; auto.
Qed.
Lemma rows_in_order : forall b (good : nat -> R * R -> value -> Prop) (rel : brow -> value -> Prop) positions i l, (forall i p v, In p positions -> rel (row_at b i p) v -> good i p v) ->
  Forall2 (fun r o => exists v, o = Some v /\ rel r v) (rows_at b i positions) l -> in_order good i positions l.
Proof.
  intros b good rel. induction positions as [|p ps IH]; intros i l HG F; cbn in F; inversion F as [|? o ? l0 (v & -> & HV) F0]; subst; cbn; auto. split; [apply HG; cbn; auto|]. apply IH; auto. intros. apply HG; cbn; auto.
Qed.

(** ** Files *)
Lemma index_inside : forall n i, (0 <= i < n)%Z -> index n i = Ok i.
Proof. intros n i H. unfold index. destruct (Z.leb_spec 0 i); [|lia]. destruct (Z.ltb_spec i n); [reflexivity|lia]. Qed.
Lemma cast_converted : forall d v w, cast d v = Ok w -> converted (Some d) v w.
Proof. intros [] [z|x|s] w H; cbn in H; try discriminate; apply ok_inj_p in H; subst; constructor. Qed.
Lemma converted_cast : forall d v w, converted (Some d) v w -> cast d v = Ok w.
Proof. intros d v w H. inversion H; subst; reflexivity. Qed.
Lemma converted_kind : forall d v w, converted (Some d) v w -> kind_of w = d.
Proof. intros d v w H. inversion H; subst; reflexivity. Qed.
Lemma converted_fun : forall d v w w', converted d v w -> converted d v w' -> w = w'.
Proof. intros d v w w' H H'. inversion H; subst; inversion H'; subst; auto. Qed.
Lemma as_array_gives : forall dtype k l a, as_array dtype k l = Ok a -> Forall2 (converted dtype) l (a_values a) /\ a_kind a = match dtype with Some d => d | None => k end.
Proof.
  intros [d|] k l a H; cbn in H.
  - destruct (map_result (cast d) l) as [l'|] eqn:M; [|discriminate]. cbn [bind] in H. apply ok_inj_p in H. subst. cbn. split; auto. apply map_result_forall2 in M. eapply forall2_impl_in; [|exact M]. cbv beta. intros; apply cast_converted; auto.
  - apply ok_inj_p in H. subst. cbn. split; auto. induction l; constructor; auto. constructor.
Qed.
(** Value of a row in a brick. *)
Definition row_value (files : string -> option image) (fn : string -> string -> string) (dtype : option kind) (default : option value) (region brickname : string) (r : brow) (v : value) : Prop :=
  exists w, converted dtype w v /\ match files (fn region brickname) with Some im => file_value im (r_ra r, r_dec r) w | None => default = Some w end.
Lemma mapped_gives : forall files b positions name fn dtype default k, reaches files b fn positions -> one_kind files b fn dtype default k positions ->
  gives files (from_positions b positions) (Mapped name fn dtype default) name k (row_value files fn dtype default).
Proof.
  intros files b positions name fn dtype default k RE OK region brickname rows items NR FR H. cbn [quantities] in H. destruct (one_brick files (fn region brickname) rows dtype default) as [a|] eqn:OB; [|discriminate]. cbn [bind] in H. apply ok_inj_p in H. subst items.
  exists a. cbn [assoc]. rewrite String.eqb_refl. split; auto. unfold one_brick in OB. destruct (files (fn region brickname)) as [im|] eqn:EF.
  - destruct (map_result (pixel im) rows) as [l|] eqn:MP; [|discriminate]. cbn [bind] in OB. apply as_array_gives in OB. destruct OB as [FA KA]. apply map_result_forall2 in MP.
    assert (FV : Forall2 (fun r w => file_value im (r_ra r, r_dec r) w /\ kind_of w = match dtype with Some _ => kind_of w | None => k end) rows l).
    { eapply forall2_impl_in; [|exact MP]. cbv beta. intros r w HR HP. rewrite Forall_forall in FR. destruct (FR r HR) as [(i & p & IP & ->) EN]. cbn in EN. destruct (RE region p im IP) as (x & y & PX & HX & HY); [unfold brick_of; rewrite EN; auto|].
      unfold pixel in HP. cbn in HP. rewrite PX in HP. cbn [fst snd] in HP. rewrite index_inside in HP by auto. cbn [bind] in HP. rewrite index_inside in HP by auto. cbn [bind] in HP. apply ok_inj_p in HP. subst w. split; [exists x, y; cbn; auto|].
      destruct OK as [->|(-> & HK & _)]; auto. apply (HK region p im IP). unfold brick_of. rewrite EN. auto. }
    repeat split.
    + rewrite KA. destruct OK as [->|(-> & HK & _)]; auto. destruct rows as [|r rows]; [congruence|]. inversion FR as [|? ? [(i & p & IP & ->) EN] _]; subst. cbn in EF. apply (HK region p im IP). auto.
    + clear MP. assert (FF : Forall2 (fun r v => exists w, converted dtype w v /\ file_value im (r_ra r, r_dec r) w) rows (a_values a)).
      { clear - FV FA. revert FA. generalize (a_values a). induction FV as [|r w rows l [HV _] F IH]; intros l' FA; inversion FA; subst; constructor; eauto. }
      eapply forall2_impl_in; [|exact FF]. cbv beta. intros r v _ (w & W1 & W2). exists w. rewrite EF. auto.
    + clear - FV FA OK. revert FA. generalize (a_values a). induction FV as [|r w rows l [_ HK] F IH]; intros l' FA; inversion FA as [|? v ? ? CV FA0]; subst; constructor; auto. destruct OK as [->|(-> & _)]; [eapply converted_kind; eauto|inversion CV; subst; auto].
  - destruct default as [w|]; [|discriminate]. apply as_array_gives in OB. destruct OB as [FA KA]. repeat split.
    + rewrite KA. destruct OK as [->|(-> & _ & HD)]; auto.
    + clear - FA EF. revert FA. generalize (a_values a). induction rows as [|r rows IH]; intros l FA; inversion FA; subst; constructor; auto. exists w. rewrite EF. auto.
    + clear - FA OK. revert FA. generalize (a_values a). induction rows as [|r rows IH]; intros l FA; inversion FA as [|? v ? ? CV FA0]; subst; constructor; auto. destruct OK as [->|(-> & _ & HD)]; [eapply converted_kind; eauto|inversion CV; subst; auto].
Qed.

Theorem C51_files : forall files b sort exchange positions before after name fn dtype default k out,
  one_centre b -> keeps_names sort -> keeps_rows exchange -> positions <> [] -> reaches files b fn positions -> one_kind files b fn dtype default k positions ->
  Forall is_dictionary (before ++ after) -> Forall (leaves name) after ->
  get_brick_pixel_quantities files b sort exchange (before ++ Mapped name fn dtype default :: after) positions = Ok out ->
  exists l, assoc name out = Some l /\ in_order (fun i p v => exists w, own_value files b fn default p w /\ converted dtype w v) 0 positions l.
Proof.
  intros files b sort exchange positions before after name fn dtype default k out OC KN KR NE RE OK D L H.
  destruct (brick_engine files b sort exchange positions before (Mapped name fn dtype default) after name k _ out OC KN KR NE (mapped_gives files b positions name fn dtype default k RE OK)) as (l & HL & F); auto.
  { apply Forall_app in D. destruct D. apply Forall_app. split; auto. constructor; cbn; auto. }
  exists l. split; auto. eapply rows_in_order; [|exact F]. cbv beta. intros i p v IP (w & W1 & W2). exists w. split; auto. exists (region_at b (row_at b i p)). split; [apply region_at_in|]. cbn in W2. unfold brick_of. destruct p; auto.
Qed.

(** ** Registered names *)
Lemma registered_gives : forall files b positions name, known name ->
  exists k, gives files (from_positions b positions) (Registered name) name k (fun region brickname r v => forall i p, r = row_at b i p -> in_region b p region -> registered_value b i p (lower name) v).
Proof.
  intros files b positions name KN. unfold gives. cbn [quantities]. unfold registered.
  assert (RG : forall p region, in_region b p region -> region = "north" \/ region = "south") by (intros p region [[_ H]|[_ H]]; auto).
  assert (MV : forall (Q : brow -> value -> Prop) (k : kind) (g : brow -> value) rows, (forall r, In r rows -> Q r (g r)) -> (forall r, kind_of (g r) = k) -> Forall2 Q rows (map g rows) /\ Forall (fun v => kind_of v = k) (map g rows)).
  { intros Q k g rows. induction rows as [|r rows IH]; intros HQ HK; cbn; split; constructor; auto; [apply HQ; cbn; auto|apply IH; auto; intros; apply HQ; cbn; auto|apply IH; auto; intros; apply HQ; cbn; auto]. }
  unfold known in KN. cbn [In] in KN. repeat destruct KN as [KN|KN]; try contradiction; rewrite <- KN; cbn [String.eqb Ascii.eqb Bool.eqb];
  [exists KStr|exists KFloat|exists KFloat|exists KStr|exists KInt|exists KInt]; intros region brickname rows items _ FR H; cbn in H; apply ok_inj_p in H; subst items; eexists; cbn [assoc]; rewrite String.eqb_refl; (split; [reflexivity|split; [reflexivity|]]);
  cbn [a_values]; apply MV; auto; intros r HR i p -> RP; try constructor.
  destruct (RG _ _ RP) as [->| ->]; cbn; constructor; auto.
Qed.
Theorem C51_registered : forall files b sort exchange positions before after name out, one_centre b -> keeps_names sort -> keeps_rows exchange -> positions <> [] -> known name ->
  Forall is_dictionary (before ++ after) -> Forall (leaves name) after ->
  get_brick_pixel_quantities files b sort exchange (before ++ Registered name :: after) positions = Ok out ->
  exists l, assoc name out = Some l /\ in_order (fun i p v => registered_value b i p (lower name) v) 0 positions l.
Proof.
  intros files b sort exchange positions before after name out OC KN KR NE KW D L H. destruct (registered_gives files b positions name KW) as [k G].
  destruct (brick_engine files b sort exchange positions before (Registered name) after name k _ out OC KN KR NE G) as (l & HL & F); auto.
  { apply Forall_app in D. destruct D. apply Forall_app. split; auto. constructor; cbn; auto. }
  exists l. split; auto. eapply rows_in_order; [|exact F]. cbv beta. intros i p v IP HV. apply HV; auto. apply region_at_in.
Qed.

(** ** Callables *)
Theorem C51_callables : forall files b sort exchange positions before after call options name k f out, one_centre b -> keeps_names sort -> keeps_rows exchange -> positions <> [] ->
  object_by_object call name k f -> (forall ra dec brickname o, kind_of (f ra dec brickname o) = k) ->
  Forall is_dictionary (before ++ Called call options :: after) -> Forall (leaves name) after ->
  get_brick_pixel_quantities files b sort exchange (before ++ Called call options :: after) positions = Ok out ->
  exists l, assoc name out = Some l /\ in_order (fun i p v => exists region, in_region b p region /\ v = f (fst p) (snd p) (brick_of b p) (options region)) 0 positions l.
Proof.
  intros files b sort exchange positions before after call options name k f out OC KN KR NE OO KF D L H.
  assert (G : gives files (from_positions b positions) (Called call options) name k (fun region brickname r v => v = f (r_ra r) (r_dec r) brickname (options region))).
  { intros region brickname rows items _ FR Q. cbn [quantities] in Q. destruct (OO _ _ _ _ Q) as (a & A1 & A2 & A3). exists a. split; [apply assoc_in; auto|].
    - apply Forall_app in D. destruct D as [_ D]. inversion D as [|? ? D0 _]; subst. eapply D0; eauto.
    - split; auto. rewrite A3. split; [apply map_forall2_fun|]. apply Forall_forall. intros v HV. apply in_map_iff in HV. destruct HV as (r & <- & _). auto. }
  destruct (brick_engine files b sort exchange positions before (Called call options) after name k _ out OC KN KR NE G) as (l & HL & F); auto.
  exists l. split; auto. eapply rows_in_order; [|exact F]. cbv beta. intros i p v IP ->. exists (region_at b (row_at b i p)). split; [apply region_at_in|]. auto.
Qed.

(** ** Nothing asked, nobody there, unknown names *)
Theorem C51_nothing : forall files b sort exchange columns positions, columns = [] \/ positions = [] -> get_brick_pixel_quantities files b sort exchange columns positions = Ok [].
Proof. intros files b sort exchange columns positions [->| ->]; cbn; auto. destruct columns; auto. Qed.
Lemma registered_known : forall region name rows a, registered region name rows = Ok a -> known name.
Proof.
  intros region name rows a H. unfold registered in H. unfold known. cbn.
  destruct (String.eqb_spec (lower name) "photsys"); [auto|]. destruct (String.eqb_spec (lower name) "ra"); [auto|]. destruct (String.eqb_spec (lower name) "dec"); [auto|].
  destruct (String.eqb_spec (lower name) "brickname"); [auto 6|]. destruct (String.eqb_spec (lower name) "brickid"); [auto 8|]. destruct (String.eqb_spec (lower name) "index"); [auto 9|discriminate].
Qed.
Lemma brick_items_unknown : forall files region brickname rows before name after tmp, ~ known name -> exists e, brick_items files region brickname rows (before ++ Registered name :: after) tmp = Err e /\ (before = [] -> e = ValueError).
Proof.
  intros files region brickname rows. induction before as [|c before IH]; intros name after tmp NK; cbn [app brick_items].
  - cbn [quantities]. destruct (registered region name rows) as [a|e] eqn:RG; [elim NK; eapply registered_known; eauto|]. exists ValueError. split; auto. cbn [bind].
    unfold registered in RG. repeat match type of RG with (if ?c then _ else _) = _ => destruct c; [discriminate|] end. congruence.
  - destruct (quantities files region brickname rows c) as [items|e]; cbn [bind]; [|exists e; split; auto; discriminate]. destruct (IH name after (update tmp items) NK) as (e & HE & _). exists e. split; auto. discriminate.
Qed.
Lemma map_result_first : forall {A B} (f : A -> result B) l e, l <> [] -> (forall a, In a l -> f a = Err e) -> map_result f l = Err e.
Proof. intros A B f [|a l] e NE H; [congruence|]. cbn. rewrite (H a); cbn; auto. Qed.
Lemma map_result_fails : forall {A B} (f : A -> result B) l, l <> [] -> (forall a, In a l -> exists e, f a = Err e) -> exists e, map_result f l = Err e.
Proof. intros A B f [|a l] NE H; [congruence|]. cbn. destruct (H a) as [e ->]; [cbn; auto|]. exists e. auto. Qed.
Lemma do_bricks_unknown : forall files b before name after rows sort, ~ known name -> keeps_names sort -> rows <> [] ->
  exists e, on_rows files b (before ++ Registered name :: after) sort rows = Err e /\ (before = [] -> e = ValueError).
Proof.
  intros files b before name after rows sort NK KN NE. unfold on_rows. destruct (sort (uniques (map r_name rows))) as [|n names] eqn:ES.
  - exfalso. destruct rows as [|r rows]; [congruence|]. assert (IN : In (r_name r) (sort (uniques (map r_name (r :: rows))))) by (eapply Permutation_in; [symmetry; apply KN|]; cbn; auto). rewrite ES in IN. contradiction.
  - cbn [do_bricks]. unfold do_brick. assert (IN : In n (map r_name rows)). { apply uniques_in. eapply Permutation_in; [apply KN|]. rewrite ES. cbn. auto. }
    apply in_map_iff in IN. destruct IN as (r & EN & IR). assert (IF : In r (filter (fun r => r_name r =? n) rows)) by (apply filter_In; split; auto; apply String.eqb_eq; auto).
    destruct (filter (fun r => r_name r =? n) rows) as [|r0 mine]; [contradiction|]. cbv zeta.
    destruct (brick_items_unknown files (if Rltb (32375 / 1000) (b_dec b (r_ra r0) (r_dec r0)) then "north" else "south") n (r0 :: mine) before name after [] NK) as (e & HE & HV). rewrite HE. cbn [bind]. eauto.
Qed.
Lemma exchange_nonempty : forall (exchange : list brow -> list (list brow)) rows, keeps_rows exchange -> rows <> [] -> filter (fun part => negb (Nat.eqb (List.length part) 0)) (exchange rows) <> [].
Proof. intros exchange rows KR NE HE. pose proof (concat_nonempty (exchange rows)) as CE. rewrite HE in CE. cbn in CE. pose proof (KR rows) as PR. rewrite <- CE in PR. apply Permutation_nil in PR. auto. Qed.
Theorem C51_unknown : forall files b sort exchange before name after positions, keeps_names sort -> keeps_rows exchange -> positions <> [] -> ~ known name ->
  exists e, get_brick_pixel_quantities files b sort exchange (before ++ Registered name :: after) positions = Err e /\ (before = [] -> e = ValueError).
Proof.
  intros files b sort exchange before name after positions KN KR NE NK. unfold get_brick_pixel_quantities. destruct (before ++ Registered name :: after)%list as [|c0 cs] eqn:EC; [destruct before; discriminate|]. rewrite <- EC. clear EC c0 cs.
  destruct positions as [|p ps]; [congruence|]. cbv zeta. set (rows := rows_at b 0 (p :: ps)). pose proof (exchange_nonempty exchange rows KR ltac:(discriminate)) as NX.
  assert (ALL : forall part, In part (filter (fun part => negb (Nat.eqb (List.length part) 0)) (exchange rows)) -> exists e, (do data <- on_rows files b (before ++ Registered name :: after) sort part; Ok (part, data)) = Err e /\ (before = [] -> e = ValueError)).
  { intros part HP. apply filter_In in HP. destruct HP as [_ HP]. destruct (do_bricks_unknown files b before name after part sort NK KN) as (e & HE & HV); [destruct part; [discriminate|congruence]|]. exists e. rewrite HE. auto. }
  destruct before as [|c before].
  - exists ValueError. split; auto. rewrite (map_result_first _ _ ValueError NX); auto. intros a HA. destruct (ALL a HA) as (e & HE & HV). rewrite HE. rewrite HV; auto.
  - destruct (map_result_fails (fun part => do data <- on_rows files b ((c :: before) ++ Registered name :: after) sort part; Ok (part, data)) _ NX) as [e HE]; [intros a HA; destruct (ALL a HA) as (e & HE & _); eauto|]. exists e. rewrite HE. split; auto. discriminate.
Qed.

(** ** Success, and the same result for all distributions *)
Section Success.
Variables (files : string -> option image) (b : bricks) (positions : list (R * R)).
Hypothesis OC : one_centre b.
Definition fits (c : column) (n : nat) (x : string * array) : Prop := fst x = name_of c /\ List.length (a_values (snd x)) = n.
Lemma as_array_total : forall dtype k l, Forall (fun v => exists w, converted dtype v w) l -> exists a, as_array dtype k l = Ok a.
Proof.
  intros [d|] k l H; cbn; eauto. assert (X : exists l', map_result (cast d) l = Ok l'). { induction H as [|v l (w & HW) _ [l' IH]]; cbn; eauto. rewrite (converted_cast _ _ _ HW). cbn. rewrite IH. cbn. eauto. }
  destruct X as [l' ->]. cbn. eauto.
Qed.
Lemma readable_gives : forall c, readable files b positions c -> exists k f, gives files (from_positions b positions) c (name_of c) k f /\
  (forall r region v v', f region (r_name r) r v -> f region (r_name r) r v' -> from_positions b positions r -> region = region_at b r -> v = v').
Proof.
  intros [n|n fn d v0|call o] RD; cbn in RD; [| |contradiction].
  - destruct (registered_gives files b positions n RD) as [k G]. exists k. eexists. split; [exact G|]. cbv beta. intros r region v v' HV HV' (i & p & IP & ->) ->. specialize (HV i p eq_refl (region_at_in _ _ _)). specialize (HV' i p eq_refl (region_at_in _ _ _)).
    assert (XX : forall q, in_region b q "north" -> in_region b q "south" -> False). { intros q [[X1 X2]|[X1 X2]] [[Y1 Y2]|[Y1 Y2]]; try discriminate; tauto. }
    revert HV'. inversion HV as [N1 N2|N1 N2|N1|N1|N1|N1|N1]; intros HV'; inversion HV'; subst; auto; try congruence; exfalso; eauto.
  - destruct RD as (RE & [k OK] & _). exists k. eexists. split; [apply mapped_gives; eauto|]. intros r region v v' (w & W1 & W2) (w' & W1' & W2') _ ->. destruct (files _) as [im|].
    + destruct W2 as (x & y & E1 & _ & _ & ->). destruct W2' as (x' & y' & E1' & _ & _ & ->). rewrite E1 in E1'. injection E1' as <- <-. eapply converted_fun; eauto.
    + rewrite W2 in W2'. injection W2' as <-. eapply converted_fun; eauto.
Qed.
Lemma readable_total : forall c region brickname rows, readable files b positions c -> rows <> [] -> Forall (fun r => from_positions b positions r /\ r_name r = brickname) rows -> 
  exists a, quantities files region brickname rows c = Ok [(name_of c, a)].
Proof.
  intros [n|n fn d v0|call o] region brickname rows RD NR FR; cbn in RD; [| |contradiction]; cbn [quantities].
  - assert (X : exists a, registered region n rows = Ok a); [|destruct X as [a ->]; cbn; eauto]. unfold registered. unfold known in RD. cbn in RD. repeat destruct RD as [RD|RD]; try contradiction; rewrite <- RD; cbn; eauto.
  - destruct RD as (RE & _ & (v & w & -> & CV) & CI). assert (X : exists a, one_brick files (fn region brickname) rows d (Some v) = Ok a); [|destruct X as [a ->]; cbn; eauto]. unfold one_brick. destruct (files (fn region brickname)) as [im|] eqn:EF.
    + assert (MP : exists l, map_result (pixel im) rows = Ok l /\ Forall (fun v => exists w, converted d v w) l).
      { clear NR. induction FR as [|r rows [(i & p & IP & ->) EN] _ (l & IH & IF)]; cbn [map_result]; [exists []; auto|]. cbn in EN. destruct (RE region p im IP) as (x & y & PX & HX & HY); [unfold brick_of; rewrite EN; auto|].
        unfold pixel at 1. cbn. rewrite PX. cbn [fst snd]. rewrite !index_inside by auto. cbn [bind]. rewrite IH. cbn [bind]. eexists. split; [reflexivity|]. constructor; auto. apply (CI region p im y x IP). unfold brick_of. rewrite EN. auto. }
      destruct MP as (l & -> & FL). cbn [bind]. apply as_array_total; auto.
    + apply as_array_total. apply Forall_forall. intros x X. apply in_map_iff in X. destruct X as (r & <- & _). eauto.
Qed.
Lemma update_fresh : forall {A} (l : list (string * A)) n a, ~ In n (map fst l) -> update l [(n, a)] = (l ++ [(n, a)])%list.
Proof. intros A l n a NI. unfold update. cbn [fold_left fst snd]. induction l as [|[k x] l IH]; cbn in *; auto. destruct (String.eqb_spec k n); [subst; tauto|]. rewrite IH by tauto. auto. Qed.
Lemma brick_items_total : forall region brickname rows, rows <> [] -> Forall (fun r => from_positions b positions r /\ r_name r = brickname) rows -> forall cs tmp, Forall (readable files b positions) cs -> NoDup (map fst tmp ++ map name_of cs)%list ->
  exists items, brick_items files region brickname rows cs tmp = Ok items /\ map fst items = (map fst tmp ++ map name_of cs)%list.
Proof.
  intros region brickname rows NR FR. induction cs as [|c cs IH]; intros tmp RD ND; cbn [brick_items map]; [exists tmp; rewrite app_nil_r; auto|]. inversion RD as [|? ? R0 R1]; subst. destruct (readable_total c region brickname rows R0 NR FR) as [a ->]. cbn [bind].
  assert (NI : ~ In (name_of c) (map fst tmp)). { cbn in ND. apply NoDup_remove_2 in ND. rewrite in_app_iff in ND. tauto. }
  rewrite update_fresh by auto. destruct (IH (tmp ++ [(name_of c, a)])%list R1) as (items & -> & HK). { rewrite map_app. cbn [map fst]. rewrite <- app_assoc. auto. }
  exists items. split; auto. rewrite HK, map_app, <- app_assoc. auto.
Qed.
Definition addkey (l : list string) (n : string) : list string := if existsb (fun k => k =? n) l then l else (l ++ [n])%list.
Lemma assign_total : forall (p : brow -> bool) k rows values (l : list (option value)), List.length values = List.length (filter p rows) -> List.length l = List.length rows -> Forall (fun v => kind_of v = k) values ->
  exists l', assign (put k) (map p rows) values l = Ok l'.
Proof.
  intros p k. induction rows as [|r rows IH]; intros values [|o l] LV LL FK; cbn in *; try lia; eauto. destruct (p r).
  - destruct values as [|v values]; [discriminate|]. inversion FK as [|? ? K0 FK0]; subst. unfold put at 1. rewrite cast_same by auto. cbn [bind]. destruct (IH values l) as [l' ->]; cbn in *; auto; try lia. cbn. eauto.
  - destruct (IH values l LV) as [l' ->]; auto; try lia. cbn. eauto.
Qed.
Lemma filter_map_length : forall (p : brow -> bool) rows, List.length (filter (fun b : bool => b) (map p rows)) = List.length (filter p rows).
Proof. intros p. induction rows as [|r rows IH]; cbn; auto. destruct (p r); cbn; auto. Qed.
(** Arrays of a process: kinds and sizes. *)
Definition sized (kinds : string -> kind) (n : nat) (data : pdata) : Prop := forall name k l, assoc name data = Some (k, l) -> k = kinds name /\ List.length l = n.
Lemma store_all_total : forall (p : brow -> bool) kinds rows items data, sized kinds (List.length rows) data -> 
  Forall (fun x => a_kind (snd x) = kinds (fst x) /\ Forall (fun v => kind_of v = kinds (fst x)) (a_values (snd x)) /\ List.length (a_values (snd x)) = List.length (filter p rows)) items ->
  exists data', store_all (List.length rows) (map p rows) data items = Ok data' /\ sized kinds (List.length rows) data' /\ map fst data' = fold_left addkey (map fst items) (map fst data).
Proof.
  intros p kinds rows. induction items as [|[n a] items IH]; intros data SZ FI; cbn [store_all]; [exists data; auto|]. inversion FI as [|? ? (K0 & KV & LV) FI0]; subst. cbn [fst snd] in *. cbn [store].
  destruct (match assoc n data with Some c => c | None => (a_kind a, repeat None (List.length rows)) end) as [k l] eqn:EK.
  assert (KL : k = kinds n /\ List.length l = List.length rows). { destruct (assoc n data) as [[k1 l1]|] eqn:EA; injection EK as <- <-; [apply (SZ _ _ _ EA)|]. rewrite repeat_length. auto. }
  destruct KL as [-> LL]. rewrite filter_map_length, LV, Nat.eqb_refl. cbn [negb]. destruct (assign_total p (kinds n) rows (a_values a) l) as [l' AS]; auto. rewrite AS. cbn [bind].
  destruct (IH (set_item n (kinds n, l') data)) as (data' & HD & SD & KD); auto.
  - intros m k0 l0 HA. rewrite assoc_set in HA. destruct (String.eqb_spec n m); [|eapply SZ; eauto]. injection HA as <- <-. subst. split; auto. rewrite (assign_length _ _ _ _ _ AS). auto.
  - exists data'. split; auto. split; auto. rewrite KD, set_item_keys. cbn [map fold_left]. reflexivity.
Qed.
Lemma addkey_all : forall names l, NoDup (l ++ names)%list -> fold_left addkey names l = (l ++ names)%list.
Proof.
  induction names as [|n names IH]; intros l ND; cbn; [rewrite app_nil_r; auto|]. unfold addkey at 2. destruct (existsb (fun k => k =? n) l) eqn:EX.
  - exfalso. apply existsb_exists in EX. destruct EX as (x & X1 & X2). apply String.eqb_eq in X2. subst. apply NoDup_remove_2 in ND. apply ND. apply in_app_iff. auto.
  - rewrite IH; rewrite <- app_assoc; auto.
Qed.
Lemma addkey_none : forall names l, incl names l -> fold_left addkey names l = l.
Proof.
  induction names as [|n names IH]; intros l HI; cbn; auto. unfold addkey at 2. destruct (existsb (fun k => k =? n) l) eqn:EX; [apply IH; intros x X; apply HI; cbn; auto|].
  exfalso. assert (existsb (fun k => k =? n) l = true); [|congruence]. apply existsb_exists. exists n. split; [apply HI; cbn; auto|apply String.eqb_refl].
Qed.
Lemma find_name : forall cs c, NoDup (map name_of cs) -> In c cs -> find (fun d => name_of d =? name_of c) cs = Some c.
Proof. induction cs as [|d cs IH]; intros c ND IC; cbn in *; [contradiction|]. inversion ND as [|? ? NI ND0]; subst. destruct IC as [->|IC]; [rewrite String.eqb_refl; auto|]. destruct (String.eqb_spec (name_of d) (name_of c)) as [EN|]; auto. elim NI. rewrite EN. apply in_map; auto. Qed.

Variables (cs : list column).
Hypothesis RD : Forall (readable files b positions) cs.
Hypothesis ND : NoDup (map name_of cs).
Lemma readable_dictionary : Forall is_dictionary cs.
Proof. eapply Forall_impl; [|exact RD]. intros [] H; cbn in *; auto. contradiction. Qed.
Lemma kinds_exist : exists kinds : string -> kind, forall c, In c cs -> exists f, gives files (from_positions b positions) c (name_of c) (kinds (name_of c)) f.
Proof.
  clear - RD ND. induction cs as [|c l IH]; [exists (fun _ => KInt); contradiction|]. inversion RD as [|? ? R0 R1]; inversion ND as [|? ? N0 N1]; subst. destruct (IH R1 N1) as [kinds HK]. destruct (readable_gives c R0) as (k & f & G & _).
  exists (fun n => if n =? name_of c then k else kinds n). intros d [<-|ID]; [rewrite String.eqb_refl; eauto|]. destruct (String.eqb_spec (name_of d) (name_of c)) as [EN|]; [|auto]. elim N0. rewrite <- EN. apply in_map. auto.
Qed.
Lemma leaves_others : forall cs1 c cs2, cs = (cs1 ++ c :: cs2)%list -> Forall (leaves (name_of c)) cs2.
Proof.
  intros cs1 c cs2 E0. apply Forall_forall. intros d ID. assert (DN : name_of d <> name_of c). { rewrite E0, map_app in ND. cbn in ND. apply NoDup_remove_2 in ND. intros EN. apply ND. rewrite <- EN. apply in_app_iff. right. apply in_map. auto. }
  assert (R1 : readable files b positions d). { rewrite Forall_forall in RD. apply RD. rewrite E0. apply in_app_iff. cbn. auto. } destruct d; cbn in *; try contradiction; auto.
Qed.
Lemma forall2_len : forall {A B} (rel : A -> B -> Prop) l l', Forall2 rel l l' -> List.length l = List.length l'.
Proof. intros A B rel l l' F. induction F; cbn; auto. Qed.
Lemma do_bricks_total : forall kinds rows, (forall c, In c cs -> exists f, gives files (from_positions b positions) c (name_of c) (kinds (name_of c)) f) -> Forall (from_positions b positions) rows ->
  forall names data, (forall n, In n names -> exists r, In r rows /\ r_name r = n) -> sized kinds (List.length rows) data -> (map fst data = [] \/ map fst data = map name_of cs) ->
  exists data', do_bricks files b cs rows names data = Ok data' /\ sized kinds (List.length rows) data' /\ (names <> [] \/ map fst data = map name_of cs -> map fst data' = map name_of cs).
Proof.
  intros kinds rows GK FP. induction names as [|n names IH]; intros data HN SZ KD; cbn [do_bricks]; [exists data; intuition|]. destruct (HN n) as (r & IR & EN); [cbn; auto|].
  assert (X : exists d1, do_brick files b cs rows data n = Ok d1 /\ sized kinds (List.length rows) d1 /\ map fst d1 = map name_of cs).
  { unfold do_brick. assert (IF : In r (filter (fun r => r_name r =? n) rows)) by (apply filter_In; split; auto; apply String.eqb_eq; auto). destruct (filter (fun r => r_name r =? n) rows) as [|r0 mine] eqn:FM; [contradiction|]. rewrite <- FM. cbv zeta.
    set (rg := if Rltb (32375 / 1000) (b_dec b (r_ra r0) (r_dec r0)) then "north" else "south").
    assert (NR : filter (fun r => r_name r =? n) rows <> []) by (rewrite FM; discriminate).
    assert (FR : Forall (fun r => from_positions b positions r /\ r_name r = n) (filter (fun r => r_name r =? n) rows)).
    { apply Forall_forall. intros x X. apply filter_In in X. destruct X as [X1 X2]. apply String.eqb_eq in X2. rewrite Forall_forall in FP. auto. }
    destruct (brick_items_total rg n _ NR FR cs [] RD ND) as (items & HI & KI). rewrite HI. cbn [bind map app] in KI |- *.
    destruct (store_all_total (fun r => r_name r =? n) kinds rows items data SZ) as (d1 & HD & S1 & K1).
    - apply Forall_forall. intros [m a] IM. cbn [fst snd]. assert (IC : In m (map name_of cs)). { rewrite <- KI. apply (in_map fst) in IM. auto. } apply in_map_iff in IC. destruct IC as (c & <- & IC). destruct (GK c IC) as [f G].
      apply in_split in IC. destruct IC as (cs1 & cs2 & E0). pose proof readable_dictionary as DI. rewrite E0 in HI, DI. destruct (brick_items_gives _ _ _ _ _ _ _ _ _ _ _ _ G DI (leaves_others _ _ _ E0) NR FR HI) as (NDI & a' & A1 & A2 & A3 & A4).
      rewrite (assoc_in _ _ _ NDI IM) in A1. injection A1 as <-. split; auto. split; auto. symmetry. eapply forall2_len; eauto.
    - exists d1. split; auto. split; auto. rewrite K1, KI. destruct KD as [->| ->]; [apply addkey_all; auto|apply addkey_none; intros x X; auto]. }
  destruct X as (d1 & -> & S1 & K1). cbn [bind]. destruct (IH d1) as (d2 & H2 & S2 & K2); auto; [intros m IM; apply HN; cbn; auto|]. exists d2. split; auto.
Qed.
Lemma list_eqb_refl_nat : forall l, list_eqb Nat.eqb l l = true.
Proof. induction l as [|x l IH]; cbn; auto. rewrite Nat.eqb_refl. auto. Qed.
Lemma get_total : forall sort exchange, keeps_names sort -> keeps_rows exchange -> positions <> [] -> cs <> [] ->
  exists out, get_brick_pixel_quantities files b sort exchange cs positions = Ok out /\ map fst out = map name_of cs.
Proof.
  intros sort exchange KN KR NP NC. unfold get_brick_pixel_quantities. destruct cs as [|c0 cs0] eqn:EC; [congruence|]. rewrite <- EC in *. clear EC c0 cs0 NC. destruct positions as [|p0 ps] eqn:EP0; [congruence|]. rewrite <- EP0 in *. clear NP. assert (NP : positions <> []) by congruence. clear EP0 p0 ps. cbv zeta.
  set (rows := rows_at b 0 positions) in *. assert (NR : rows <> []) by (unfold rows; destruct positions; [congruence|discriminate]). pose proof (exchange_nonempty exchange rows KR NR) as NX.
  assert (FX : Forall (from_positions b positions) (List.concat (exchange rows))). { apply Forall_forall. intros r HR. eapply Permutation_in in HR; [|apply KR]. revert r HR. apply Forall_forall. apply rows_at_from. }
  destruct kinds_exist as [kinds GK].
  assert (PT : forall ls, incl ls (exchange rows) -> exists parts, map_result (fun part => do data <- on_rows files b cs sort part; Ok (part, data)) (filter (fun part => negb (Nat.eqb (List.length part) 0)) ls) = Ok parts /\
    map fst parts = filter (fun part => negb (Nat.eqb (List.length part) 0)) ls /\ Forall (fun p => map fst (snd p) = map name_of cs /\ sized kinds (List.length (fst p)) (snd p)) parts).
  { induction ls as [|part ls IH]; intros HI; [exists []; cbn; auto|]. destruct IH as (parts & H1 & H2 & H3); [intros x X; apply HI; cbn; auto|]. cbn [filter]. destruct (Nat.eqb_spec (List.length part) 0) as [L0|L0]; cbn [negb]; [eauto|].
    assert (FP : Forall (from_positions b positions) part). { rewrite Forall_forall in FX |- *. intros r HR. apply FX. apply in_concat. exists part. split; auto. apply HI. cbn. auto. }
    destruct (do_bricks_total kinds part GK FP (sort (uniques (map r_name part))) []) as (d & HD & SD & KD).
    - intros n IN. eapply Permutation_in in IN; [|apply KN]. apply (proj1 (uniques_in _ _)) in IN. apply in_map_iff in IN. destruct IN as (r & E0 & IR). eauto.
    - intros m k l HA. discriminate.
    - cbn; auto.
    - cbn [map_result]. unfold on_rows at 1. rewrite HD. cbn [bind]. rewrite H1. cbn [bind]. eexists. split; [reflexivity|]. cbn [map fst]. rewrite H2. split; auto. constructor; auto. cbn [fst snd]. split; auto. apply KD. left. intros EN.
      destruct part as [|r part]; [cbn in L0; lia|]. assert (IN : In (r_name r) (sort (uniques (map r_name (r :: part))))) by (eapply Permutation_in; [symmetry; apply KN|]; cbn; auto). rewrite EN in IN. contradiction. }
  destruct (PT (exchange rows)) as (parts & HP & KP & FP); [intros x X; auto|]. rewrite HP. cbn [bind].
  assert (GC : forall n, In n (map name_of cs) -> exists g, gather_column n parts = Ok g /\ map fst (sort_by fst g) = map r_index rows).
  { intros n IN. destruct (gather_good n (kinds n) parts (fun _ _ => True)) as (g & HG & FG).
    - eapply Forall_impl; [|exact FP]. cbv beta. intros [pr d] [K1 S1]. cbn [fst snd] in *. rewrite <- K1 in IN. destruct (assoc n d) as [[k l]|] eqn:EA.
      + destruct (S1 _ _ _ EA) as [-> LL]. exists l. split; auto. clear - LL. revert l LL. induction pr; intros [|o l] LL; cbn in LL; try discriminate; constructor; auto.
      + exfalso. clear - IN EA. induction d as [|[m x] d IH]; cbn in *; [contradiction|]. destruct (String.eqb_spec m n); [discriminate|]. destruct IN; [congruence|auto].
    - exists g. split; auto. rewrite KP, concat_nonempty in FG. pose proof (sort_back_gen _ fst brow r_index _ rows _ _ (fun r x HX => proj1 HX) (rows_at_sorted _ _ _) (KR rows) FG) as FS.
      clear - FS. remember (sort_by fst g) as sg eqn:ES. clear ES. induction FS as [|r x rs xs [HX _] F IH]; cbn; congruence. }
  unfold gather. destruct parts as [|[pr d] parts].
  { exfalso. cbn in KP. apply NX. auto. }
  inversion FP as [|? ? [K1 _] _]; subst. cbn [fst snd] in K1 |- *.
  assert (MR : forall d', incl (map fst d') (map name_of cs) -> exists out, map_result (fun c : string * (kind * list (option value)) => do l <- gather_column (fst c) ((pr, d) :: parts); let l := sort_by fst l in if negb (list_eqb Nat.eqb (map fst l) (map r_index rows)) then Err AssertionError else Ok (fst c, map snd l)) d' = Ok out /\ map fst out = map fst d').
  { induction d' as [|[n x] d' IH]; intros HI; cbn [map_result]; [exists []; auto|]. cbn [fst]. destruct (GC n) as (g & HG & HF); [apply HI; cbn; auto|]. rewrite HG. cbn [bind]. cbv zeta. rewrite HF, list_eqb_refl_nat. cbn [negb bind]. destruct IH as (out & HO & KO); [intros y Y; apply HI; cbn; auto|].
    cbv zeta in HO. rewrite HO. cbn [bind]. eexists. split; [reflexivity|]. cbn. rewrite KO. auto. }
  destruct (MR d) as (out & HO & KO); [rewrite K1; intros x X; auto|]. exists out. split; auto. congruence.
Qed.
Lemma assoc_ext : forall {A} (l l' : list (string * A)), map fst l = map fst l' -> NoDup (map fst l) -> (forall n, In n (map fst l) -> assoc n l = assoc n l') -> l = l'.
Proof.
  intros A. induction l as [|[n a] l IH]; intros [|[n' a'] l'] HK HN HA; cbn in HK; try discriminate; auto. injection HK as <- HK. cbn in HN. inversion HN as [|? ? NI HN0]; subst. pose proof (HA n) as H0. cbn in H0. rewrite String.eqb_refl in H0. specialize (H0 (or_introl eq_refl)). injection H0 as <-. f_equal.
  apply IH; auto. intros m IM. specialize (HA m). cbn in HA. destruct (String.eqb_spec n m); [subst; contradiction|]. auto.
Qed.
Lemma get_unique : forall sort exchange sort' exchange' out out', keeps_names sort -> keeps_rows exchange -> keeps_names sort' -> keeps_rows exchange' -> positions <> [] ->
  get_brick_pixel_quantities files b sort exchange cs positions = Ok out -> get_brick_pixel_quantities files b sort' exchange' cs positions = Ok out' -> map fst out = map name_of cs -> map fst out' = map name_of cs -> out = out'.
Proof.
  intros sort exchange sort' exchange' out out' KN KR KN' KR' NP H H' K K'. apply assoc_ext; [congruence|rewrite K; auto|]. intros n IN. rewrite K in IN. apply in_map_iff in IN. destruct IN as (c & <- & IC). pose proof IC as IC'. apply in_split in IC'. destruct IC' as (cs1 & cs2 & E0).
  assert (R0 : readable files b positions c) by (rewrite Forall_forall in RD; auto). destruct (readable_gives c R0) as (k & f & G & FU). pose proof readable_dictionary as DI. pose proof (leaves_others _ _ _ E0) as LO. rewrite E0 in H, H', DI.
  destruct (brick_engine _ _ _ _ _ _ _ _ _ _ _ _ OC KN KR NP G DI LO H) as (l & -> & F). destruct (brick_engine _ _ _ _ _ _ _ _ _ _ _ _ OC KN' KR' NP G DI LO H') as (l' & -> & F'). f_equal.
  pose proof (rows_at_from b positions 0) as FP. clear - F F' FU FP. revert l' F'. induction F as [|r o rows l (v & -> & HV) F IH]; intros l' F'; inversion F' as [|? o' ? l0 (v' & -> & HV') F0]; subst; auto. inversion FP as [|? ? P0 P1]; subst.
  rewrite (FU r _ v v' HV HV' P0 eq_refl). f_equal. auto.
Qed.
End Success.

(** Readable columns: the columns asked for are returned, and neither the distribution of objects nor the order of bricks has any effect. *)
Theorem C51_distribution : forall files b positions columns, one_centre b -> Forall (readable files b positions) columns -> NoDup (map name_of columns) -> columns <> [] -> positions <> [] ->
  exists out, map fst out = map name_of columns /\ forall sort exchange, keeps_names sort -> keeps_rows exchange -> get_brick_pixel_quantities files b sort exchange columns positions = Ok out.
Proof.
  intros files b positions columns OC RD ND NC NP.
  assert (K0 : keeps_names (fun l => l)) by (intros l; auto). assert (R0 : keeps_rows (fun rows => [rows])) by (intros rows; cbn; rewrite app_nil_r; auto).
  destruct (get_total files b positions columns RD ND _ _ K0 R0 NP NC) as (out & HO & KO). exists out. split; auto. intros sort exchange KN KR.
  destruct (get_total files b positions columns RD ND _ _ KN KR NP NC) as (out' & HO' & KO'). rewrite HO'. f_equal. exact (get_unique files b positions OC columns RD ND _ _ _ _ _ _ KN KR K0 R0 NP HO' HO KO' KO).
Qed.

(** ** What goes wrong *)
Definition two_bricks : bricks := Bricks (fun ra _ => if Rltb ra 10 then "a" else "b") (fun ra _ => if Rltb ra 10 then 1%Z else 2%Z) (fun _ _ => 0%R).
Definition two_positions : list (R * R) := [(0, 0); (20, 0)]%R.
Lemma two_rows : rows_at two_bricks 0 two_positions = [BRow 0 0 "a" 1 0; BRow 20 0 "b" 2 1].
Proof. cbn. unfold row_at. cbn. replace (Rltb 0 10) with true by (symmetry; apply Rltb_true; lra). replace (Rltb 20 10) with false by (symmetry; apply Rltb_false; lra). auto. Qed.
Lemma two_centre : one_centre two_bricks.
Proof. intros ra dec ra' dec' _. reflexivity. Qed.
Lemma south_test : Rltb (32375 / 1000) 0 = false.
Proof. apply Rltb_false. lra. Qed.
Lemma no_sort : keeps_names (fun l => l).
Proof. intros l. auto. Qed.
Lemma one_process : keeps_rows (fun rows => [rows]).
Proof. intros rows. cbn. rewrite app_nil_r. auto. Qed.
Arguments Rltb : simpl never.
(** Without dtype, the first brick decides: here it has no file and an integer default, and the floats of the other brick are truncated. *)
Definition float_file (fn : string) : option image := if fn =? "b" then Some (Image (fun _ _ => (0, 0)%Z) 1 1 KFloat (fun _ _ => VFloat (1 / 2))) else None.
Theorem C51_kind_refuted : exists files b sort exchange positions fn default out l, one_centre b /\ keeps_names sort /\ keeps_rows exchange /\ reaches files b fn positions /\
  get_brick_pixel_quantities files b sort exchange [Mapped "depth" fn None default] positions = Ok out /\ assoc "depth" out = Some l /\
  ~ in_order (fun i p v => exists w, own_value files b fn default p w /\ converted None w v) 0 positions l.
Proof.
  exists float_file, two_bricks, (fun l => l), (fun rows => [rows]), two_positions, (fun _ brickname => brickname), (Some (VInt 0)), [("depth", [Some (VInt 0); Some (VInt (Rtrunc (1 / 2)))])], [Some (VInt 0); Some (VInt (Rtrunc (1 / 2)))].
  split; [apply two_centre|]. split; [apply no_sort|]. split; [apply one_process|]. split.
  { intros region p im IP HF. unfold float_file in HF. destruct (_ =? _); [|discriminate]. injection HF as <-. exists 0%Z, 0%Z. split; [reflexivity|cbn; lia]. }
  split; [|split; [reflexivity|]].
  - unfold get_brick_pixel_quantities. rewrite two_rows. unfold two_positions. cbn. unfold on_rows. cbn. unfold do_brick. cbn. try rewrite south_test. cbn. reflexivity.
  - cbn. intros (_ & (w & (region & _ & HW) & HC) & _). unfold brick_of in HW. cbn in HW. replace (Rltb 20 10) with false in HW by (symmetry; apply Rltb_false; lra). cbn in HW. destruct HW as (x & y & _ & _ & _ & ->). inversion HC.
Qed.
(** A callable that leaves a quantity out in one brick: the items of this brick are never set. *)
Theorem C51_missing_refuted : exists files b sort exchange positions call out l, one_centre b /\ keeps_names sort /\ keeps_rows exchange /\ dictionary call /\
  get_brick_pixel_quantities files b sort exchange [Called call (fun _ => [])] positions = Ok out /\ assoc "depth" out = Some l /\ In None l.
Proof.
  exists (fun _ => None), two_bricks, (fun l => l), (fun rows => [rows]), two_positions, (fun rows brickname _ => Ok (if brickname =? "a" then [("depth", Array KInt (map (fun _ => VInt 7) rows))] else [])), [("depth", [Some (VInt 7); None])], [Some (VInt 7); None].
  split; [apply two_centre|]. split; [apply no_sort|]. split; [apply one_process|]. split.
  { intros rows brickname options items HI. apply ok_inj_p in HI. subst. destruct (brickname =? "a"); cbn; repeat constructor; cbn; tauto. }
  split; [|split; [reflexivity|cbn; auto]].
  unfold get_brick_pixel_quantities. rewrite two_rows. unfold two_positions. cbn. unfold on_rows. cbn. unfold do_brick. cbn. try rewrite south_test. cbn. reflexivity.
Qed.
(** A position just outside the image of its brick, one pixel below the first: the pixel at the other edge is returned. *)
Definition edge_file (fn : string) : option image := Some (Image (fun _ _ => (0, -1)%Z) 3600 3600 KInt (fun y _ => VInt y)).
Theorem C51_edge_refuted : exists files b sort exchange positions fn default out l, one_centre b /\ keeps_names sort /\ keeps_rows exchange /\ one_kind files b fn None default KInt positions /\
  get_brick_pixel_quantities files b sort exchange [Mapped "bits" fn None default] positions = Ok out /\ assoc "bits" out = Some l /\
  ~ in_order (fun i p v => exists w, own_value files b fn default p w /\ converted None w v) 0 positions l.
Proof.
  exists edge_file, two_bricks, (fun l => l), (fun rows => [rows]), two_positions, (fun _ brickname => brickname), (Some (VInt 0)), [("bits", [Some (VInt 3599); Some (VInt 3599)])], [Some (VInt 3599); Some (VInt 3599)].
  split; [apply two_centre|]. split; [apply no_sort|]. split; [apply one_process|]. split.
  { right. split; auto. split; [intros region p im _ HF; injection HF as <-; cbn; auto|intros v HV; injection HV as <-; auto]. }
  split; [|split; [reflexivity|]].
  - unfold get_brick_pixel_quantities. rewrite two_rows. unfold two_positions. cbn. unfold on_rows. cbn. unfold do_brick. cbn. try rewrite south_test. cbn. reflexivity.
  - cbn. intros ((w & (region & _ & x & y & PX & _ & HY & _) & _) & _). cbn in PX. injection PX as <- <-. cbn in HY. lia.
Qed.

(** Two bricks on two processes, the last one first; one file has bits, the other brick has no file. *)
Definition bits_file (fn : string) : option image := if fn =? "south/b" then Some (Image (fun ra _ => (if Rltb ra 21 then 3%Z else 0%Z, 2%Z)) 10 10 KInt (fun y x => VInt (10 * y + x))) else None.
Definition reversed (rows : list brow) : list (list brow) := [rev (filter (fun r => r_name r =? "b") rows); []; filter (fun r => negb (r_name r =? "b")) rows].
Lemma reversed_keeps : keeps_rows reversed.
Proof.
  intros rows. unfold reversed. cbn. rewrite app_nil_r. eapply perm_trans; [apply Permutation_app_tail; symmetry; apply Permutation_rev|]. induction rows as [|r rows IH]; cbn; auto. destruct (r_name r =? "b"); cbn; auto. eapply perm_trans; [symmetry; apply Permutation_middle|]. auto.
Qed.
Example C51_case : let columns := [Registered "PHOTSYS"; Mapped "bits" (fun region brickname => region ++ "/" ++ brickname)%string (Some KInt) (Some (VInt 99))] in
  one_centre two_bricks /\ keeps_names (@rev string) /\ keeps_rows reversed /\ Forall (readable bits_file two_bricks two_positions) columns /\ NoDup (map name_of columns) /\
  get_brick_pixel_quantities bits_file two_bricks (@rev string) reversed columns two_positions = Ok [("PHOTSYS", [Some (VStr "S"); Some (VStr "S")]); ("bits", [Some (VInt 99); Some (VInt 23)])].
Proof.
  cbv zeta. split; [apply two_centre|]. split; [intros l; symmetry; apply Permutation_rev|]. split; [apply reversed_keeps|].
  assert (IM : forall region p im, bits_file (region ++ "/" ++ brick_of two_bricks p) = Some im -> im = Image (fun ra _ => (if Rltb ra 21 then 3%Z else 0%Z, 2%Z)) 10 10 KInt (fun y x => VInt (10 * y + x))).
  { intros region p im HF. unfold bits_file in HF. destruct (_ =? _); [|discriminate]. congruence. }
  split; [|split].
  - constructor; [cbn; unfold known; cbn; auto|]. constructor; [|constructor]. cbn. split; [|split; [|split]].
    + intros region p im _ HF. apply IM in HF. subst. cbn. destruct (Rltb (fst p) 21); repeat eexists; lia.
    + exists KInt. left. auto.
    + exists (VInt 99), (VInt 99). split; auto. constructor.
    + intros region p im y x _ HF. apply IM in HF. subst. cbn. eexists. constructor.
  - cbn. repeat constructor; cbn; intuition discriminate.
  - unfold get_brick_pixel_quantities. rewrite two_rows. unfold two_positions. cbn. unfold on_rows. cbn. unfold do_brick. cbn. rewrite !south_test. cbn. unfold one_brick. cbn. unfold pixel. cbn. replace (Rltb 20 21) with true by (symmetry; apply Rltb_true; lra). cbn. reflexivity.
Qed.
Print Assumptions C51_files.
Print Assumptions C51_registered.
Print Assumptions C51_callables.
Print Assumptions C51_nothing.
Print Assumptions C51_unknown.
Print Assumptions C51_distribution.
Print Assumptions C51_kind_refuted.
Print Assumptions C51_missing_refuted.
Print Assumptions C51_edge_refuted.
