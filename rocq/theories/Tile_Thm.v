(** Properties C69 and C70: tiles for fibre assignment, file names, stuck fibres on sky. *)
Require Import ZArith String Ascii List Bool Lia Arith Sorted DecimalString Decimal DecimalFacts DecimalN List.
From Verif Require Import Base FA_Model Tile_Model Tile_Spec.
Import List ListNotations.
Open Scope list_scope.

(** ** C69 *)
Lemma upper_same : forall s t, same_word s t -> upper s = upper t.
Proof.
  induction s as [|c s IH]; intros [|d t] H; try (destruct H; fail); auto. destruct H as [H K]. cbn [upper]. f_equal; auto. unfold upper_ascii.
  destruct H as [->|[[A B]|[A B] ] ]; auto.
  - rewrite B. rewrite (proj2 (Nat.leb_gt 97 (nat_of_ascii c))) by lia. rewrite (proj2 (Nat.leb_le 97 (nat_of_ascii c + 32))), (proj2 (Nat.leb_le (nat_of_ascii c + 32) 122)) by lia. cbn.
    rewrite Nat.add_sub, ascii_nat_embedding. reflexivity.
  - rewrite B. rewrite (proj2 (Nat.leb_gt 97 (nat_of_ascii d))) by lia. rewrite (proj2 (Nat.leb_le 97 (nat_of_ascii d + 32))), (proj2 (Nat.leb_le (nat_of_ascii d + 32) 122)) by lia. cbn.
    rewrite Nat.add_sub, ascii_nat_embedding. reflexivity.
Qed.
Lemma upper_capitals : forall s, capitals s -> upper s = s.
Proof.
  induction s as [|c s IH]; intros H; auto. destruct H as [H K]. cbn [upper]. rewrite IH by auto. f_equal. unfold upper_ascii.
  destruct (Nat.leb_spec 97 (nat_of_ascii c)); cbn; auto. destruct (Nat.leb_spec (nat_of_ascii c) 122); cbn; auto. lia.
Qed.
Lemma filter_places : forall {A} (p : A -> bool) (l : list A), exists idx, StronglySorted lt idx /\ (forall i, In i idx <-> exists a, nth_error l i = Some a /\ p a = true) /\
  Forall2 (fun i a => nth_error l i = Some a) idx (filter p l).
Proof.
  intros A p. induction l as [|a l (idx & So & I & F)].
  { exists []. split; [apply SSorted_nil|]. split; [|apply Forall2_nil]. intros i. split; [intros []|intros (b & H & _); destruct i; discriminate]. }
  assert (Sh : StronglySorted lt (map S idx)) by (clear I F; induction So as [|x xs Hs IHs Hx]; cbn; constructor; auto; apply Forall_forall; intros y Hy; apply in_map_iff in Hy; destruct Hy as (z & <- & Hz); rewrite Forall_forall in Hx; specialize (Hx z Hz); lia).
  assert (Ih : forall i, In (S i) (map S idx) <-> exists a, nth_error l i = Some a /\ p a = true) by (intros i; rewrite in_map_iff; split; [intros (j & E & J); injection E as ->; apply I, J|intros J; exists i; split; auto; apply I, J]).
  assert (Fh : Forall2 (fun i b => nth_error (a :: l) i = Some b) (map S idx) (filter p l)) by (clear -F; induction F; cbn; constructor; auto).
  cbn [filter]. destruct (p a) eqn:E.
  - exists (0%nat :: map S idx). split; [constructor; auto; apply Forall_forall; intros y Hy; apply in_map_iff in Hy; destruct Hy as (z & <- & _); lia|]. split; [|constructor; auto].
    intros [|i]; cbn [nth_error]; [split; [intros _; eauto|left; auto]|]. rewrite <- Ih. cbn [In]. split; [intros [H|H]; [discriminate|auto]|auto].
  - exists (map S idx). split; auto. split; auto. intros [|i]; cbn [nth_error]; [|apply Ih].
    split; [intros H; apply in_map_iff in H; destruct H as (z & H & _); discriminate|intros (b & H & K); injection H as <-; congruence].
Qed.
(** Exactly the tiles of the release, of the program, of the first passes; in the order of the table, with their columns; with the conditions of the program. *)
Theorem C69_tiles : forall (A : Type) obsconditions (tiles : list (tile * A)) observed program npasses out, build_tiles_for_fa obsconditions tiles observed program npasses = Ok out ->
  exists mask idx, obsconditions (upper program) = Ok mask /\ StronglySorted lt idx /\
    (forall i, In i idx <-> exists t, nth_error tiles i = Some t /\ In (tile_id (fst t)) observed /\ tile_program (fst t) = upper program /\ (tile_pass (fst t) < npasses)%Z) /\
    Forall2 (fun i x => exists t, nth_error tiles i = Some t /\ x = (t, mask)) idx out.
Proof.
  intros A obsconditions tiles observed program npasses out H. unfold build_tiles_for_fa in H. destruct (obsconditions (upper program)) as [mask|] eqn:E; [|discriminate]. cbn [bind] in H. injection H as <-.
  set (p := fun t : tile * A => (existsb (Z.eqb (tile_id (fst t))) observed && String.eqb (tile_program (fst t)) (upper program) && (tile_pass (fst t) <? npasses)%Z)%bool).
  destruct (filter_places p tiles) as (idx & S & I & F). exists mask, idx. split; auto. split; auto. split.
  - intros i. rewrite I. split; intros (t & N & K); exists t; split; auto; unfold p in *.
    + apply andb_prop in K. destruct K as [K L]. apply andb_prop in K. destruct K as [K M]. apply existsb_exists in K. destruct K as (x & Hx & Ex). apply Z.eqb_eq in Ex. subst x.
      apply String.eqb_eq in M. apply Z.ltb_lt in L. auto.
    + destruct K as (K & M & L). apply andb_true_intro. split; [|apply Z.ltb_lt; auto]. apply andb_true_intro. split; [|apply String.eqb_eq; auto]. apply existsb_exists. exists (tile_id (fst t)). split; auto. apply Z.eqb_refl.
  - fold p. clear -F. induction F; cbn; constructor; eauto.
Qed.
Print Assumptions C69_tiles.
(** The program may be written with small letters or capitals. *)
Theorem C69_case : forall (A : Type) obsconditions (tiles : list (tile * A)) observed program program' npasses, same_word program program' ->
  build_tiles_for_fa obsconditions tiles observed program npasses = build_tiles_for_fa obsconditions tiles observed program' npasses.
Proof. intros. unfold build_tiles_for_fa. rewrite (upper_same _ _ H). reflexivity. Qed.
Print Assumptions C69_case.
Theorem C69_capitals : forall program program', same_word program program' -> capitals program' -> upper program = program'.
Proof. intros p q H K. rewrite (upper_same _ _ H). apply upper_capitals, K. Qed.
Print Assumptions C69_capitals.
Theorem C69_returns : forall (A : Type) obsconditions (tiles : list (tile * A)) observed program npasses mask, obsconditions (upper program) = Ok mask -> exists out, build_tiles_for_fa obsconditions tiles observed program npasses = Ok out.
Proof. intros. unfold build_tiles_for_fa. rewrite H. cbn [bind]. eauto. Qed.
Print Assumptions C69_returns.
Example C69_case_dark : same_word "dark" "DARK" /\ same_word "Dark" "DARK" /\ capitals "DARK" /\
  build_tiles_for_fa (fun _ => Ok 1%Z) [(Tile 5 "DARK" 0, "a"); (Tile 3 "BRIGHT" 0, "b"); (Tile 2 "DARK" 7, "c"); (Tile 9 "DARK" 1, "d"); (Tile 4 "DARK" 0, "e")]%string [9; 5; 3; 2]%Z "dark" 7 =
  Ok [(Tile 5 "DARK" 0, "a", 1); (Tile 9 "DARK" 1, "d", 1)]%string%Z.
Proof. split; [cbn; unfold same_letter; cbn; lia|]. split; [cbn; unfold same_letter; cbn; repeat split; try lia; auto|]. split; [cbn; lia|reflexivity]. Qed.

(** ** C70: names of files *)
Lemma list_app : forall a b, list_ascii_of_string (a ++ b) = list_ascii_of_string a ++ list_ascii_of_string b.
Proof. induction a; intros b; cbn; f_equal; auto. Qed.
Lemma string_inj : forall a b, list_ascii_of_string a = list_ascii_of_string b -> a = b.
Proof. intros a b H. rewrite <- (string_of_list_ascii_of_string a), <- (string_of_list_ascii_of_string b), H. reflexivity. Qed.
Definition digit (c : ascii) : Prop := (48 <= nat_of_ascii c <= 57)%nat.
Lemma digits_empty : forall u, Forall digit (list_ascii_of_string (NilEmpty.string_of_uint u)).
Proof. induction u; cbn; constructor; auto; unfold digit; cbn; lia. Qed.
Lemma decimal_digits : forall n, Forall digit (list_ascii_of_string (decimal n)).
Proof. intros n. unfold decimal, NilZero.string_of_uint. destruct (N.to_uint n); try apply digits_empty. cbn. constructor; auto. unfold digit; cbn; lia. Qed.
Lemma zeros_digits : forall n, Forall digit (list_ascii_of_string (zeros n)).
Proof. induction n; cbn; constructor; auto. unfold digit; cbn; lia. Qed.
(** A number written with any zeros in front is read back. *)
Definition read_number (s : string) : option N := option_map N.of_uint (NilEmpty.uint_of_string s).
Lemma not_nil : forall n, N.to_uint n <> Nil.
Proof. intros n H. pose proof (DecimalN.Unsigned.of_to n) as K. rewrite H in K. cbn in K. subst n. discriminate. Qed.
Lemma read_decimal : forall n k, read_number (zeros k ++ decimal n) = Some n.
Proof.
  intros n k. unfold read_number. assert (E : NilEmpty.uint_of_string (decimal n) = Some (N.to_uint n)).
  { unfold decimal. pose proof (not_nil n) as K. destruct (N.to_uint n); try easy; apply NilEmpty.usu. }
  assert (G : forall k, NilEmpty.uint_of_string (zeros k ++ decimal n) = Some (Nat.iter k D0 (N.to_uint n))).
  { induction k0 as [|k0 IH]; cbn; auto. cbn in IH. rewrite IH. reflexivity. }
  rewrite G. cbn [option_map]. f_equal. transitivity (N.of_uint (N.to_uint n)); [|apply DecimalN.Unsigned.of_to]. clear. induction k; cbn; auto.
Qed.
Lemma decimal_inj : forall m n, decimal m = decimal n -> m = n.
Proof. intros m n H. pose proof (read_decimal m 0) as A. pose proof (read_decimal n 0) as B. cbn [zeros append] in A, B. rewrite H in A. congruence. Qed.
Lemma decimal_nonempty : forall n, exists c s, decimal n = String c s /\ digit c.
Proof.
  intros n. pose proof (decimal_digits n) as D. destruct (decimal n) as [|c s] eqn:E.
  - exfalso. pose proof (read_decimal n 0) as R. cbn [zeros append] in R. rewrite E in R. cbn in R. injection R as <-. discriminate.
  - exists c, s. split; auto. cbn in D. inversion D; auto.
Qed.
Lemma head_digit : forall k n, exists c s, (zeros k ++ decimal n)%string = String c s /\ digit c.
Proof. intros [|k] n; [apply decimal_nonempty|]. cbn. exists "0"%char, (zeros k ++ decimal n)%string. split; auto. unfold digit; cbn; lia. Qed.
(** The number of a tile in names: its digits, after zeros that make it six characters long. *)
Theorem C70_number : forall width z, (0 <= z)%Z -> exists k, padded width z = (zeros k ++ decimal (Z.to_N z))%string /\ (width <= String.length (padded width z))%nat /\ (k <> 0%nat -> String.length (padded width z) = width) /\
  read_number (padded width z) = Some (Z.to_N z) /\ Forall digit (list_ascii_of_string (padded width z)).
Proof.
  intros width z H. exists (width - String.length (decimal (Z.to_N z)))%nat. assert (E : padded width z = (zeros (width - String.length (decimal (Z.to_N z))) ++ decimal (Z.to_N z))%string).
  { unfold padded. destruct z; try lia; reflexivity. }
  assert (Lz : forall k, String.length (zeros k) = k) by (induction k; cbn; auto). assert (La : forall a b, String.length (a ++ b) = (String.length a + String.length b)%nat) by (induction a; cbn; auto).
  rewrite E, La, Lz. split; auto. split; [lia|]. split; [lia|]. split; [apply read_decimal|]. rewrite list_app. apply Forall_app. split; [apply zeros_digits|apply decimal_digits].
Qed.
Print Assumptions C70_number.
Lemma padded_inj : forall w x y, padded w x = padded w y -> x = y.
Proof.
  intros w x y H. assert (P : forall w z, match z with Zneg _ => exists k, padded w z = String "-" (zeros k ++ decimal (Z.abs_N z)) | _ => exists k, padded w z = (zeros k ++ decimal (Z.abs_N z))%string end) by (intros ? []; unfold padded; cbn; eauto).
  pose proof (P w x) as Px. pose proof (P w y) as Py.
  assert (N : forall k n s, (zeros k ++ decimal n)%string = String "-" s -> False) by (intros k n s E; destruct (head_digit k n) as (c & s' & E' & D); rewrite E in E'; injection E' as <- <-; unfold digit in D; cbn in D; lia).
  assert (R : forall k n k' n', (zeros k ++ decimal n)%string = (zeros k' ++ decimal n')%string -> n = n') by (intros k n k' n' E; pose proof (read_decimal n k) as A; rewrite E, read_decimal in A; congruence).
  destruct x, y; destruct Px as [k Ek], Py as [k' Ek']; pose proof (eq_trans (eq_trans (eq_sym Ek) H) Ek') as Q; clear Ek Ek' H; try (destruct (N _ _ _ Q); fail); try (symmetry in Q; destruct (N _ _ _ Q); fail);
    first [apply R in Q|injection Q as Q; apply R in Q]; cbn in Q; congruence.
Qed.
Lemma app_inj_l : forall (a b c : string), (a ++ b = a ++ c)%string -> b = c.
Proof. induction a; intros b c H; cbn in H; auto. injection H as H. auto. Qed.
Lemma app_inj_r : forall (a b c : string), (b ++ a = c ++ a)%string -> b = c.
Proof. intros a b c H. apply string_inj. apply (f_equal list_ascii_of_string) in H. rewrite !list_app in H. apply app_inv_tail in H. auto. Qed.
Lemma split_after : forall (p : ascii -> Prop) (l1 l2 s1 s2 : list ascii) c1 c2, Forall p s1 -> Forall p s2 -> ~ p c1 -> ~ p c2 -> l1 ++ c1 :: s1 = l2 ++ c2 :: s2 -> l1 = l2 /\ c1 = c2 /\ s1 = s2.
Proof.
  intros p. assert (G : forall l1 l2 s1 s2 : list ascii, forall c1 c2, Forall p s1 -> Forall p s2 -> ~ p c1 -> ~ p c2 -> s1 ++ c1 :: l1 = s2 ++ c2 :: l2 -> l1 = l2 /\ c1 = c2 /\ s1 = s2).
  { intros l1 l2 s1. induction s1 as [|x s1 IH]; intros [|y s2] c1 c2 P1 P2 N1 N2 H; cbn in H; injection H as E H; subst; auto.
    - inversion P2; tauto. - inversion P1; tauto.
    - inversion P1; subst. inversion P2; subst. destruct (IH s2 c1 c2) as (-> & -> & ->); auto. }
  intros l1 l2 s1 s2 c1 c2 P1 P2 N1 N2 H. apply (f_equal (@rev ascii)) in H. rewrite !rev_app_distr in H. cbn [rev] in H. rewrite <- !app_assoc in H. cbn in H.
  destruct (G (rev l1) (rev l2) (rev s1) (rev s2) c1 c2) as (A & B & C); auto; try (apply Forall_rev; auto).
  split; [rewrite <- (rev_involutive l1), A; apply rev_involutive|]. split; auto. rewrite <- (rev_involutive s1), C. apply rev_involutive.
Qed.
(** Characters of a padded number. *)
Definition signed (c : ascii) : Prop := digit c \/ c = "-"%char.
Lemma padded_signed : forall w z, Forall signed (list_ascii_of_string (padded w z)).
Proof.
  intros w z. assert (D : forall k n, Forall signed (list_ascii_of_string (zeros k ++ decimal n))).
  { intros k n. rewrite list_app. apply Forall_app. split; (eapply Forall_impl; [|first [apply zeros_digits|apply decimal_digits] ]); unfold signed; auto. }
  unfold padded. destruct z; try apply D. cbn. constructor; [unfold signed; auto|apply D].
Qed.
Lemma slash_signed : ~ signed "/"%char. Proof. intros [H|H]; [unfold digit in H; cbn in H; lia|discriminate]. Qed.
Theorem C70_files : forall i j, (fa_name i = fa_name j -> i = j) /\ (sky_name i = sky_name j -> i = j).
Proof.
  intros i j. split; intros H; apply (padded_inj 6).
  - unfold fa_name in H. apply app_inj_l in H. apply (f_equal list_ascii_of_string) in H. rewrite !list_app in H. rewrite !app_assoc in H. do 1 apply app_inv_tail in H.
    rewrite <- !app_assoc in H. change (list_ascii_of_string "/fiberassign-") with (list_ascii_of_string "/fiberassig" ++ ["n"; "-"]%char) in H. rewrite <- !app_assoc in H. cbn [app] in H. rewrite !app_assoc in H.
    eapply (split_after signed _ _ ("-"%char :: list_ascii_of_string (padded 6 i)) ("-"%char :: list_ascii_of_string (padded 6 j)) "n"%char "n"%char) in H; try (constructor; [right; auto|apply padded_signed]); try (intros [K|K]; [unfold digit in K; cbn in K; lia|discriminate]).
    destruct H as (_ & _ & E). injection E as E. apply string_inj, E.
  - unfold sky_name in H. apply app_inj_l in H. apply (f_equal list_ascii_of_string) in H. rewrite !list_app in H. rewrite !app_assoc in H. apply app_inv_tail in H. rewrite <- !app_assoc in H. cbn [list_ascii_of_string app] in H.
    eapply (split_after signed _ _ (list_ascii_of_string (padded 6 i)) (list_ascii_of_string (padded 6 j)) "/"%char "/"%char) in H; try apply padded_signed; try apply slash_signed.
    destruct H as (_ & _ & E).     apply string_inj, E.
Qed.
Print Assumptions C70_files.
Lemma prefix_forall : forall (p : ascii -> Prop) s n, Forall p (list_ascii_of_string s) -> Forall p (list_ascii_of_string (substring 0 n s)).
Proof. intros p. induction s as [|c s IH]; intros [|n] H; cbn in *; auto. inversion H; subst. constructor; auto. Qed.
Lemma no_comma_fa : forall z, Forall (fun c => c <> ","%char) (list_ascii_of_string (fa_name z)).
Proof.
  intros z. assert (P : Forall (fun c => c <> ","%char) (list_ascii_of_string (padded 6 z))).
  { eapply Forall_impl; [|apply padded_signed]. intros c [H|H] E; subst c; [unfold digit in H; cbn in H; lia|discriminate]. }
  unfold fa_name, prefix3. rewrite !list_app. repeat (apply Forall_app; split); auto; try (cbn; repeat constructor; discriminate).
  apply prefix_forall, P.
Qed.
Lemma split_app : forall a s, Forall (fun c => c <> ","%char) (list_ascii_of_string a) -> split_commas (a ++ String "," s) = a :: split_commas s.
Proof.
  induction a as [|c a IH]; intros s H; [reflexivity|]. cbn in H. inversion H; subst. cbn [append split_commas]. rewrite IH by auto. destruct (Ascii.eqb_spec c ","); [easy|]. reflexivity.
Qed.
Lemma split_one : forall a, Forall (fun c => c <> ","%char) (list_ascii_of_string a) -> split_commas a = [a].
Proof. induction a as [|c a IH]; intros H; [reflexivity|]. cbn in H. inversion H; subst. cbn [split_commas]. rewrite IH by auto. destruct (Ascii.eqb_spec c ","); [easy|]. reflexivity. Qed.
(** The files named in the comma-separated list are those of the tiles, one for each tile, in the order of the tiles. *)
Theorem C70_names : forall ids, ids <> [] -> split_commas (fafns_for_tiles ids) = map fa_name ids.
Proof.
  unfold fafns_for_tiles. induction ids as [|i ids IH]; intros H; [easy|]. destruct ids as [|j ids].
  - cbn [map join]. apply split_one, no_comma_fa.
  - change (join "," (map fa_name (i :: j :: ids))) with (fa_name i ++ String "," (join "," (map fa_name (j :: ids))))%string. rewrite split_app by apply no_comma_fa. rewrite IH by discriminate. reflexivity.
Qed.
Print Assumptions C70_names.

(** ** C70: dictionaries *)
Fixpoint dict_get {A} (k : Z) (d : list (Z * A)) : option A := match d with [] => None | (n, x) :: d => if Z.eqb n k then Some x else dict_get k d end.
Lemma dict_set_keys : forall {A} k (v : A) d x, In x (map fst (dict_set k v d)) <-> x = k \/ In x (map fst d).
Proof. intros A k v. induction d as [|[n y] d IH]; intros x; cbn; [intuition|]. destruct (Z.eqb_spec n k); cbn; [subst; intuition|]. rewrite IH. intuition. Qed.
Lemma dict_set_nodup : forall {A} k (v : A) d, NoDup (map fst d) -> NoDup (map fst (dict_set k v d)).
Proof.
  intros A k v. induction d as [|[n y] d IH]; intros H; cbn; [constructor; auto; constructor|]. cbn in H. inversion H; subst. destruct (Z.eqb_spec n k); cbn; [constructor; auto|].
  constructor; auto. rewrite dict_set_keys. intros [E|E]; auto.
Qed.
Lemma dict_get_set : forall {A} k (v : A) d x, dict_get x (dict_set k v d) = if Z.eqb x k then Some v else dict_get x d.
Proof.
  intros A k v. induction d as [|[n y] d IH]; intros x; cbn.
  - rewrite (Z.eqb_sym k x). reflexivity.
  - destruct (Z.eqb_spec n k); cbn; [subst|rewrite IH].
    + rewrite (Z.eqb_sym k x). destruct (Z.eqb_spec x k); auto.
    + destruct (Z.eqb_spec n x), (Z.eqb_spec x k); subst; congruence.
Qed.
Lemma dict_get_In : forall {A} k (v : A) d, NoDup (map fst d) -> (In (k, v) d <-> dict_get k d = Some v).
Proof.
  intros A k v. induction d as [|[n y] d IH]; intros H; cbn; [intuition discriminate|]. cbn in H. inversion H; subst. rewrite IH by auto. destruct (Z.eqb_spec n k).
  - subst. split; [intros [E|E]; [congruence|exfalso; apply H2; apply in_map_iff; exists (k, v); split; auto; apply IH; auto]|intros E; left; congruence].
  - split; [intros [E|E]; [congruence|auto]|auto].
Qed.
(** A loop of d[key(x)] = value(x). *)
Lemma fold_dict : forall {A B} (key : B -> Z) (val : B -> A) (l : list B) d, NoDup (map fst d) ->
  let d' := fold_left (fun d x => dict_set (key x) (val x) d) l d in NoDup (map fst d') /\
  forall k, (In k (map key l) /\ exists x, last_row (fun x => key x = k) l x /\ dict_get k d' = Some (val x)) \/ (~ In k (map key l) /\ dict_get k d' = dict_get k d).
Proof.
  intros A B key val. induction l as [|b l IH] using rev_ind; intros d H; cbn zeta; [cbn; split; auto|]. rewrite fold_left_app. cbn [fold_left]. destruct (IH d H) as [N G]. cbn zeta in N, G.
  split; [apply dict_set_nodup, N|]. intros k. rewrite map_app, in_app_iff. cbn [map In]. rewrite dict_get_set. destruct (Z.eqb_spec k (key b)).
  - left. split; auto. exists b. split; auto. exists l, []. repeat split; auto.
  - destruct (G k) as [(I & x & (l1 & l2 & E & K & F) & D)|(I & D)].
    + left. split; auto. exists x. split; auto. exists l1, (l2 ++ [b]). rewrite E, <- app_assoc. repeat split; auto. apply Forall_app. split; auto.
    + right. split; auto. intros [J|[J|[] ] ]; auto.
Qed.
Lemma insert_In : forall {A} (x y : Z * A) d, In y (insert_loc x d) <-> y = x \/ In y d.
Proof. intros A x y. induction d as [|z d IH]; cbn; [intuition|]. destruct (fst x <=? fst z)%Z; cbn; [intuition|]. rewrite IH. intuition. Qed.
Lemma insert_sorted : forall {A} (x : Z * A) d, StronglySorted (fun a b => fst a < fst b)%Z d -> ~ In (fst x) (map fst d) -> StronglySorted (fun a b => fst a < fst b)%Z (insert_loc x d).
Proof.
  intros A x. induction d as [|z d IH]; intros H N; cbn; [constructor; constructor|]. inversion H; subst. cbn in N. destruct (Z.leb_spec (fst x) (fst z)).
  - constructor; auto. assert (fst x < fst z)%Z by (assert (fst x <> fst z) by intuition; lia). constructor; auto. eapply Forall_impl; [|apply H3]. intros a Ha. cbn in Ha. lia.
  - constructor; [apply IH; auto|]. apply Forall_forall. intros y Hy. apply insert_In in Hy. destruct Hy as [->|Hy]; auto. rewrite Forall_forall in H3. auto.
Qed.
Lemma sort_In : forall {A} (d : list (Z * A)) x, In x (sort_locs d) <-> In x d.
Proof. intros A. induction d as [|z d IH]; intros x; cbn; [tauto|]. rewrite insert_In, IH. intuition. Qed.
Lemma sort_sorted : forall {A} (d : list (Z * A)), NoDup (map fst d) -> StronglySorted (fun a b => fst a < fst b)%Z (sort_locs d).
Proof.
  intros A. induction d as [|z d IH]; intros H; cbn; [constructor|]. cbn in H. inversion H; subst. apply insert_sorted; auto. intros C. apply H2. apply in_map_iff in C. destruct C as (y & E & Y). apply in_map_iff. exists y. split; auto. apply sort_In, Y.
Qed.
Lemma bit_land : forall z k, (0 <= k)%Z -> Z.land z (2 ^ k) = if Z.testbit z k then (2 ^ k)%Z else 0%Z.
Proof.
  intros z k H. apply Z.bits_inj'. intros n Hn. rewrite Z.land_spec, Z.pow2_bits_eqb by auto. destruct (Z.eqb_spec k n).
  - subst. destruct (Z.testbit z n); rewrite ?Z.pow2_bits_true, ?Z.bits_0 by auto; reflexivity.
  - rewrite andb_false_r. destruct (Z.testbit z k); rewrite ?Z.bits_0, ?Z.pow2_bits_eqb by auto; auto. symmetry. apply Z.eqb_neq. auto.
Qed.
Lemma stuck_test : forall i j st, (0 <= i)%Z -> (0 <= j)%Z -> i <> j -> ((Z.land st (Z.lor (2 ^ i) (2 ^ j)) =? 2 ^ i)%Z = true <-> stuck_only i j st).
Proof.
  intros i j st Hi Hj Hn. rewrite Z.eqb_eq. rewrite Z.land_lor_distr_r, !bit_land by auto. unfold stuck_only.
  assert (P : (0 < 2 ^ i)%Z) by (apply Z.pow_pos_nonneg; lia). assert (P' : (0 < 2 ^ j)%Z) by (apply Z.pow_pos_nonneg; lia).
  assert (Q : forall z, Z.lor (2 ^ i) (2 ^ j) = z -> Z.testbit z j = true) by (intros z <-; rewrite Z.lor_spec, (Z.pow2_bits_true j), orb_true_r by auto; auto).
  assert (T : Z.testbit (2 ^ i) j = false) by (rewrite Z.pow2_bits_eqb by auto; apply Z.eqb_neq; auto).
  destruct (Z.testbit st i), (Z.testbit st j); rewrite ?Z.lor_0_r, ?Z.lor_0_l; split; try tauto; try (intros [? ?]; discriminate); intros E.
  - apply Q in E. congruence.
  - exfalso. pose proof (Z.pow2_bits_true j Hj) as K. rewrite E in K. congruence.
  - lia.
Qed.
Lemma last_filter : forall {A} (p : A -> bool) (q r : A -> Prop) l x, (forall y, p y = true <-> r y) -> (last_row q (filter p l) x <-> last_row (fun y => q y /\ r y) l x).
Proof.
  intros A p q r l x H. induction l as [|a l IH] using rev_ind.
  - split; intros (l1 & l2 & E & _); destruct l1; discriminate.
  - assert (G : forall (s : A -> Prop) l0 a0, last_row s (l0 ++ [a0]) x <-> (s a0 /\ x = a0) \/ (~ s a0 /\ last_row s l0 x)).
    { intros s l0 a0. split.
      - intros (l1 & l2 & E & S & F). destruct l2 as [|z l2] using rev_ind.
        + apply app_inj_tail in E. destruct E as [_ ->]. auto.
        + rewrite app_comm_cons, app_assoc in E. apply app_inj_tail in E. destruct E as [-> ->]. apply Forall_app in F. destruct F as [F1 F2]. inversion F2; subst. right. split; auto. exists l1, l2. auto.
      - intros [[S ->]|[S (l1 & l2 & -> & Sx & F)] ]; [exists l0, []; auto|]. exists l1, (l2 ++ [a0]). rewrite <- app_assoc. split; auto. split; auto. apply Forall_app. auto. }
    rewrite filter_app, G. cbn [filter]. destruct (p a) eqn:E.
    + rewrite G, IH. assert (r a) by (apply H; auto). tauto.
    + rewrite app_nil_r, IH. assert (~ r a) by (rewrite <- H; congruence). tauto.
Qed.
(** The table of a file: the locations of fibres that are stuck and not broken and of monitors, once each, by increasing location, and whether they are on sky. *)
Theorem C70_table : forall i j k f, (0 <= i)%Z -> (0 <= j)%Z -> (0 <= k)%Z -> i <> j ->
  StronglySorted (fun a b => fst a < fst b)%Z (stuck_of_file (2 ^ i) (2 ^ j) (2 ^ k) f) /\
  (forall loc b, In (loc, b) (stuck_of_file (2 ^ i) (2 ^ j) (2 ^ k) f) <-> on_sky i j k f loc b) /\
  (forall loc, (exists b, In (loc, b) (stuck_of_file (2 ^ i) (2 ^ j) (2 ^ k) f)) <-> In loc (map fst (ff_monitors f)) \/ exists x, In x (ff_fibers f) /\ fst (fst x) = loc /\ stuck_only i j (snd (fst x))).
Proof.
  intros i j k f Hi Hj Hk Hn. unfold stuck_of_file. set (sel := filter _ _).
  destruct (fold_dict (fun x : Z * Z * string => fst (fst x)) (fun x => String.eqb (snd x) "SKY") sel [] (NoDup_nil _)) as [N1 G1]. cbn zeta in N1, G1.
  set (d1 := fold_left _ sel []) in *.
  destruct (fold_dict (fun x : Z * Z => fst x) (fun x => (0 <? Z.land (snd x) (2 ^ k))%Z) (ff_monitors f) d1 N1) as [N2 G2]. cbn zeta in N2, G2. set (d2 := fold_left _ (ff_monitors f) d1) in *.
  assert (Sel : forall y : Z * Z * string, (Z.land (snd (fst y)) (Z.lor (2 ^ i) (2 ^ j)) =? 2 ^ i)%Z = true <-> stuck_only i j (snd (fst y))) by (intros y; apply stuck_test; auto).
  assert (Sky : forall z, (0 <? Z.land z (2 ^ k))%Z = Z.testbit z k).
  { intros z. rewrite bit_land by auto. destruct (Z.testbit z k); auto. apply Z.ltb_lt, Z.pow_pos_nonneg; lia. }
  assert (U : forall (q : Z * Z -> Prop) l x y, last_row q l x -> last_row q l y -> x = y).
  { intros q l x y (l1 & l2 & E & Qx & Fx) (l3 & l4 & E' & Qy & Fy). subst l. revert l3 E'. induction l1 as [|z l1 IH]; intros [|z' l3] E'; cbn in E'; injection E' as -> E'; eauto.
    - subst l2. rewrite Forall_app in Fx. destruct Fx as [_ Fx]. inversion Fx; tauto.
    - subst l4. rewrite Forall_app in Fy. destruct Fy as [_ Fy]. inversion Fy; tauto. }
  assert (V : forall (q : Z * Z * string -> Prop) l x y, last_row q l x -> last_row q l y -> x = y).
  { intros q l x y (l1 & l2 & E & Qx & Fx) (l3 & l4 & E' & Qy & Fy). subst l. revert l3 E'. induction l1 as [|z l1 IH]; intros [|z' l3] E'; cbn in E'; injection E' as -> E'; eauto.
    - subst l2. rewrite Forall_app in Fx. destruct Fx as [_ Fx]. inversion Fx; tauto.
    - subst l4. rewrite Forall_app in Fy. destruct Fy as [_ Fy]. inversion Fy; tauto. }
  assert (W : forall loc b, In (loc, b) (sort_locs d2) <-> on_sky i j k f loc b).
  { intros loc b. rewrite sort_In, dict_get_In by auto. unfold on_sky. destruct (G2 loc) as [(M & x & L & D)|(M & D)]; rewrite D.
    - rewrite Sky. split; [intros E; injection E as <-; left; eauto|]. intros [(y & Ly & E)|(C & _)]; [|tauto]. rewrite (U _ _ _ _ L Ly). congruence.
    - destruct (G1 loc) as [(M1 & x & L1 & D1)|(M1 & D1)]; rewrite D1.
      + apply (last_filter _ (fun x : Z * Z * string => fst (fst x) = loc) _ _ _ Sel) in L1. split.
        * intros E. injection E as <-. right. split; auto. exists x. split; auto. apply String.eqb_eq.
        * intros [(y & (l1 & l2 & E & Ey & _) & _)|(_ & y & Ly & E)]; [exfalso; apply M; rewrite E, map_app, in_app_iff; right; left; auto|].
          rewrite (V _ _ _ _ L1 Ly). f_equal. apply eq_true_iff_eq. rewrite E. apply String.eqb_eq.
      + cbn. split; [discriminate|]. intros [(y & (l1 & l2 & E & Ey & _) & _)|(_ & y & Ly & E)]; [exfalso; apply M; rewrite E, map_app, in_app_iff; right; left; auto|].
        exfalso. apply M1. apply (last_filter _ (fun x : Z * Z * string => fst (fst x) = loc) _ _ _ Sel) in Ly. fold sel in Ly. destruct Ly as (l1 & l2 & El & Ey & _). rewrite El, map_app, in_app_iff. right. left. auto. }
  split; [apply sort_sorted; auto|]. split; auto. intros loc. split.
  - intros [b Hb]. apply W in Hb. destruct Hb as [(x & (l1 & l2 & E & Ex & _) & _)|(_ & x & (l1 & l2 & E & Ex & _) & _)].
    + left. rewrite E, map_app, in_app_iff. right. left. auto.
    + right. exists x. split; auto. rewrite E, in_app_iff. right. left. auto.
  - intros K. assert (D : dict_get loc d2 <> None).
    { destruct (G2 loc) as [(_ & x & _ & ->)|(M & ->)]; [discriminate|]. destruct (G1 loc) as [(_ & x & _ & ->)|(M1 & _)]; [discriminate|]. exfalso. destruct K as [K|(x & Ix & Ex & Sx)]; auto.
      apply M1. apply in_map_iff. exists x. split; auto. apply filter_In. split; auto. apply Sel, Sx. }
    destruct (dict_get loc d2) as [b|] eqn:Eb; [|easy]. exists b. apply sort_In. apply dict_get_In; auto.
Qed.
Print Assumptions C70_table.
(** Over files: every file that is named is read; one table for each tile, that of the last file of this tile; a file that cannot be read stops everything. *)
Lemma loop_inv : forall s b k read names d, NoDup (map fst d) ->
  match stuck_loop s b k read names d with
  | Ok d' => exists files, Forall2 (fun n f => read n = Ok f) names files /\ d' = fold_left (fun d f => dict_set (ff_tile f) (stuck_of_file s b k f) d) files d
  | Err e => exists n1 n n2, names = n1 ++ n :: n2 /\ Forall (fun n => exists f, read n = Ok f) n1 /\ read n = Err e
  end.
Proof.
  intros s b k read. induction names as [|n names IH]; intros d H; cbn; [exists []; auto|]. destruct (read n) as [f|e] eqn:E; cbn [bind].
  - specialize (IH (dict_set (ff_tile f) (stuck_of_file s b k f) d) (dict_set_nodup _ _ _ H)). destruct (stuck_loop s b k read names _) as [d'|e].
    + destruct IH as (files & F & ->). exists (f :: files). split; auto.
    + destruct IH as (n1 & m & n2 & -> & F & R). exists (n :: n1), m, n2. repeat split; auto. constructor; eauto.
  - exists [], n, names. auto.
Qed.
Theorem C70_tiles : forall stuck broken sky read ids d, ids <> [] -> stuck_on_sky_from_fafns stuck broken sky read (fafns_for_tiles ids) = Ok d ->
  exists files, Forall2 (fun id f => read (fa_name id) = Ok f) ids files /\ NoDup (map fst d) /\
  forall t tb, In (t, tb) d <-> exists f, last_row (fun f => ff_tile f = t) files f /\ tb = stuck_of_file stuck broken sky f.
Proof.
  intros stuck broken sky read ids d H R. unfold stuck_on_sky_from_fafns in R. rewrite (C70_names ids H) in R. pose proof (loop_inv stuck broken sky read (map fa_name ids) [] (NoDup_nil _)) as L. rewrite R in L. destruct L as (files & F & ->).
  exists files. split; [clear -F; remember (map fa_name ids) as n eqn:E; revert ids E; induction F; intros [|i ids] E; try discriminate; constructor; injection E as -> ->; auto|].
  destruct (fold_dict ff_tile (stuck_of_file stuck broken sky) files [] (NoDup_nil _)) as [N G]. cbn zeta in N, G. split; auto. intros t tb. rewrite dict_get_In by auto.
  destruct (G t) as [(I & f & L & D)|(I & D)]; rewrite D.
  - split; [intros E; injection E as <-; eauto|]. intros (f' & L' & ->). f_equal. f_equal. destruct L as (l1 & l2 & E & Q & F1), L' as (l3 & l4 & E' & Q' & F2). clear -E E' Q Q' F1 F2. subst files. revert l3 E'. induction l1 as [|z l1 IH]; intros [|z' l3] E'; cbn in E'; injection E' as -> E'; eauto.
    + subst l2. rewrite Forall_app in F1. destruct F1 as [_ F1]. inversion F1; tauto.
    + subst l4. rewrite Forall_app in F2. destruct F2 as [_ F2]. inversion F2; tauto.
  - cbn. split; [discriminate|]. intros (f & (l1 & l2 & E & Q & _) & _). exfalso. apply I. rewrite E, map_app, in_app_iff. right. left. auto.
Qed.
Print Assumptions C70_tiles.
Theorem C70_read_error : forall stuck broken sky read ids id e, In id ids -> read (fa_name id) = Err e -> exists e', stuck_on_sky_from_fafns stuck broken sky read (fafns_for_tiles ids) = Err e' /\ exists id', In id' ids /\ read (fa_name id') = Err e'.
Proof.
  intros stuck broken sky read ids id e I E. assert (H : ids <> []) by (intros ->; destruct I). unfold stuck_on_sky_from_fafns. rewrite (C70_names ids H). pose proof (loop_inv stuck broken sky read (map fa_name ids) [] (NoDup_nil _)) as L.
  destruct (stuck_loop stuck broken sky read (map fa_name ids) []) as [d|e'].
  - destruct L as (files & F & _). exfalso. clear -F I E. remember (map fa_name ids) as n eqn:En. revert ids I En. induction F; intros [|i ids] I En; try discriminate; try (destruct I; fail); destruct I as [->|I]; injection En as -> ->; [congruence|eauto].
  - exists e'. split; auto. destruct L as (n1 & n & n2 & En & _ & Re). assert (In n (map fa_name ids)) by (rewrite En, in_app_iff; right; left; auto). apply in_map_iff in H0. destruct H0 as (id' & <- & I'). eauto.
Qed.
Print Assumptions C70_read_error.
(** With one tile, as in a run of the assignment: the table of that tile. *)
Theorem C70_one : forall stuck broken sky read id f, read (fa_name id) = Ok f -> ff_tile f = id -> stuck_on_sky_from_fafns stuck broken sky read (fafns_for_tiles [id]) = Ok [(id, stuck_of_file stuck broken sky f)].
Proof. intros stuck broken sky read id f R <-. unfold stuck_on_sky_from_fafns. rewrite C70_names by discriminate. cbn [map stuck_loop]. rewrite R. reflexivity. Qed.
Print Assumptions C70_one.
(** An empty list of tiles names one file, with an empty name. *)
Theorem C70_no_tile : forall stuck broken sky read, stuck_on_sky_from_fafns stuck broken sky read (fafns_for_tiles []) = do f <- read ""%string; Ok [(ff_tile f, stuck_of_file stuck broken sky f)].
Proof. intros. reflexivity. Qed.
Print Assumptions C70_no_tile.
Example C70_case : fa_name 80605 = "/dvs_ro/cfs/cdirs/desi/target/fiberassign/tiles/trunk/080/fiberassign-080605.fits.gz"%string /\ sky_name 1234567 = "/dvs_ro/cfs/cdirs/desi/survey/fiberassign/main/123/1234567-sky.fits"%string /\
  split_commas (fafns_for_tiles [80605; 7]%Z) = map fa_name [80605; 7]%Z /\
  stuck_of_file (2 ^ 1) (2 ^ 2) (2 ^ 2) (FaFile 7 [(9, 2, "TGT"); (4, 2, "SKY"); (5, 6, "SKY"); (6, 0, "SKY"); (3, 3, "SKY")]%string [(8, 4); (4, 1); (2, 1)])%Z = [(2, false); (3, true); (4, false); (8, true); (9, false)]%Z.
Proof. repeat split; reflexivity. Qed.
