(** Proofs for C90. *)
Require Import Lia ZArith String Ascii List Bool Permutation.
From Verif Require Import Base Tile_Model Tile_Thm SV3_Model SV3_Thm Arch_Model Arch_Spec.
Import ListNotations.
Open Scope string_scope.
Open Scope list_scope.

(** ** Names *)
Lemma sub_all : forall s, substring 0 (String.length s) s = s. Proof. induction s; cbn; congruence. Qed.
Lemma sub_cut : forall k s, (k <= String.length s)%nat -> s = (substring 0 k s ++ substring k (String.length s - k) s)%string.
Proof.
  induction k as [|k IH]; intros s L.
  - rewrite Nat.sub_0_r, sub_all. destruct s; reflexivity.
  - destruct s as [|c s]; cbn in L; [lia|]. cbn. f_equal. apply IH. lia.
Qed.
Lemma sub_app : forall p s, substring (String.length p) (String.length s) (p ++ s)%string = s.
Proof. induction p as [|c p IH]; intro s; cbn; auto using sub_all. Qed.
Lemma ends_with_spec : forall suffix s, ends_with suffix s = true <-> exists p, s = (p ++ suffix)%string.
Proof.
  intros suffix s. unfold ends_with. rewrite andb_true_iff, Nat.leb_le, String.eqb_eq. split.
  - intros [L H]. exists (substring 0 (String.length s - String.length suffix) s). rewrite <- H at 2. rewrite (sub_cut (String.length s - String.length suffix) s) at 1 by lia. f_equal. f_equal. lia.
  - intros [p ->]. assert (LA : String.length (p ++ suffix)%string = (String.length p + String.length suffix)%nat) by (clear; induction p; cbn; auto). rewrite LA. split; [lia|]. replace (_ + _ - _)%nat with (String.length p) by lia. apply sub_app.
Qed.
Lemma visible_spec : forall n, visible n = true <-> forall s, n <> String "." s.
Proof.
  intros [|c n]; cbn; [split; auto; discriminate|]. destruct (Ascii.ascii_dec c ".") as [->|D]; [split; [discriminate|intro H; destruct (H n); auto]|].
  split; [intros _ s E; injection E as -> _; auto|]. intros _. destruct c as [[|] [|] [|] [|] [|] [|] [|] [|] ]; auto; destruct D; auto.
Qed.
Lemma named_spec : forall suffix n, (visible n && ends_with suffix n)%bool = true <-> named suffix n.
Proof. intros. rewrite andb_true_iff, visible_spec, ends_with_spec. reflexivity. Qed.
Lemma split_plain : forall sep s, ~ In sep (list_ascii_of_string s) -> split_on sep s = [s].
Proof. intros sep s. induction s as [|c s IH]; cbn; auto. intro H. destruct (Ascii.eqb_spec c sep) as [->|D]; [destruct H; auto|]. rewrite IH; auto. Qed.
Lemma split_app : forall sep p q, split_on sep (p ++ String sep q)%string = split_on sep p ++ split_on sep q.
Proof.
  intros sep p q. induction p as [|c p IH]; cbn; [rewrite Ascii.eqb_refl; auto|]. destruct (Ascii.eqb_spec c sep) as [->|D]; cbn; [rewrite IH; auto|]. rewrite IH.
  assert (N : forall s, split_on sep s <> []) by (intro s; induction s as [|a s J]; cbn; [discriminate|]; destruct (Ascii.eqb a sep); [discriminate|]; destruct (split_on sep s); [auto|discriminate]). destruct (split_on sep p) eqn:E; [destruct (N p E)|]. reflexivity.
Qed.
Lemma split_nonempty : forall sep s, split_on sep s <> [].
Proof. intros sep s. induction s as [|a s J]; cbn; [discriminate|]; destruct (Ascii.eqb a sep); [discriminate|]; destruct (split_on sep s); [auto|discriminate]. Qed.
Lemma join_split : forall s, join "-" (split_on "-" s) = s.
Proof.
  induction s as [|c s IH]; auto. cbn. pose proof (split_nonempty "-" s). destruct (Ascii.eqb_spec c "-") as [->|D].
  - cbn. destruct (split_on "-" s) eqn:E; [contradiction|]. rewrite IH. auto.
  - destruct (split_on "-" s) as [|a l] eqn:E; [contradiction|]. destruct l; cbn in *; congruence.
Qed.
Lemma base_of_spec : forall base a b, ~ In "-"%char (list_ascii_of_string a) -> ~ In "-"%char (list_ascii_of_string b) -> base_of (base ++ "-" ++ a ++ "-" ++ b)%string = base.
Proof.
  intros base a b A B. unfold base_of. cbn [append]. rewrite !split_app, (split_plain _ _ A), (split_plain _ _ B), !app_length. cbn [List.length]. replace (_ - 2)%nat with (List.length (split_on "-" base)) by lia.
  rewrite firstn_app, Nat.sub_diag. cbn [firstn]. rewrite firstn_all, app_nil_r. apply join_split.
Qed.
Lemma dots_spec : forall s, Nat.eqb (List.length (split_on "." s)) 1 = true <-> dotless s.
Proof.
  intro s. rewrite Nat.eqb_eq. unfold dotless. split.
  - induction s as [|c s IH]; cbn; [auto|]. pose proof (split_nonempty "." s). destruct (Ascii.eqb_spec c ".") as [->|D].
    + cbn. destruct (split_on "." s); cbn; [contradiction|discriminate].
    + destruct (split_on "." s) as [|a l]; [contradiction|]. cbn in *. intros E [F|F]; auto. apply IH; auto.
  - intro H. rewrite split_plain; auto.
Qed.
Lemma app_assoc_s : forall a b c : string, ((a ++ b) ++ c)%string = (a ++ (b ++ c))%string. Proof. intros a b c. induction a; cbn; congruence. Qed.
Definition piece (base : string) (i : nat) : string := (base ++ "-" ++ str (Z.of_nat i) ++ ".fits")%string.
Lemma piece_named : forall base i, (forall s, base <> String "." s) -> named ".fits" (piece base i).
Proof. intros base i H. split; [|exists (base ++ "-" ++ str (Z.of_nat i))%string; unfold piece; rewrite !app_assoc_s; auto]. intros s E. destruct base as [|c base]; cbn in E; [discriminate|]. injection E as -> _. apply (H base). auto. Qed.
Lemma str_plain : forall i, Forall digit (list_ascii_of_string (str (Z.of_nat i))).
Proof. intro i. unfold str. destruct (C70_number 0 (Z.of_nat i) ltac:(lia)) as (k & _ & _ & _ & _ & H). auto. Qed.
Lemma piece_inj : forall b b' i j, piece b i = piece b' j -> b = b' /\ i = j.
Proof.
  intros b b' i j H. unfold piece in H. apply (f_equal list_ascii_of_string) in H. rewrite !list_app in H. rewrite !app_assoc in H. apply app_inv_tail in H. rewrite <- !app_assoc in H. cbn [list_ascii_of_string app] in H.
  apply (split_after digit) in H; auto using str_plain, dash_digit. destruct H as (P & _ & Q). apply string_inj in P, Q. apply str_inj in Q. split; auto. lia.
Qed.
Lemma piece_not_base : forall b b' i, (forall p, b <> (p ++ ".fits")%string) -> piece b' i <> b.
Proof. intros b b' i H E. apply (H (b' ++ "-" ++ str (Z.of_nat i))%string). rewrite <- E. unfold piece. rewrite !app_assoc_s. auto. Qed.

(** ** Directories *)
Section Directory.
Context {T : Type}.
Lemma get_set : forall n m (f : file T) d, get_file m (set_file n f d) = if String.eqb n m then Some f else get_file m d.
Proof.
  intros n m f d. induction d as [|[k g] d IH]; cbn; auto. destruct (String.eqb_spec k n) as [->|D]; cbn.
  - destruct (String.eqb n m); auto.
  - destruct (String.eqb_spec k m) as [->|D']; auto. destruct (String.eqb_spec n m) as [->|_]; [contradiction|auto].
Qed.
Lemma names_set : forall n m (f : file T) d, In m (map fst (set_file n f d)) <-> n = m \/ In m (map fst d).
Proof.
  intros n m f d. induction d as [|[k g] d IH]; cbn; [tauto|]. destruct (String.eqb_spec k n) as [->|D]; cbn; [tauto|]. rewrite IH. tauto.
Qed.
Lemma nodup_set : forall n (f : file T) d, NoDup (map fst d) -> NoDup (map fst (set_file n f d)).
Proof.
  intros n f d. induction d as [|[k g] d IH]; cbn; intro N; [repeat constructor; auto|]. inversion N as [|? ? NI N']; subst. destruct (String.eqb_spec k n) as [->|D]; cbn; auto. constructor; auto. rewrite names_set. intuition.
Qed.
Lemma names_apply : forall (w : list (string * file T)) d m, In m (map fst (apply_writes w d)) <-> In m (map fst w) \/ In m (map fst d).
Proof. induction w as [|[n f] w IH]; intros d m; cbn; [tauto|]. unfold apply_writes in *. cbn. rewrite IH, names_set. cbn. tauto. Qed.
Lemma nodup_apply : forall (w : list (string * file T)) d, NoDup (map fst d) -> NoDup (map fst (apply_writes w d)).
Proof. induction w as [|[n f] w IH]; intros d N; cbn; auto. apply IH. apply nodup_set. auto. Qed.
Lemma get_apply_old : forall (w : list (string * file T)) d m, ~ In m (map fst w) -> get_file m (apply_writes w d) = get_file m d.
Proof. induction w as [|[n f] w IH]; intros d m N; auto. unfold apply_writes in *. cbn in *. rewrite IH by tauto. rewrite get_set. destruct (String.eqb_spec n m); auto. tauto. Qed.
Lemma get_apply_new : forall (w : list (string * file T)) d m f, NoDup (map fst w) -> In (m, f) w -> get_file m (apply_writes w d) = Some f.
Proof.
  induction w as [|[n g] w IH]; intros d m f N I0; [destruct I0|]. cbn in N. inversion N as [|? ? NI N']; subst. destruct I0 as [E|I0].
  - injection E as -> ->. change (get_file m (apply_writes w (set_file m f d)) = Some f). rewrite get_apply_old by auto. rewrite get_set, String.eqb_refl. auto.
  - apply (IH (set_file n g d) m f N' I0).
Qed.
Lemma get_in : forall (d : directory T) m f, NoDup (map fst d) -> In (m, f) d -> get_file m d = Some f.
Proof.
  induction d as [|[n g] d IH]; intros m f N I0; [destruct I0|]. cbn in N. inversion N as [|? ? NI N']; subst. cbn. destruct I0 as [E|I0].
  - injection E as -> ->. rewrite String.eqb_refl. auto.
  - destruct (String.eqb_spec n m) as [->|D]; auto. destruct NI. apply (in_map fst) in I0. auto.
Qed.
Lemma in_get : forall (d : directory T) m f, get_file m d = Some f -> In (m, f) d.
Proof. induction d as [|[n g] d IH]; intros m f H; [discriminate|]. cbn in H. destruct (String.eqb_spec n m) as [->|D]; [injection H as ->; left; auto|right; auto]. Qed.

(** Files of a directory with names of a list. *)
Definition value (d : directory T) (n : string) : list T := match get_file n d with Some f => rows f | None => [] end.
Lemma read_ok : forall (fits : bool) (d : directory T) names, (forall n, In n names -> exists l, get_file n d = Some (if fits then Fits l else Big l)) -> read_files fits d names = Ok (flat_map (value d) names).
Proof.
  intros fits d names. induction names as [|n names IH]; intro H; auto. cbn. destruct (H n (or_introl eq_refl)) as [l L]. unfold value at 1. rewrite L, IH by (intros; apply H; right; auto). destruct fits; reflexivity.
Qed.
Lemma flat_perm : forall {A} (g : A -> list T) l l', Permutation l l' -> Permutation (flat_map g l) (flat_map g l').
Proof. intros A g l l' P. induction P; cbn; auto; [apply Permutation_app_head; auto|rewrite !app_assoc; apply Permutation_app_tail, Permutation_app_comm|eapply Permutation_trans; eauto]. Qed.
(** The files kept by a listing. *)
Lemma holds_names : forall P (p : string -> bool) (d : directory T), (forall n, p n = true <-> P n) -> NoDup (map fst d) -> holds P d (flat_map (value d) (filter p (map fst d))).
Proof.
  intros P p d H N. exists (filter (fun x => p (fst x)) d). split; [|split].
  - clear H. induction d as [|x d IH]; cbn; [constructor|]. cbn in N. inversion N as [|? ? NI N']; subst. destruct (p (fst x)); auto. cbn. constructor; auto. intro I0. apply NI. apply in_map_iff in I0. destruct I0 as (y & E & I0). apply filter_In in I0. rewrite <- E. apply in_map. tauto.
  - intro x. rewrite filter_In, H. tauto.
  - assert (G : forall l, (forall x, In x l -> In x d) -> flat_map (value d) (filter p (map fst l)) = flat_map (fun x => rows (snd x)) (filter (fun x => p (fst x)) l)); [|rewrite G; auto].
    induction l as [|[n f] l IH]; intro S; auto. cbn. destruct (p n); cbn; rewrite IH by (intros; apply S; right; auto); auto. f_equal. unfold value. rewrite (get_in d n f); auto. apply S. left. auto.
Qed.
Lemma holds_same : forall P (d : directory T) a b, holds P d a -> holds P d b -> Permutation a b.
Proof.
  intros P d a b (l & N & I1 & A) (l' & N' & I2 & B). rewrite A, B. apply flat_perm. apply NoDup_Permutation; eauto using NoDup_map_inv. intro x. rewrite I1, I2. tauto.
Qed.
End Directory.
