(** Proofs about change of cosmology, collections and right ascension ranges of masks. *)
Require Import Reals Lra Lia ZArith List Bool.
From Verif Require Import Base Vec3 Sky_Model Sky_Proof Cutsky_Model Box_Model Box_Proof2 Box_Proof3 Box_Proof4 Remap_Model Remap_Proof2 Mask_Model Mask_Spec Mask_Proof.
Import ListNotations.
Open Scope R_scope.

(* ---------- change of cosmology ---------- *)
Lemma prepare_shape : forall m o m', prepare m o = Ok m' -> exists n, m' = with_norm m n.
Proof.
  intros m o m' H. unfold prepare in H. destruct (match o with Some _ => _ | None => _ end) as [n|] in H; [|discriminate].
  cbn [bind] in H. destruct (t_interp _); [|discriminate]. injection H as <-. exists n. reflexivity.
Qed.
Lemma nth_error_combine : forall {A B} (a : list A) (b : list B) i x y, nth_error (combine a b) i = Some (x, y) -> nth_error a i = Some x /\ nth_error b i = Some y.
Proof. induction a as [|u a IH]; intros [|v b] [|i] x y H; try discriminate; cbn in *; [injection H as -> ->; auto|apply IH; auto]. Qed.
Lemma zip_inv : forall f a b c, zip_result f a b = Ok c ->
  length a = length b /\ length c = length a /\ forall i, (i < length c)%nat -> f (nth i a 0) (nth i b 0) = Ok (nth i c 0).
Proof.
  intros f a b c H. unfold zip_result in H. destruct (Nat.eqb (length a) (length b)) eqn:E; [|discriminate]. apply Nat.eqb_eq in E.
  apply map_result_nth in H. destruct H as [L N]. rewrite combine_length, E, Nat.min_id in L. split; auto. split; [lia|].
  intros i Hi. destruct (nth_error c i) as [v|] eqn:V; [|apply nth_error_None in V; lia]. destruct (N i v V) as ([x y] & C & F).
  apply nth_error_combine in C. destruct C as [X Y]. rewrite (nth_error_nth a i 0 X), (nth_error_nth b i 0 Y), (nth_error_nth c i 0 V). auto.
Qed.
Lemma zip_ok : forall f g a b, length a = length b -> (forall i, (i < length a)%nat -> f (nth i a 0) (nth i b 0) = Ok (g (nth i a 0) (nth i b 0))) ->
  exists c, zip_result f a b = Ok c.
Proof.
  intros f g a b L H. unfold zip_result. rewrite L, Nat.eqb_refl.
  destruct (map_result_all (fun x => f (fst x) (snd x)) (fun _ _ => True) (combine a b)) as (m & E & _); [|exists m; auto].
  intros [x y] I. apply In_nth_error in I. destruct I as (i & I). apply nth_error_combine in I. destruct I as [X Y].
  specialize (H i). rewrite (nth_error_nth a i 0 X), (nth_error_nth b i 0 Y) in H. cbn.
  exists (g x y). split; auto. apply H. apply nth_error_Some. congruence.
Qed.
Lemma shells_nth : forall d e i, (S i < length e)%nat -> nth i (shells (map d e)) 0 = shell_volume d (nth i e 0) (nth (S i) e 0).
Proof.
  intros d e. induction e as [|a e IH]; intros i H; [cbn in H; lia|]. destruct e as [|b e]; [cbn in H; lia|].
  destruct i as [|i]; [reflexivity|]. change (nth (S i) (shells (map d (a :: b :: e))) 0) with (nth i (shells (map d (b :: e))) 0). rewrite IH by (cbn in *; lia). reflexivity.
Qed.
Lemma shells_length : forall d, length (shells d) = pred (length d).
Proof. intros [|a d]; auto. unfold shells. rewrite map_length, combine_length. cbn [tl length]. lia. Qed.

Definition edges_of (m : tmask) (o : option (list R)) : list R := match o with Some e => e | None => default_zedges (t_z m) end.

Lemma convert_inv : forall m d1 d2 o m', convert_to_cosmo m d1 d2 o = Ok m' ->
  (exists n, m' = TMask (t_z m) (t_nbar m') (t_lo m) (t_hi m) (Some n)) /\ length (t_nbar m') = length (t_nbar m) /\
  length (t_nbar m) = pred (length (edges_of m o)) /\
  forall i, (i < length (t_nbar m))%nat ->
    shell_volume d2 (nth i (edges_of m o) 0) (nth (S i) (edges_of m o) 0) <> 0 /\
    nth i (t_nbar m') 0 = nth i (t_nbar m) 0 * shell_volume d1 (nth i (edges_of m o) 0) (nth (S i) (edges_of m o) 0) / shell_volume d2 (nth i (edges_of m o) 0) (nth (S i) (edges_of m o) 0).
Proof.
  intros m d1 d2 o m' H. unfold convert_to_cosmo in H. fold (edges_of m o) in H. set (e := edges_of m o) in *.
  destruct (zip_result _ (t_nbar m) _) as [a|] eqn:A; [|discriminate]. cbn [bind] in H. destruct (zip_result fdiv a _) as [nb|] eqn:B; [|discriminate]. cbn [bind] in H.
  apply prepare_shape in H. destruct H as (n & ->). cbn. apply zip_inv in A. apply zip_inv in B. destruct A as (A1 & A2 & A3). destruct B as (B1 & B2 & B3).
  rewrite shells_length, map_length in A1. split; [exists n; reflexivity|]. split; [lia|]. split; [lia|]. intros i Hi.
  specialize (A3 i ltac:(lia)). specialize (B3 i ltac:(lia)). rewrite shells_nth in A3, B3 by lia. injection A3 as A3.
  apply fdiv_inv in B3. destruct B3 as [B3 B4]. split; auto. rewrite B4, <- A3. reflexivity.
Qed.

Lemma cube_lt : forall a b, a < b -> a ^ 3 < b ^ 3.
Proof.
  intros a b H. assert (P : 0 < (b + a / 2) ^ 2 + 3 / 4 * a ^ 2).
  { destruct (Req_dec a 0) as [->|N]; [nra|]. assert (0 < a * a) by (destruct (Rtotal_order a 0) as [C|[C|C]]; nra). pose proof (pow2_ge_0 (b + a / 2)). nra. }
  assert (0 < (b - a) * ((b + a / 2) ^ 2 + 3 / 4 * a ^ 2)) by (apply Rmult_lt_0_compat; lra). nra.
Qed.
Lemma sorted_nth : forall e i, sorted e -> (S i < length e)%nat -> nth i e 0 < nth (S i) e 0.
Proof.
  induction e as [|a e IH]; intros i S H; [cbn in H; lia|]. destruct e as [|b e]; [cbn in H; lia|]. apply sorted_cons in S. destruct S as [L S].
  destruct i as [|i]; [exact L|]. change (nth i (b :: e) 0 < nth (Datatypes.S i) (b :: e) 0). apply IH; auto. cbn in *; lia.
Qed.
Lemma shell_pos : forall d a b, (forall x y, x < y -> d x < d y) -> a < b -> 0 < shell_volume d a b.
Proof. intros d a b D H. unfold shell_volume. pose proof (cube_lt _ _ (D a b H)). lra. Qed.

Lemma midpoints_step : forall a b z, midpoints (a :: b :: z) = (a + b) / 2 :: midpoints (b :: z).
Proof. reflexivity. Qed.
Lemma edges_sorted_aux : forall z a b x, sorted (a :: b :: z) -> x < (a + b) / 2 -> sorted (x :: midpoints (a :: b :: z) ++ [last (a :: b :: z) 0]).
Proof.
  induction z as [|c z IH]; intros a b x S H; rewrite midpoints_step; apply sorted_cons in S; destruct S as [L S].
  - cbn. apply sorted_cons. split; auto. apply sorted_cons. split; [lra|reflexivity].
  - change ((x :: ((a + b) / 2 :: midpoints (b :: c :: z)) ++ [last (a :: b :: c :: z) 0])) with (x :: (a + b) / 2 :: (midpoints (b :: c :: z) ++ [last (b :: c :: z) 0])).
    apply sorted_cons. split; auto. apply IH; auto. apply sorted_cons in S. destruct S as [S0 _]. lra.
Qed.
Lemma default_edges_sorted : forall z, sorted z -> (2 <= length z)%nat -> sorted (default_zedges z).
Proof.
  intros [|a [|b z]] S N; [cbn in N; lia|cbn in N; lia|]. unfold default_zedges. cbn [hd app]. apply edges_sorted_aux; auto. apply sorted_cons in S. destruct S as [S0 _]. lra.
Qed.
Lemma midpoints_length : forall z, length (midpoints z) = pred (length z).
Proof. intros [|a z]; auto. unfold midpoints. rewrite map_length, combine_length. cbn [length tl pred]. lia. Qed.
Lemma default_edges_length : forall z, z <> [] -> length (default_zedges z) = S (length z).
Proof. intros z H. unfold default_zedges. rewrite !app_length, midpoints_length. cbn [length]. destruct z; [easy|cbn; lia]. Qed.
Lemma midpoints_nth : forall z i, (S i < length z)%nat -> nth i (midpoints z) 0 = (nth i z 0 + nth (S i) z 0) / 2.
Proof.
  induction z as [|a z IH]; intros i H; [cbn in H; lia|]. destruct z as [|b z]; [cbn in H; lia|]. rewrite midpoints_step. destruct i as [|i]; [reflexivity|].
  change (nth i (midpoints (b :: z)) 0 = (nth i (b :: z) 0 + nth (S i) (b :: z) 0) / 2). apply IH. cbn in *; lia.
Qed.

Lemma prepare_none_ok : forall m b, well m -> In b (nbar_in_range m) -> 0 < b -> exists n, prepare m None = Ok (with_norm m n).
Proof.
  intros m b W I P. pose proof W as (S & L & N & F). unfold prepare. unfold t_interp at 1, knots. cbn [t_norm t_z t_nbar t_lo t_hi]. rewrite spline_ok; auto. cbn [bind].
  change (nbar_in_range {| t_z := t_z m; t_nbar := t_nbar m; t_lo := t_lo m; t_hi := t_hi m; t_norm := None |}) with (nbar_in_range m).
  assert (B : b <= list_max (nbar_in_range m)) by (apply list_max_ge; auto). destruct (nbar_in_range m) as [|b0 l] eqn:El; [easy|]. rewrite fdiv_ok.
  - cbn [bind]. eexists. change (TMask (t_z m) (t_nbar m) (t_lo m) (t_hi m) (Some ?n)) with (with_norm m n). rewrite well_interp; auto. reflexivity.
  - assert (list_max (b0 :: l) <= Rmax (Rmax (list_max (b0 :: l)) (lin (t_z m) (t_nbar m) (t_lo m))) (lin (t_z m) (t_nbar m) (t_hi m))) by (eapply Rle_trans; apply Rmax_l). lra.
Qed.

Lemma convert_ok : forall m d1 d2 o, well m -> sorted (edges_of m o) -> length (edges_of m o) = S (length (t_z m)) ->
  (forall x y, x < y -> d1 x < d1 y) -> (forall x y, x < y -> d2 x < d2 y) ->
  (exists z b, In (z, b) (combine (t_z m) (t_nbar m)) /\ t_lo m <= z <= t_hi m /\ 0 < b) -> exists m', convert_to_cosmo m d1 d2 o = Ok m' /\ well m'.
Proof.
  intros m d1 d2 o W Se Le D1 D2 (z & b & I & Rz & Pb). pose proof W as (S & L & N & F). unfold convert_to_cosmo. fold (edges_of m o). set (e := edges_of m o) in *.
  assert (P : forall d i, (forall x y, x < y -> d x < d y) -> (i < length (t_z m))%nat -> 0 < nth i (shells (map d e)) 0).
  { intros d i D Hi. rewrite shells_nth by lia. apply shell_pos; auto. apply sorted_nth; auto. lia. }
  destruct (zip_ok (fun x y => Ok (x * y)) Rmult (t_nbar m) (shells (map d1 e))) as (a & Ea); [rewrite shells_length, map_length; lia|auto|].
  rewrite Ea. cbn [bind]. apply zip_inv in Ea. destruct Ea as (A1 & A2 & A3).
  destruct (zip_ok fdiv Rdiv a (shells (map d2 e))) as (nb & En); [rewrite shells_length, map_length; lia| |].
  { intros i Hi. apply fdiv_ok. assert (0 < nth i (shells (map d2 e)) 0) by (apply P; auto; lia). lra. }
  rewrite En. cbn [bind]. apply zip_inv in En. destruct En as (B1 & B2 & B3).
  assert (V : forall i, (i < length nb)%nat -> exists c, 0 < c /\ nth i nb 0 = nth i (t_nbar m) 0 * c).
  { intros i Hi. specialize (A3 i ltac:(lia)). specialize (B3 i ltac:(lia)). injection A3 as A3. apply fdiv_inv in B3. destruct B3 as [_ B3].
    assert (0 < nth i (shells (map d1 e)) 0) by (apply P; auto; lia). assert (0 < nth i (shells (map d2 e)) 0) by (apply P; auto; lia).
    exists (nth i (shells (map d1 e)) 0 / nth i (shells (map d2 e)) 0). split; [apply Rdiv_lt_0_compat; auto|]. rewrite B3, <- A3. field. lra. }
  set (mm := TMask (t_z m) nb (t_lo m) (t_hi m) (t_norm m)).
  assert (Wm : well mm).
  { split; [exact S|]. split; [cbn; lia|]. split; [exact N|]. cbn. apply Forall_forall. intros x Ix. apply (In_nth _ _ 0) in Ix. destruct Ix as (i & Hi & <-).
    destruct (V i Hi) as (c & Hc & ->). rewrite Forall_forall in F. assert (0 <= nth i (t_nbar m) 0) by (apply F, nth_In; lia). nra. }
  assert (Q : exists b', In (z, b') (combine (t_z m) nb) /\ 0 < b').
  { apply In_nth_error in I. destruct I as (i & I). apply nth_error_combine in I. destruct I as [Iz Ib].
    assert (Hi : (i < length (t_z m))%nat) by (apply nth_error_Some; congruence). destruct (V i ltac:(lia)) as (c & Hc & E). exists (nth i nb 0). split.
    - replace z with (nth i (t_z m) 0) by (apply nth_error_nth; auto). rewrite <- combine_nth by lia. apply nth_In. rewrite combine_length. lia.
    - rewrite E, (nth_error_nth _ _ 0 Ib). nra. }
  destruct Q as (b' & Ib' & Pb').
  destruct (prepare_none_ok mm b' Wm) as (n & E); auto.
  { unfold nbar_in_range. apply select_by_In. exists z. split; auto. apply between_spec; auto. }
  exists (with_norm mm n). split; auto.
Qed.

(* ---------- collections ---------- *)
Definition has_label (k : Z) (chunk : list Z) : list bool := map (fun c => Z.eqb c k) chunk.
Lemma select_rows : forall {A} k chunk (l : list A), select_by (has_label k chunk) l = rows_of k chunk l.
Proof.
  intros A k. unfold rows_of, has_label. induction chunk as [|c chunk IH]; intros [|a l]; auto. cbn [map select_by combine filter fst].
  destruct (Z.eqb c k); cbn [map snd]; rewrite IH; reflexivity.
Qed.
Lemma assign_length : forall mask old new, length (assign mask old new) = length old.
Proof. induction mask as [|b mask IH]; intros [|a old] new; cbn; auto. destruct b; [destruct new|]; cbn; rewrite IH; auto. Qed.
Lemma assign_same : forall mask old new, length mask = length old -> length new = length (filter (fun b => b) mask) -> select_by mask (assign mask old new) = new.
Proof.
  induction mask as [|b mask IH]; intros [|a old] new L H; cbn in *; try lia; [destruct new; auto; discriminate|].
  destruct b; [|apply IH; auto]. destruct new as [|v new]; [discriminate|]. cbn in H. f_equal. apply IH; lia.
Qed.
Lemma assign_other : forall k j chunk old new, k <> j -> select_by (has_label j chunk) (assign (has_label k chunk) old new) = select_by (has_label j chunk) old.
Proof.
  intros k j. induction chunk as [|c chunk IH]; intros [|a old] new H; auto. unfold has_label in *. cbn [map assign].
  destruct (Z.eqb c k) eqn:E.
  - apply Z.eqb_eq in E. subst c. destruct (Z.eqb k j) eqn:E'; [apply Z.eqb_eq in E'; easy|]. destruct new; cbn [select_by]; apply IH; auto.
  - cbn [select_by]. destruct (Z.eqb c j); [f_equal|]; apply IH; auto.
Qed.

Definition masks_of := list (Z * (list (list R) -> result (list R))).
Definition settled (args : list (list R)) (chunk : list Z) (prob : list R) (item : Z * (list (list R) -> result (list R))) : Prop :=
  In (fst item) chunk -> exists new, snd item (map (rows_of (fst item) chunk) args) = Ok new /\
    (rows_of (fst item) chunk prob = new \/ exists v, new = [v] /\ rows_of (fst item) chunk prob = repeat v (length (rows_of (fst item) chunk prob))).

Lemma existsb_label : forall k chunk, existsb (fun b => b) (has_label k chunk) = true <-> In k chunk.
Proof.
  intros k chunk. rewrite existsb_exists. unfold has_label. split.
  - intros (b & I & ->). apply in_map_iff in I. destruct I as (c & E & I). apply Z.eqb_eq in E. subst; auto.
  - intros I. exists true. split; auto. apply in_map_iff. exists k. split; auto. apply Z.eqb_refl.
Qed.
Lemma step_spec : forall args chunk p item p', length p = length chunk -> collection_step args chunk p item = Ok p' ->
  length p' = length chunk /\ settled args chunk p' item /\ forall j, j <> fst item -> rows_of j chunk p' = rows_of j chunk p.
Proof.
  intros args chunk p [k f] p' L H. unfold collection_step in H. cbn [fst snd] in *. fold (has_label k chunk) in H.
  destruct (existsb _ _) eqn:E.
  - destruct (f _) as [new|] eqn:F; [|discriminate]. cbn [bind] in H.
    assert (Fs : f (map (rows_of k chunk) args) = Ok new) by (rewrite <- F; f_equal; apply map_ext; intros c; symmetry; apply select_rows).
    assert (Lm : length (has_label k chunk) = length p) by (unfold has_label; rewrite map_length; auto).
    unfold assign_result in H. destruct (Nat.eqb (length new) _) eqn:Ln.
    + apply Nat.eqb_eq in Ln. injection H as <-. rewrite assign_length. split; auto. split.
      * intros _. exists new. split; auto. left. cbn [fst]. rewrite <- select_rows. apply assign_same; auto.
      * intros j Hj. rewrite <- !select_rows. apply assign_other; auto.
    + destruct new as [|v [|? ?]]; try discriminate. injection H as <-. rewrite assign_length. split; auto. split.
      * intros _. exists [v]. split; auto. right. exists v. split; auto. cbn [fst]. rewrite <- !select_rows. rewrite assign_same; auto; rewrite repeat_length; auto.
      * intros j Hj. rewrite <- !select_rows. apply assign_other; auto.
  - injection H as <-. split; auto. split; [|auto]. intros I. cbn [fst] in I. apply existsb_label in I. congruence.
Qed.

Lemma fold_err : forall args chunk (masks : masks_of) e, fold_left (fun p item => do p <- p; collection_step args chunk p item) masks (Err e) = Err e.
Proof. induction masks as [|i masks IH]; intros e; auto. cbn. apply IH. Qed.

Lemma collection_fold : forall args chunk (masks : masks_of) p p', NoDup (map fst masks) -> length p = length chunk ->
  fold_left (fun p item => do p <- p; collection_step args chunk p item) masks (Ok p) = Ok p' ->
  length p' = length chunk /\ Forall (settled args chunk p') masks /\ forall j, ~ In j (map fst masks) -> rows_of j chunk p' = rows_of j chunk p.
Proof.
  intros args chunk. induction masks as [|item masks IH]; intros p p' ND L H.
  - injection H as <-. split; auto.
  - cbn [fold_left bind] in H. destruct (collection_step args chunk p item) as [q|] eqn:E; [|rewrite fold_err in H; discriminate].
    destruct (step_spec _ _ _ _ _ L E) as (Lq & Sq & Oq). inversion ND as [|? ? Nin ND']; subst. destruct (IH q p' ND' Lq H) as (Lp & Fp & Op).
    split; auto. split.
    + constructor; auto. intros I. destruct (Sq I) as (new & F & C). exists new. split; auto. rewrite (Op (fst item)); auto.
    + intros j Hj. cbn in Hj. rewrite Op by (intros C; apply Hj; auto). apply Oq. intros ->. apply Hj; auto.
Qed.

Lemma rows_repeat : forall k chunk n (v : R), rows_of k chunk (repeat v n) = repeat v (length (rows_of k chunk (repeat v n))).
Proof.
  intros k. unfold rows_of. induction chunk as [|c chunk IH]; intros [|n] v; auto. cbn [repeat combine filter fst]. destruct (Z.eqb c k); auto.
  cbn [map snd length repeat]. f_equal. apply IH.
Qed.

(** Position of an object among those with its label. *)
Fixpoint rank (k : Z) (chunk : list Z) (i : nat) : nat :=
  match i, chunk with
  | S i, c :: chunk => (if Z.eqb c k then 1 else 0) + rank k chunk i
  | _, _ => 0
  end%nat.
Lemma rank_nth : forall {A} (d : A) chunk i (l : list A), length l = length chunk -> (i < length chunk)%nat ->
  let k := nth i chunk 0%Z in
  nth (rank k chunk i) (rows_of k chunk l) d = nth i l d /\ (rank k chunk i < length (rows_of k chunk l))%nat.
Proof.
  intros A d. induction chunk as [|c chunk IH]; intros i [|a l] L Hi; cbn in Hi, L; try lia. destruct i as [|i].
  - cbn [nth rank]. unfold rows_of. cbn [combine filter fst]. rewrite Z.eqb_refl. cbn. split; auto. lia.
  - cbn [nth]. set (k := nth i chunk 0%Z). cbn [rank]. destruct (IH i l) as [E H]; try lia. fold k in E, H. unfold rows_of in *. cbn [combine filter fst].
    destruct (Z.eqb c k); cbn [map length nth Nat.add snd]; split; auto; lia.
Qed.
Lemma rows_length : forall {A B} k chunk (l : list A) (l' : list B), length l = length l' -> length (rows_of k chunk l) = length (rows_of k chunk l').
Proof.
  intros A B k. unfold rows_of. induction chunk as [|c chunk IH]; intros [|a l] [|b l'] L; try discriminate; auto. cbn [combine filter fst].
  destruct (Z.eqb c k); cbn [map length]; [f_equal|]; apply IH; auto.
Qed.

Lemma count_rows : forall {A} k chunk (l : list A), length l = length chunk -> length (filter (fun b => b) (has_label k chunk)) = length (rows_of k chunk l).
Proof.
  intros A k. unfold rows_of, has_label. induction chunk as [|c chunk IH]; intros [|a l] L; try discriminate; auto. cbn [map combine filter fst].
  destruct (Z.eqb c k); cbn [length map]; [f_equal|]; apply IH; auto.
Qed.

Lemma step_ok : forall args chunk p item q, args <> [] -> Forall (fun c => length c = length chunk) args -> length p = length chunk -> rowwise (snd item) q ->
  exists p', collection_step args chunk p item = Ok p'.
Proof.
  intros args chunk p [k f] q Na Fa L Hr. unfold collection_step. cbn [fst snd] in *. fold (has_label k chunk). destruct (existsb _ _); [|eauto].
  destruct (Hr (length (filter (fun b => b) (has_label k chunk))) (map (select_by (has_label k chunk)) args)) as (out & E & Lo & _).
  - destruct args; [easy|discriminate].
  - apply Forall_forall. intros c Ic. apply in_map_iff in Ic. destruct Ic as (l & <- & Il). rewrite Forall_forall in Fa. rewrite select_rows. symmetry. apply count_rows. auto.
  - rewrite E. cbn [bind]. unfold assign_result. rewrite Lo, Nat.eqb_refl. eauto.
Qed.

Lemma collection_rowwise : forall (masks : masks_of) (ps : list (Z * (list R -> R))) chunk args,
  NoDup (map fst masks) -> Forall2 (fun m p => fst m = fst p /\ rowwise (snd m) (snd p)) masks ps ->
  args <> [] -> Forall (fun c => length c = length chunk) args ->
  exists prob, collection_prob masks chunk args = Ok prob /\ length prob = length chunk /\
    forall i, (i < length chunk)%nat ->
      (forall p, In (nth i chunk 0%Z, p) ps -> nth i prob 0 = p (map (fun c => nth i c 0) args)) /\
      (~ In (nth i chunk 0%Z) (map fst ps) -> nth i prob 0 = 1).
Proof.
  intros masks ps chunk args ND F2 Na Fa. unfold collection_prob.
  assert (EX : forall p, length p = length chunk -> exists prob, fold_left (fun p item => do p <- p; collection_step args chunk p item) masks (Ok p) = Ok prob).
  { clear ND. revert ps F2. induction masks as [|m masks IH]; intros ps F2 p L; [eexists; reflexivity|]. inversion F2 as [|? q ? ps' H F2']; subst. destruct H as [_ H].
    destruct (step_ok args chunk p m (snd q) Na Fa L H) as (p' & E). cbn [fold_left bind]. rewrite E. eapply IH; eauto. apply (step_spec _ _ _ _ _ L E). }
  destruct (EX (repeat 1 (length chunk)) (repeat_length _ _)) as (prob & E). exists prob. split; auto.
  destruct (collection_fold args chunk masks _ prob ND (repeat_length _ _) E) as (L & St & Ot). split; auto.
  intros i Hi. assert (Ek : map fst masks = map fst ps). { clear -F2. induction F2 as [|? ? ? ? H F2 IH]; auto. cbn. f_equal; auto. apply H. }
  pose proof (rank_nth 0 chunk i prob L Hi) as [Rn Rl]. set (k := nth i chunk 0%Z) in *.
  assert (Ik : In k chunk) by (apply nth_In; auto). split.
  - intros p Ip.
    assert (Im : exists f, In (k, f) masks /\ rowwise f p).
    { clear -F2 Ip. induction F2 as [|[k1 f] [k2 q] ? ? H F2 IH]; [easy|]. cbn in H. destruct H as [Hk Hr]. destruct Ip as [Ip|Ip].
      - injection Ip as -> ->. subst k1. exists f. split; [left; auto|exact Hr].
      - destruct (IH Ip) as (f' & I & J). exists f'. split; [right; auto|auto]. }
    destruct Im as (f & Im & Hr). rewrite Forall_forall in St. destruct (St _ Im Ik) as (new & Ef & C). cbn [fst snd] in *.
    destruct (Hr (length (rows_of k chunk prob)) (map (rows_of k chunk) args)) as (out & Eo & Lo & No).
    { destruct args; [easy|discriminate]. }
    { apply Forall_forall. intros c Ic. apply in_map_iff in Ic. destruct Ic as (l & <- & Il). rewrite Forall_forall in Fa. apply rows_length. rewrite L. auto. }
    rewrite Eo in Ef. injection Ef as ->.
    assert (Er : rows_of k chunk prob = new).
    { destruct C as [C|(v & Ev & C)]; auto. rewrite C. subst new. cbn in Lo. rewrite <- Lo. reflexivity. }
    rewrite <- Rn, Er, No by auto. f_equal. rewrite map_map. apply map_ext_in. intros c Ic. rewrite Forall_forall in Fa.
    apply (rank_nth 0 chunk i c); auto.
  - intros Nin. rewrite <- Rn. rewrite Ot by (rewrite Ek; auto). rewrite rows_repeat.
    assert (G : forall n m (v : R), (n < m)%nat -> nth n (repeat v m) 0 = v) by (intros n m; revert n; induction m; intros [|n] v H; cbn; try lia; auto; apply IHm; lia).
    apply G. rewrite <- (rows_length k chunk prob (repeat 1 (length chunk))); auto. rewrite repeat_length; auto.
Qed.
