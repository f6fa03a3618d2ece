(** Lemmas on the model of the redshift density. *)
Require Import Reals Lra Lia ZArith List Bool Permutation.
From Verif Require Import Base Cutsky_Model Box_Model Remap_Model Sample_Model Density_Model Density_Spec Remap_Proof2 Box_Proof2 Box_Proof3 Box_Proof4.
Import ListNotations.
Open Scope R_scope.

Lemma Rsum_map_ext : forall {A} (f g : A -> R) l, (forall x, In x l -> f x = g x) -> Rsum (map f l) = Rsum (map g l).
Proof. induction l; intros H; cbn; auto. rewrite H by (left; auto). f_equal. apply IHl. intros; apply H; right; auto. Qed.
Lemma Rsum_map_minus : forall {A} (f g : A -> R) l, Rsum (map f l) - Rsum (map g l) = Rsum (map (fun x => f x - g x) l).
Proof. induction l; cbn. ring. unfold Rsum in *. rewrite <- IHl. ring. Qed.
Lemma Rsum_filter : forall {A} (p : A -> bool) (f : A -> R) l, Rsum (map f (filter p l)) = Rsum (map (fun x => if p x then f x else 0) l).
Proof. induction l; cbn; auto. destruct (p a); cbn; unfold Rsum in *; rewrite <- IHl; ring. Qed.
Lemma Rsum_perm : forall l l', Permutation l l' -> Rsum l = Rsum l'.
Proof. induction 1; cbn; unfold Rsum in *; try lra. Qed.
Lemma weight_perm : forall P l l', Permutation l l' -> weight_where P l = weight_where P l'.
Proof. intros P l l' H. apply Rsum_perm. apply Permutation_map. auto. Qed.
Lemma weight_app : forall P a b, weight_where P (a ++ b) = weight_where P a + weight_where P b.
Proof. intros. unfold weight_where. rewrite map_app. apply Rsum_app. Qed.
Lemma weight_concat : forall P l, weight_where P (concat l) = Rsum (map (weight_where P) l).
Proof. intros P l; induction l as [|a l IH]; [reflexivity|]. cbn [concat map]. rewrite weight_app, IH. reflexivity. Qed.
Lemma weight_all : forall P l, (forall o, In o l -> P (fst o) = true) -> weight_where P l = total_weight l.
Proof. intros P l H. apply Rsum_map_ext. intros x I. rewrite (H x I). auto. Qed.

Lemma bin_open : forall objs a b, a <= b -> below objs b - below objs a = weight_where (in_bin false a b) objs.
Proof.
  intros objs a b H. unfold below, weight_where. rewrite !Rsum_filter, Rsum_map_minus. apply Rsum_map_ext. intros [z w] _. cbn [fst snd].
  unfold in_bin, Rltb. destruct (Rlt_dec z b), (Rlt_dec z a), (Rle_dec a z); lra.
Qed.
Lemma bin_closed : forall objs a b, a <= b -> upto objs b - below objs a = weight_where (in_bin true a b) objs.
Proof.
  intros objs a b H. unfold below, upto, weight_where. rewrite !Rsum_filter, Rsum_map_minus. apply Rsum_map_ext. intros [z w] _. cbn [fst snd].
  unfold in_bin, Rltb, Rleb. destruct (Rle_dec z b), (Rlt_dec z a), (Rle_dec a z); lra.
Qed.

Lemma cumulated_length : forall objs e, length (cumulated objs e) = length e.
Proof. intros objs; induction e as [|a [|b e]]; auto. change (S (length (cumulated objs (b :: e))) = S (length (b :: e))). f_equal. apply IHe. Qed.
Lemma diff_length : forall l, length (diff l) = (length l - 1)%nat.
Proof. induction l as [|a [|b l]]; auto. change (S (length (diff (b :: l))) = (length (a :: b :: l) - 1)%nat). rewrite IHl. cbn [length]. lia. Qed.
Lemma centres_length : forall l, length (centres l) = (length l - 1)%nat.
Proof. induction l as [|a [|b l]]; auto. change (S (length (centres (b :: l))) = (length (a :: b :: l) - 1)%nat). rewrite IHl. cbn [length]. lia. Qed.
Lemma diff_nth : forall l i, (S i < length l)%nat -> nth i (diff l) 0 = nth (S i) l 0 - nth i l 0.
Proof.
  induction l as [|a [|b l]]; intros i H; cbn [length] in H; try lia.
  destruct i; [reflexivity|]. change (nth (S i) (diff (a :: b :: l)) 0) with (nth i (diff (b :: l)) 0).
  rewrite IHl by (cbn [length]; lia). reflexivity.
Qed.
Lemma cumulated_nth : forall objs e i, (i < length e)%nat ->
  nth i (cumulated objs e) 0 = if (S i =? length e)%nat then upto objs (nth i e 0) else below objs (nth i e 0).
Proof.
  intros objs; induction e as [|a [|b e]]; intros i H; cbn [length] in H; try lia.
  - assert (i = 0%nat) by lia. subst. reflexivity.
  - destruct i; [reflexivity|]. change (nth (S i) (cumulated objs (a :: b :: e)) 0) with (nth i (cumulated objs (b :: e)) 0).
    rewrite IHe by (cbn [length]; lia). reflexivity.
Qed.
Lemma not_decreasing_nth : forall e i, not_decreasing e = true -> (S i < length e)%nat -> nth i e 0 <= nth (S i) e 0.
Proof.
  induction e as [|a [|b e]]; intros i H L; cbn [length] in L; try lia.
  cbn [not_decreasing] in H. apply andb_prop in H. destruct H as [H1 H2]. destruct i; [apply Rleb_true; auto|].
  apply (IHe i H2). cbn [length]; lia.
Qed.

Definition final_bin (e : list R) (i : nat) : bool := (S (S i) =? length e)%nat.
Lemma histogram_nth : forall objs e l i, histogram objs e = Ok l -> (S i < length e)%nat ->
  nth i l 0 = weight_where (in_bin (final_bin e i) (nth i e 0) (nth (S i) e 0)) objs.
Proof.
  intros objs e l i H L. unfold histogram in H. destruct (not_decreasing e) eqn:D; [|discriminate]. injection H as <-.
  rewrite diff_nth by (rewrite cumulated_length; auto). rewrite !cumulated_nth by lia.
  pose proof (not_decreasing_nth e i D L) as Q. unfold final_bin.
  replace (S i =? length e)%nat with false by (symmetry; apply Nat.eqb_neq; lia).
  destruct (S (S i) =? length e)%nat; [apply bin_closed|apply bin_open]; auto.
Qed.
Lemma histogram_length : forall objs e l, histogram objs e = Ok l -> length l = (length e - 1)%nat.
Proof. intros objs e l H. unfold histogram in H. destruct (not_decreasing e); [|discriminate]. injection H as <-. rewrite diff_length, cumulated_length. auto. Qed.

Lemma zip_with_length : forall {A B C} (f : A -> B -> C) a b, length (zip_with f a b) = Nat.min (length a) (length b).
Proof. intros. unfold zip_with. rewrite map_length. apply combine_length. Qed.
Lemma zip_plus_nth : forall a b i, length a = length b -> nth i (zip_with Rplus a b) 0 = nth i a 0 + nth i b 0.
Proof.
  induction a; destruct b; intros i H; try discriminate; [destruct i; cbn; ring|]. destruct i; [reflexivity|]. change (nth i (zip_with Rplus a0 b) 0 = nth i a0 0 + nth i b 0). apply IHa. injection H; auto.
Qed.
Lemma reduce_length : forall n l, Forall (fun p => length p = n) l -> length (reduce_sum n l) = n.
Proof. induction 1; cbn. apply repeat_length. rewrite zip_with_length. unfold reduce_sum in IHForall. lia. Qed.
Lemma reduce_nth : forall n l i, Forall (fun p => length p = n) l -> nth i (reduce_sum n l) 0 = Rsum (map (fun p => nth i p 0) l).
Proof.
  induction 1; cbn. apply nth_repeat. fold (reduce_sum n l). rewrite zip_plus_nth by (rewrite reduce_length; auto). rewrite IHForall. reflexivity.
Qed.

Lemma map_result_inv : forall {A B} (f : A -> result B) l r, map_result f l = Ok r -> Forall2 (fun a b => f a = Ok b) l r.
Proof.
  induction l; intros r H; cbn in H; [injection H as <-; constructor|]. destruct (f a) eqn:E; [|discriminate]. cbn in H.
  destruct (map_result f l) eqn:E2; [|discriminate]. injection H as <-. constructor; auto.
Qed.

Lemma counts_nth : forall objs e parts i, map_result (fun o => histogram o e) objs = Ok parts -> (S i < length e)%nat ->
  nth i (reduce_sum (length e - 1) parts) 0 = weight_where (in_bin (final_bin e i) (nth i e 0) (nth (S i) e 0)) (concat objs).
Proof.
  intros objs e parts i H L. apply map_result_inv in H. rewrite weight_concat.
  rewrite reduce_nth.
  - f_equal. induction H; cbn; auto. f_equal; auto. apply histogram_nth; auto.
  - clear L. induction H; constructor; auto. apply (histogram_length _ _ _ H).
Qed.
Lemma counts_length : forall objs e parts, map_result (fun o => histogram o e) objs = Ok parts -> length (reduce_sum (length e - 1) parts) = (length e - 1)%nat.
Proof. intros objs e parts H. apply map_result_inv in H. apply reduce_length. induction H; constructor; auto. apply (histogram_length _ _ _ H). Qed.

Lemma volumes_length : forall fsky distance e, length (volumes fsky distance e) = (length e - 1)%nat.
Proof.
  intros [f|] distance e; unfold volumes; [|apply repeat_length]. rewrite map_length, diff_length, map_length. destruct distance; rewrite ?map_length; auto.
Qed.
Lemma volumes_nth : forall fsky distance e i, (S i < length e)%nat ->
  nth i (volumes fsky distance e) 0 = shell fsky (distance_of distance) (nth i e 0) (nth (S i) e 0).
Proof.
  intros fsky distance e i L. unfold volumes, shell. destruct fsky as [f|].
  - set (db := match distance with Some d => map d e | None => e end).
    assert (LD : length db = length e) by (unfold db; destruct distance; rewrite ?map_length; auto).
    assert (ND : forall j, (j < length e)%nat -> nth j db 0 = distance_of distance (nth j e 0)).
    { intros j Hj. unfold db. destruct distance as [d|]; cbn [distance_of]; auto. rewrite nth_indep with (d' := d 0) by (rewrite map_length; auto). apply map_nth. }
    rewrite nth_indep with (d' := f * 4 / 3 * PI * 0) by (rewrite map_length, diff_length, map_length; lia).
    rewrite map_nth with (f := fun v => f * 4 / 3 * PI * v). rewrite diff_nth by (rewrite map_length; lia).
    rewrite !(nth_indep (map (fun d => d ^ 3) db) 0 (0 ^ 3)) by (rewrite map_length; lia).
    rewrite !map_nth with (f := fun d => d ^ 3). rewrite !ND by lia. field.
  - rewrite nth_indep with (d' := 1) by (rewrite repeat_length; lia). apply nth_repeat.
Qed.

Lemma quotients : forall a b r, length a = length b -> map_result (fun x => fdiv (fst x) (snd x)) (combine a b) = Ok r ->
  length r = length a /\ forall i, (i < length a)%nat -> nth i r 0 * nth i b 0 = nth i a 0.
Proof.
  induction a as [|x a IHa]; destruct b as [|y b]; intros r L H; try discriminate.
  - cbn in H. injection H as <-. split; auto. intros i Hi; cbn in Hi; lia.
  - cbn [combine map_result fst snd] in H. unfold fdiv at 1 in H. destruct (Req_EM_T y 0) as [|N]; [discriminate|]. cbn [bind] in H.
    destruct (map_result _ (combine a b)) as [q|] eqn:E; [|discriminate]. injection H as <-. injection L as L.
    destruct (IHa b q L E) as [L1 V]. split; [cbn; auto|]. intros [|i] Hi; cbn [nth length] in *; [field; auto|apply V; lia].
Qed.

Lemma new_density_inv : forall cvar spline elsewhere objs b fsky distance order d,
  new_density cvar spline elsewhere objs b fsky distance order = Ok d ->
  bin_edges cvar elsewhere b (concat objs) = Ok (d_edges d) /\ d_z d = centres (d_edges d) /\ spline order (d_z d) (d_nbar d) = Ok (d_interp d) /\
  length (d_nbar d) = (length (d_edges d) - 1)%nat /\
  (objs <> [] -> not_decreasing (d_edges d) = true) /\
  forall i, (S i < length (d_edges d))%nat -> nth i (d_nbar d) 0 * shell fsky (distance_of distance) (nth i (d_edges d) 0) (nth (S i) (d_edges d) 0)
    = weight_where (in_bin (final_bin (d_edges d) i) (nth i (d_edges d) 0) (nth (S i) (d_edges d) 0)) (concat objs).
Proof.
  intros cvar spline elsewhere objs b fsky distance order d H. unfold new_density in H.
  destruct (bin_edges cvar elsewhere b (concat objs)) as [e|] eqn:E; [|discriminate]. cbn [bind] in H.
  destruct (map_result (fun o => histogram o e) objs) as [parts|] eqn:P; [|discriminate]. cbn [bind] in H.
  destruct (map_result (fun x => fdiv (fst x) (snd x)) _) as [nbar|] eqn:Q; [|discriminate]. cbn [bind] in H.
  destruct (spline order (centres e) nbar) as [f|] eqn:S; [|discriminate]. injection H as <-. cbn [d_edges d_z d_nbar d_interp].
  pose proof (counts_length _ _ _ P) as CL.
  destruct (quotients _ _ _ (eq_trans CL (eq_sym (volumes_length fsky distance e))) Q) as [L V]. rewrite CL in L, V.
  repeat (split; [auto; fail|]). split.
  - intros NE. destruct objs as [|o objs]; [congruence|]. cbn in P. unfold histogram in P. destruct (not_decreasing e); auto. discriminate.
  - intros i Hi. rewrite <- volumes_nth by auto. rewrite V by lia. apply (counts_nth _ _ _ _ P Hi).
Qed.

Lemma Rsum_diff : forall a l, Rsum (diff (a :: l)) = last (a :: l) 0 - a.
Proof.
  intros a l; revert a; induction l as [|b l]; intros a; [cbn; ring|].
  change (diff (a :: b :: l)) with ((b - a) :: diff (b :: l)). change (last (a :: b :: l) 0) with (last (b :: l) 0).
  change (Rsum ((b - a) :: diff (b :: l))) with (b - a + Rsum (diff (b :: l))). rewrite IHl. ring.
Qed.
Lemma list_eq_nth : forall a b : list R, length a = length b -> (forall i, (i < length a)%nat -> nth i a 0 = nth i b 0) -> a = b.
Proof. intros a b L H. apply nth_ext with 0 0; auto. Qed.

Lemma not_decreasing_last : forall e a, not_decreasing (a :: e) = true -> a <= last (a :: e) 0.
Proof.
  induction e as [|b e]; intros a H; [cbn; lra|]. cbn [not_decreasing] in H. apply andb_prop in H. destruct H as [H1 H2].
  change (last (a :: b :: e) 0) with (last (b :: e) 0). apply Rleb_true in H1. specialize (IHe b H2). lra.
Qed.
Lemma cumulated_last : forall objs e, e <> [] -> last (cumulated objs e) 0 = upto objs (last e 0).
Proof.
  intros objs; induction e as [|a [|b e]]; intros NE; [congruence|reflexivity|].
  change (cumulated objs (a :: b :: e)) with (below objs a :: cumulated objs (b :: e)). change (last (a :: b :: e) 0) with (last (b :: e) 0). rewrite <- IHe by discriminate.
  remember (cumulated objs (b :: e)) as c. destruct c as [|x c]; [|reflexivity].
  exfalso. assert (Q := cumulated_length objs (b :: e)). rewrite <- Heqc in Q. discriminate.
Qed.
Lemma histogram_sum : forall objs a b e l, histogram objs (a :: b :: e) = Ok l -> Rsum l = weight_where (in_interval a (last (b :: e) 0)) objs.
Proof.
  intros objs a b e l H. unfold histogram in H. destruct (not_decreasing (a :: b :: e)) eqn:D; [|discriminate].
  assert (H' : l = diff (cumulated objs (a :: b :: e))) by congruence. clear H. subst l.
  change (cumulated objs (a :: b :: e)) with (below objs a :: cumulated objs (b :: e)). rewrite Rsum_diff.
  assert (Q : last (below objs a :: cumulated objs (b :: e)) 0 = upto objs (last (b :: e) 0)).
  { pose proof (cumulated_last objs (a :: b :: e) ltac:(discriminate)) as C. exact C. }
  rewrite Q. apply bin_closed. apply not_decreasing_last in D. exact D.
Qed.

(** Edges. *)
Lemma arange_length : forall n, (0 <= n)%Z -> length (arange 0 n) = Z.to_nat n.
Proof. intros. unfold arange. rewrite map_length, seq_length. f_equal. lia. Qed.
Lemma arange_nth : forall n i, (i < Z.to_nat n)%nat -> nth i (arange 0 n) 0%Z = Z.of_nat i.
Proof.
  intros n i H. unfold arange. rewrite nth_indep with (d' := (0 + Z.of_nat 0)%Z) by (rewrite map_length, seq_length; lia).
  rewrite (map_nth (fun k => (0 + Z.of_nat k)%Z)). rewrite seq_nth by lia. lia.
Qed.
Lemma grid_nth : forall g n i, (i < Z.to_nat n)%nat -> nth i (map (fun k => g (IZR k)) (arange 0 n)) 0 = g (INR i).
Proof.
  intros g n i H. rewrite nth_indep with (d' := g (IZR 0)) by (rewrite map_length; unfold arange; rewrite map_length, seq_length; lia).
  rewrite (map_nth (fun k => g (IZR k))), arange_nth by auto. rewrite INR_IZR_INZ. auto.
Qed.
Lemma last_nth : forall (l : list R), last l 0 = nth (length l - 1) l 0.
Proof. induction l as [|a [|b l]]; auto. change (last (a :: b :: l) 0) with (last (b :: l) 0). rewrite IHl. cbn [length]. replace (S (S (length l)) - 1)%nat with (S (S (length l) - 1)) by lia. reflexivity. Qed.
Lemma grid_ends : forall g n, (1 <= n)%Z -> let e := map (fun k => g (IZR k)) (arange 0 (n + 1)) in
  length e = S (Z.to_nat n) /\ first e = g 0 /\ final e = g (IZR n).
Proof.
  intros g n H e. assert (L : length e = S (Z.to_nat n)) by (unfold e; rewrite map_length, arange_length by lia; lia).
  split; auto. unfold first, final. rewrite last_nth, L. unfold e. rewrite !grid_nth by lia. split; [reflexivity|].
  f_equal. rewrite INR_IZR_INZ. f_equal. lia.
Qed.

Lemma scott_covers : forall cvar elsewhere all e, scott_edges cvar elsewhere all = Ok e ->
  (2 <= length e)%nat /\ forall o, In o all -> first e <= fst o <= final e.
Proof.
  intros cvar elsewhere all e H. unfold scott_edges in H. destruct (cvar all) as [var|]; [|discriminate]. cbn [bind] in H.
  destruct (redshift_range (map fst all)) as [[mn mx]|] eqn:ER; [|discriminate]. cbn [bind] in H.
  set (dx := sqrt var * _) in *. unfold fdiv in H. destruct (Req_EM_T dx 0) as [|N]; [discriminate|]. cbn [bind] in H. injection H as <-.
  set (n := Z.max 1 (Rceil ((mx - mn) * 1 / dx))).
  destruct (grid_ends (fun k => mn + dx * k) n ltac:(unfold n; lia)) as [L [F G]]. cbv zeta in L, F, G. rewrite F, G, L.
  split; [unfold n; lia|]. intros o I.
  unfold redshift_range in ER. assert (I2 : In (fst o) (map fst all)) by (apply in_map; auto).
  destruct (map fst all) eqn:EM; [contradiction|]. rewrite <- EM in *. injection ER as <- <-.
  pose proof (list_min_le _ _ I2). pose proof (list_max_ge _ _ I2). split; [lra|].
  assert (P : 0 < dx).
  { unfold dx in *. assert (0 <= sqrt var) by apply sqrt_pos. 
    assert (0 <= cbrt (24 * sqrt PI / INR (length all + elsewhere))). { unfold cbrt. destruct (Req_EM_T _ 0); [lra|]. left. apply exp_pos. }
    assert (0 <= sqrt var * cbrt (24 * sqrt PI / INR (length all + elsewhere))) by (apply Rmult_le_pos; auto). lra. }
  assert (C : (list_max (map fst all) - list_min (map fst all)) * 1 / dx <= IZR n).
  { destruct (Rceil_spec ((list_max (map fst all) - list_min (map fst all)) * 1 / dx)) as [_ C]. eapply Rle_trans; [apply C|]. apply IZR_le. unfold n. lia. }
  apply Rmult_le_compat_l with (r := dx) in C; [|lra].
  replace (dx * ((list_max (map fst all) - list_min (map fst all)) * 1 / dx)) with (list_max (map fst all) - list_min (map fst all)) in C by (field; auto). lra.
Qed.
Lemma equal_covers : forall n all e, equal_edges n all = Ok e ->
  length e = S (Z.to_nat n) /\ (1 <= n)%Z /\ forall o, In o all -> first e <= fst o <= final e.
Proof.
  intros n all e H. unfold equal_edges in H. destruct (redshift_range (map fst all)) as [[mn mx]|] eqn:ER; [|discriminate]. cbn [bind] in H.
  destruct (n <? 1)%Z eqn:EN; [discriminate|]. apply Z.ltb_ge in EN. injection H as <-.
  destruct (grid_ends (fun k => mn + (mx - mn) / IZR n * k) n EN) as [L [F G]]. cbv zeta in L, F, G. rewrite F, G, L.
  split; auto. split; auto. intros o I.
  unfold redshift_range in ER. assert (I2 : In (fst o) (map fst all)) by (apply in_map; auto).
  destruct (map fst all) eqn:EM; [contradiction|]. rewrite <- EM in *. injection ER as <- <-.
  pose proof (list_min_le _ _ I2). pose proof (list_max_ge _ _ I2). split; [lra|].
  replace (_ + _ / IZR n * IZR n) with (list_max (map fst all)); auto. field. apply not_0_IZR. lia.
Qed.

(** Order of the objects. *)
Lemma list_min_perm : forall l l', l <> [] -> Permutation l l' -> list_min l = list_min l'.
Proof.
  intros l l' NE P. assert (NE' : l' <> []) by (intros ->; apply NE; apply Permutation_nil; symmetry; auto).
  apply Rle_antisym; apply list_min_ge; auto; intros x I; apply list_min_le; [apply (Permutation_in _ (Permutation_sym P))|apply (Permutation_in _ P)]; auto.
Qed.
Lemma list_max_perm : forall l l', l <> [] -> Permutation l l' -> list_max l = list_max l'.
Proof.
  intros l l' NE P. assert (NE' : l' <> []) by (intros ->; apply NE; apply Permutation_nil; symmetry; auto).
  apply Rle_antisym; apply list_max_le; auto; intros x I; apply list_max_ge; [apply (Permutation_in _ P)|apply (Permutation_in _ (Permutation_sym P))]; auto.
Qed.
Lemma range_perm : forall l l', Permutation l l' -> redshift_range l = redshift_range l'.
Proof.
  intros l l' P. unfold redshift_range. destruct l as [|a l]; [apply Permutation_nil in P; subst; auto|].
  assert (NE : a :: l <> []) by discriminate. pose proof (list_min_perm _ _ NE P) as M. pose proof (list_max_perm _ _ NE P) as X.
  destruct l' as [|b l']; [symmetry in P; apply Permutation_nil in P; discriminate|]. rewrite M, X. auto.
Qed.
Lemma edges_perm : forall cvar elsewhere b l l', (forall a a', Permutation a a' -> cvar a = cvar a') -> Permutation l l' ->
  bin_edges cvar elsewhere b l = bin_edges cvar elsewhere b l'.
Proof.
  intros cvar elsewhere b l l' C P. destruct b; cbn [bin_edges]; auto.
  - unfold scott_edges. rewrite (C _ _ P), (range_perm _ _ (Permutation_map fst P)), (Permutation_length P). auto.
  - unfold equal_edges. rewrite (range_perm _ _ (Permutation_map fst P)). auto.
Qed.
Lemma parts_cases : forall objs e, (not_decreasing e = true /\ exists parts, map_result (fun o => histogram o e) objs = Ok parts) \/
  (not_decreasing e = false /\ map_result (fun o => histogram o e) objs = match objs with [] => Ok [] | _ => Err ValueError end).
Proof.
  intros objs e. destruct (not_decreasing e) eqn:D; [left|right]; split; auto.
  - induction objs as [|o objs IH]; [exists []; auto|]. destruct IH as [p Hp]. cbn. rewrite Hp. unfold histogram at 1. rewrite D. cbn. eauto.
  - destruct objs; auto. cbn. unfold histogram at 1. rewrite D. auto.
Qed.
