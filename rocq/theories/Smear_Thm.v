(** Property C36: smearing tables are cumulative distributions, averages of them too, and samples lie in the tabulated range. *)
Require Import Reals Lra Lia ZArith List Bool.
From Verif Require Import Base Cutsky_Model Box_Model Mask_Model Sample_Model Smear_Model Smear_Spec Density_Proof Mask_Proof Smear_Proof Mask_Thm.
Import ListNotations.
Open Scope R_scope.

Lemma combine_padded : forall mask (a b : list R) a0 a1 b0 b1 d c, length a = length b -> In (d, c) (combine (padded mask a a0 a1) (padded mask b b0 b1)) ->
  (d, c) = (a0, b0) \/ (d, c) = (a1, b1) \/ exists i, nth_error mask i = Some true /\ nth_error a i = Some d /\ nth_error b i = Some c.
Proof.
  intros mask a b a0 a1 b0 b1 d c L I. unfold padded in I. cbn [combine] in I. destruct I as [I|I]; [left; auto|]. right.
  assert (Q : forall (x y : list R), length x = length y -> combine (x ++ [a1]) (y ++ [b1]) = combine x y ++ [(a1, b1)]).
  { induction x as [|x0 x IH]; intros [|y0 y] LL; try discriminate; auto. injection LL as LL. cbn. rewrite IH; auto. }
  rewrite Q in I by (apply select_length; auto). apply in_app_or in I. destruct I as [I|[I|[]]]; [right|left; auto].
  rewrite select_combine in I by auto. apply select_In in I. destruct I as (i & M & E). exists i. split; auto.
  assert (R : forall (x y : list R) k, nth_error (combine x y) k = Some (d, c) -> nth_error x k = Some d /\ nth_error y k = Some c).
  { induction x as [|x0 x IH]; intros [|y0 y] [|k] H; try discriminate; cbn in *; auto. injection H as -> ->; auto. }
  apply R; auto.
Qed.
Lemma padded_length : forall mask (a b : list R) a0 a1 b0 b1, length a = length b -> length (padded mask a a0 a1) = length (padded mask b b0 b1).
Proof. intros. unfold padded. cbn. rewrite !app_length. cbn. rewrite (select_length mask a b); auto. Qed.

Lemma tabulated_inv : forall sp dz z pdf transform m, tabulated_smear sp dz z pdf transform = Ok m ->
  (1 <= length dz)%nat /\ (forall c, In c pdf -> length c = length dz) /\
  exists cdfs, map_result normalized_cdf pdf = Ok cdfs /\
    let mask := map (row_inside cdfs) (seq 0 (length dz)) in
    let pdz := padded mask dz (hd 0 dz) (last dz 0) in
    set_interp sp (Smear (map (fun _ => pdz) (map (fun c => padded mask c 0 1) cdfs)) z (map (fun c => padded mask c 0 1) cdfs) [] [] Fin transform) = Ok m.
Proof.
  intros sp dz z pdf transform m H. unfold tabulated_smear in H. destruct (_ && _) eqn:E; [|discriminate]. apply andb_prop in E. destruct E as [E1 E2].
  apply Nat.leb_le in E2. split; auto. rewrite forallb_forall in E1. split; [intros c I; apply Nat.eqb_eq; auto|].
  destruct (map_result normalized_cdf pdf) as [cdfs|]; [|discriminate]. exists cdfs. split; auto.
Qed.

(** The tables built from densities: one cumulative distribution per redshift, from 0 to 1, whose value at each tabulated dz is the
    mass up to there over the total mass (the first row carries none). *)
Theorem C36_tabulated_cdf : forall sp dz z pdf transform m, (forall c x, In c pdf -> In x c -> 0 <= x) -> tabulated_smear sp dz z pdf transform = Ok m ->
  length (m_cdf m) = length pdf /\ length (m_dz m) = length pdf /\ Forall proper_cdf (m_cdf m) /\
  forall j, (j < length pdf)%nat -> length (nth j (m_dz m) []) = length (nth j (m_cdf m) []) /\
    forall d c, In (d, c) (combine (nth j (m_dz m) []) (nth j (m_cdf m) [])) ->
      (d, c) = (hd 0 dz, 0) \/ (d, c) = (last dz 0, 1) \/
      exists i, (i < length dz)%nat /\ d = nth i dz 0 /\ 0 < c < 1 /\ c = Rsum (firstn i (tl (nth j pdf []))) / Rsum (tl (nth j pdf [])).
Proof.
  intros sp dz z pdf transform m P H. apply tabulated_inv in H. destruct H as (L1 & LP & cdfs & E & H). cbv zeta in H. set (mask := map (row_inside cdfs) _) in *.
  apply set_interp_inv in H. destruct H as (ED & _ & EC & _). cbn [m_dz m_cdf] in ED, EC. rewrite ED, EC. rewrite !map_length.
  pose proof (map_result_length _ _ _ E) as LC. apply map_result_inv in E. rewrite LC. split; auto. split; auto. split.
  - apply Forall_forall. intros c I. apply in_map_iff in I. destruct I as [c0 [<- I]]. destruct (In_nth _ _ [] I) as (j & Hj & <-).
    pose proof (forall2_nth _ _ _ [] [] j E ltac:(lia)) as N. assert (IP : In (nth j pdf []) pdf) by (apply nth_In; lia).
    destruct (normalized_proper _ _ N) as [O B]; [rewrite (LP _ IP); auto|intros x Ix; apply (P _ _ IP Ix)|]. apply proper_padded; auto.
  - intros j Hj. pose proof (forall2_nth _ _ _ [] [] j E Hj) as N. assert (IP : In (nth j pdf []) pdf) by (apply nth_In; lia).
    destruct (normalized_spec _ _ N) as (LN & NZ & NV); [rewrite (LP _ IP); auto|]. rewrite (LP _ IP) in LN, NV.
    assert (Q1 : nth j (map (fun _ => padded mask dz (hd 0 dz) (last dz 0)) (map (fun c => padded mask c 0 1) cdfs)) [] = padded mask dz (hd 0 dz) (last dz 0)).
    { rewrite map_map. apply (nth_map (fun _ : list R => padded mask dz (hd 0 dz) (last dz 0)) cdfs j []). lia. }
    assert (Q2 : nth j (map (fun c => padded mask c 0 1) cdfs) [] = padded mask (nth j cdfs []) 0 1).
    { rewrite nth_indep with (d' := (fun c => padded mask c 0 1) []) by (rewrite map_length; lia). rewrite map_nth with (f := fun c => padded mask c 0 1). auto. }
    rewrite Q1, Q2. split; [apply padded_length; auto|]. intros d c I. apply combine_padded in I; [|auto]. destruct I as [I|[I|(i & M & A & B)]]; auto. right. right.
    assert (Hi : (i < length dz)%nat) by (apply nth_error_Some; congruence). exists i. split; auto. apply nth_error_nth with (d := 0) in A. apply nth_error_nth with (d := 0) in B.
    split; auto. rewrite <- NV by auto. rewrite <- B. split; auto.
    unfold mask in M. rewrite nth_error_map in M. destruct (nth_error (seq 0 (length dz)) i) as [k|] eqn:EK; [|discriminate]. cbn in M. injection M as M.
    apply nth_error_nth with (d := 0%nat) in EK. rewrite seq_nth in EK by auto. cbn in EK. subst k. unfold row_inside in M. rewrite forallb_forall in M.
    assert (IC : In (nth j cdfs []) cdfs) by (apply nth_In; lia). specialize (M _ IC). apply andb_prop in M. destruct M as [M1 M2]. apply Rltb_true in M1. apply Rltb_true in M2. auto.
Qed.
Print Assumptions C36_tabulated_cdf.

(** Averages. *)
Lemma weighted_ge : forall {A} (g : A -> R) j s (l : list (A * list R)) lo, 0 < s -> (forall x, In x l -> 0 <= nth j (snd x) 0 /\ lo <= g (fst x)) ->
  lo * (Rsum (map (fun x => nth j (snd x) 0) l) / s) <= Rsum (map (fun x => g (fst x) * (nth j (snd x) 0 / s)) l).
Proof.
  intros A g j s l lo S. induction l as [|x l IH]; intros H; cbn [map]; [cbn; unfold Rdiv; lra|].
  change (Rsum (?a :: ?b)) with (a + Rsum b). destruct (H x (or_introl eq_refl)) as [W G]. specialize (IH (fun y I => H y (or_intror I))).
  assert (0 <= nth j (snd x) 0 / s) by (apply Rmult_le_pos; [auto|left; apply Rinv_0_lt_compat; auto]).
  replace ((nth j (snd x) 0 + Rsum (map (fun x => nth j (snd x) 0) l)) / s) with (nth j (snd x) 0 / s + Rsum (map (fun x => nth j (snd x) 0) l) / s) by (field; lra). nra.
Qed.
Lemma weighted_le : forall {A} (g h : A -> R) j s (l : list (A * list R)), 0 < s -> (forall x, In x l -> 0 <= nth j (snd x) 0 /\ g (fst x) <= h (fst x)) ->
  Rsum (map (fun x => g (fst x) * (nth j (snd x) 0 / s)) l) <= Rsum (map (fun x => h (fst x) * (nth j (snd x) 0 / s)) l).
Proof.
  intros A g h j s l S. induction l as [|x l IH]; intros H; cbn [map]; [cbn; lra|]. change (Rsum (?a :: ?b)) with (a + Rsum b).
  destruct (H x (or_introl eq_refl)) as [W G]. specialize (IH (fun y I => H y (or_intror I))).
  assert (0 <= nth j (snd x) 0 / s) by (apply Rmult_le_pos; [auto|left; apply Rinv_0_lt_compat; auto]). nra.
Qed.
Lemma weighted_const : forall {A} (g : A -> R) j s (l : list (A * list R)) k, 0 < s -> s = Rsum (map (fun x => nth j (snd x) 0) l) -> (forall x, In x l -> g (fst x) = k) ->
  Rsum (map (fun x => g (fst x) * (nth j (snd x) 0 / s)) l) = k.
Proof.
  intros A g j s l k S E H. assert (Q : Rsum (map (fun x => g (fst x) * (nth j (snd x) 0 / s)) l) = k * (Rsum (map (fun x => nth j (snd x) 0) l) / s)).
  { clear E. induction l as [|x l IH]; cbn [map]; [cbn; unfold Rdiv; ring|]. change (Rsum (?a :: ?b)) with (a + Rsum b). rewrite IH by (intros; apply H; right; auto).
    rewrite (H x) by (left; auto). field. lra. }
  rewrite Q, <- E. field. lra.
Qed.
Lemma smallest : forall {A} (f : A -> R) l, l <> [] -> exists a, In a l /\ forall b, In b l -> f a <= f b.
Proof.
  intros A f. induction l as [|x l IH]; intros N; [congruence|]. destruct l as [|y l]; [exists x; split; [left; auto|intros b [<-|[]]; lra]|].
  destruct IH as (a & I & M); [discriminate|]. destruct (Rle_dec (f x) (f a)).
  - exists x. split; [left; auto|]. intros b [<-|J]; [lra|]. specialize (M b J). lra.
  - exists a. split; [right; auto|]. intros b [<-|J]; [lra|]. apply M; auto.
Qed.

Definition weights_of (others : list smear) (weights : option (list (list R))) : list (list R) := match weights with Some w => w | None => default_weights others end.
(** With weights that are not negative, one per smearing and redshift, the average of cumulative distributions is one, and each of
    its values lies between the smallest and the largest of the averaged values. *)
Theorem C36_average : forall sp others weights nz nd m, others <> [] ->
  (forall o, In o others -> length (m_cdf o) = nz /\ Forall (fun c => length c = nd /\ proper_cdf c) (m_cdf o)) ->
  (forall w, weights = Some w -> length w = length others /\ Forall (fun l => length l = nz /\ Forall (fun x => 0 <= x) l) w) ->
  average sp others weights = Ok m ->
  length (m_cdf m) = nz /\ forall j, (j < nz)%nat -> proper_cdf (nth j (m_cdf m) []) /\ length (nth j (m_cdf m) []) = nd /\
    forall i, (i < nd)%nat -> let value o := nth i (nth j (m_cdf o) []) 0 in
      (exists o, In o others /\ value o <= value m) /\ (exists o, In o others /\ value m <= value o).
Proof.
  intros sp others weights nz nd m NE C W H. unfold average in H. destruct others as [|new rest]; [congruence|]. set (others := new :: rest) in *.
  fold (weights_of others weights) in H. set (w := weights_of others weights) in *.
  assert (WW : length w = length others /\ Forall (fun l => length l = nz /\ Forall (fun x => 0 <= x) l) w).
  { unfold w, weights_of. destruct weights as [w'|]; [apply W; auto|]. unfold default_weights. rewrite map_length. split; auto. apply Forall_forall. intros l I.
    apply in_map_iff in I. destruct I as [o [<- I]]. rewrite map_length. split; [apply C; auto|]. apply Forall_forall. intros x J. apply in_map_iff in J. destruct J as [? [<- _]]. lra. }
  destruct WW as [LW FW]. destruct (C new (or_introl eq_refl)) as [LN FN]. rewrite LN in H. set (sums := weight_sums nz w) in *.
  destruct (existsb _ sums) eqn:ES; [discriminate|]. destruct (forallb _ others); [|discriminate]. apply set_interp_inv in H. destruct H as (_ & _ & EC & _). cbn [m_cdf] in EC.
  assert (LM : length (m_cdf m) = nz) by (rewrite EC, map_length, seq_length; auto). split; auto. intros j Hj.
  assert (ND : length (nth j (m_cdf new) []) = nd) by (rewrite Forall_forall in FN; apply FN; apply nth_In; lia).
  assert (COL : nth j (m_cdf m) [] = map (mean_cdf (map m_cdf others) w sums j) (seq 0 nd)).
  { rewrite EC. rewrite nth_indep with (d' := (fun j => map (mean_cdf (map m_cdf others) w sums j) (seq 0 (length (nth j (m_cdf new) [])))) 0%nat) by (rewrite map_length, seq_length; auto).
    rewrite map_nth with (f := fun j => map (mean_cdf (map m_cdf others) w sums j) (seq 0 (length (nth j (m_cdf new) [])))). rewrite seq_nth by auto. cbn [Nat.add]. rewrite ND. auto. }
  set (l := combine (map m_cdf others) w). set (s := nth j sums 0).
  assert (ESum : s = Rsum (map (fun x => nth j (snd x) 0) l)).
  { unfold s, sums, weight_sums. rewrite nth_indep with (d' := (fun j => Rsum (map (fun w => nth j w 0) w)) 0%nat) by (rewrite map_length, seq_length; auto).
    rewrite map_nth with (f := fun j => Rsum (map (fun w => nth j w 0) w)). rewrite seq_nth by auto. cbn [Nat.add]. f_equal. unfold l.
    assert (Q : forall (a : list (list (list R))) (b : list (list R)), length a = length b -> map (fun w => nth j w 0) b = map (fun x => nth j (snd x) 0) (combine a b)).
    { induction a as [|x a IH]; intros [|y b] L; try discriminate; auto. injection L as L. cbn. rewrite IH; auto. }
    apply Q. rewrite map_length. auto. }
  assert (INL : forall x, In x l -> 0 <= nth j (snd x) 0 /\ exists o, In o others /\ fst x = m_cdf o).
  { intros [c v] I. pose proof (in_combine_l _ _ _ _ I) as I1. pose proof (in_combine_r _ _ _ _ I) as I2. cbn [fst snd]. split.
    - rewrite Forall_forall in FW. destruct (FW v I2) as [LV FV]. rewrite Forall_forall in FV. apply FV. apply nth_In. lia.
    - apply in_map_iff in I1. destruct I1 as [o [<- I1]]. eauto. }
  assert (S : 0 < s).
  { assert (0 <= s). { rewrite ESum. apply Rsum_nonneg. intros x I. apply in_map_iff in I. destruct I as [y [<- I]]. apply INL; auto. }
    assert (s <> 0). { intros E. assert (T : existsb (fun s => Reqb s 0) sums = true). { apply existsb_exists. exists s. split; [apply nth_In; unfold sums, weight_sums; rewrite map_length, seq_length; auto|apply Reqb_true; auto]. } congruence. }
    lra. }
  assert (VAL : forall i, (i < nd)%nat -> nth i (nth j (m_cdf m) []) 0 = Rsum (map (fun x => nth i (nth j (fst x) []) 0 * (nth j (snd x) 0 / s)) l)).
  { intros i Hi. rewrite COL. rewrite nth_indep with (d' := mean_cdf (map m_cdf others) w sums j 0%nat) by (rewrite map_length, seq_length; auto).
    rewrite map_nth with (f := mean_cdf (map m_cdf others) w sums j). rewrite seq_nth by auto. reflexivity. }
  assert (LC : length (nth j (m_cdf m) []) = nd) by (rewrite COL, map_length, seq_length; auto).
  assert (PR : forall o, In o others -> length (nth j (m_cdf o) []) = nd /\ proper_cdf (nth j (m_cdf o) [])).
  { intros o I. destruct (C o I) as [A B]. rewrite Forall_forall in B. apply B. apply nth_In. lia. }
  assert (N2 : (2 <= nd)%nat) by (rewrite <- ND; apply (PR new); left; auto).
  split; [|split; [auto|]].
  - split; [lia|]. split; [|split].
    + rewrite VAL by lia. apply weighted_const with (g := fun c => nth 0 (nth j c []) 0); auto. intros x I. destruct (INL x I) as (_ & o & Io & ->). destruct (PR o Io) as [_ P]. apply P.
    + rewrite last_nth, LC, VAL by lia. apply weighted_const with (g := fun c => nth (nd - 1) (nth j c []) 0); auto. intros x I. destruct (INL x I) as (_ & o & Io & ->).
      destruct (PR o Io) as [L P]. rewrite <- L, <- last_nth. apply P.
    + rewrite LC. intros i k Hik. rewrite !VAL by lia. apply weighted_le with (g := fun c => nth i (nth j c []) 0) (h := fun c => nth k (nth j c []) 0); auto.
      intros x I. destruct (INL x I) as (A & o & Io & ->). split; auto. destruct (PR o Io) as [L P]. apply P. lia.
  - intros i Hi value. assert (VM : value m = Rsum (map (fun x => nth i (nth j (fst x) []) 0 * (nth j (snd x) 0 / s)) l)) by (apply VAL; auto). split.
    + destruct (smallest value others NE) as (o & Io & Mo). exists o. split; auto. rewrite VM.
      pose proof (weighted_ge (fun c => nth i (nth j c []) 0) j s l (value o) S) as Q. rewrite <- ESum in Q. unfold Rdiv at 1 in Q. rewrite Rinv_r, Rmult_1_r in Q by lra.
      apply Q. intros x I. destruct (INL x I) as (A & o' & Io' & ->). split; auto. apply (Mo o' Io').
    + destruct (smallest (fun o => - value o) others NE) as (o & Io & Mo). exists o. split; auto. rewrite VM.
      rewrite <- (weighted_const (fun _ : list (list R) => value o) j s l (value o) S ESum ltac:(auto)).
      apply weighted_le with (g := fun c => nth i (nth j c []) 0) (h := fun _ => value o); auto.
      intros x I. destruct (INL x I) as (A & o' & Io' & ->). split; auto. specialize (Mo o' Io'). unfold value in *. lra.
Qed.
Print Assumptions C36_average.

(** The table of quantiles stays in the range of dz, for every spline; so do samples at the tabulated quantiles, at any redshift. *)
Theorem C36_sample_range_partial : forall sp dz z pdf transform m, cubic_spline sp -> hd 0 dz <= last dz 0 -> tabulated_smear sp dz z pdf transform = Ok m ->
  let n := length (hd [] (m_dz m)) in
  forall i x, (i < n)%nat -> exists d, ppf m (INR i / INR (n - 1)) x = transform x (Fin d) /\ hd 0 dz <= d <= last dz 0.
Proof.
  intros sp dz z pdf transform m SP O H n i x Hi. apply tabulated_inv in H. destruct H as (L1 & LP & cdfs & E & H). cbv zeta in H. set (mask := map (row_inside cdfs) _) in *.
  pose proof (set_interp_inv _ _ _ H) as HI. cbv zeta in HI. cbn [m_dz m_z m_cdf m_support m_transform] in HI. destruct HI as (ED & EZ & EC & ES & ET & FT & FS & LZ & LT & SZ).
  set (pdz := padded mask dz (hd 0 dz) (last dz 0)) in *. unfold ppf. rewrite ES, ET. eexists. split; [reflexivity|].
  unfold interp_ppf. rewrite EZ. assert (N : n = length (hd [] (map (fun _ => pdz) (map (fun c => padded mask c 0 1) cdfs)))) by (unfold n; rewrite ED; auto). rewrite <- N in FT, FS.
  assert (FL : length (m_table m) = length (m_spline m)) by (clear - FS; induction FS; cbn; auto).
  apply lin_inside; auto.
  - rewrite map_length. lia.
  - apply clip_range. apply sorted_ends; auto. lia.
  - apply Forall_forall. intros v I. apply in_map_iff in I. destruct I as [f [<- I]]. destruct (In_nth _ _ (fun _ => 0) I) as (j & Hj & <-).
    pose proof (forall2_nth _ _ _ [] (fun _ => 0) j FS ltac:(lia)) as Q. destruct SP as [SP _]. destruct (SP _ _ _ Q) as (_ & LL & _ & PT). rewrite linspace_length in LL, PT.
    specialize (PT i Hi). rewrite linspace_nth in PT by auto. replace (0 + (1 - 0) * (INR i / INR (n - 1))) with (INR i / INR (n - 1)) in PT by ring. rewrite PT.
    assert (LFT : length (combine (map (fun _ => pdz) (map (fun c => padded mask c 0 1) cdfs)) (map (fun c => padded mask c 0 1) cdfs)) = length (m_table m)) by (clear - FT; induction FT; cbn; auto).
    pose proof (forall2_nth _ _ _ ([], []) [] j FT ltac:(lia)) as T. cbv beta in T. rewrite combine_nth in T by (rewrite !map_length; auto). cbn [fst snd] in T.
    rewrite combine_length, !map_length in LFT. rewrite map_map in T.
    replace (nth j (map (fun _ : list R => pdz) cdfs) []) with pdz in T.
    + apply ppf_column_inv in T. destruct T as (LTT & RR & _). unfold pdz in RR. destruct (padded_ends mask dz (hd 0 dz) (last dz 0)) as [P1 P2]. rewrite P1, P2 in RR.
      specialize (RR O). rewrite Forall_forall in RR. apply RR. apply nth_In. lia.
    + symmetry. apply (nth_map (fun _ : list R => pdz) cdfs j []). lia.
Qed.
Print Assumptions C36_sample_range_partial.

(** At a tabulated redshift and a tabulated value of the cdf that is also a tabulated quantile, the sample is the dz of the table:
    quantiles invert the cumulative distribution. *)
Theorem C36_quantiles : forall sp m0 m j i d c, cubic_spline sp -> set_interp sp m0 = Ok m -> (j < length (m_z m))%nat ->
  let n := length (hd [] (m_dz m)) in let dz := nth j (m_dz m) [] in let cdf := nth j (m_cdf m) [] in
  length (m_dz m) = length (m_cdf m) -> length dz = length cdf -> In (d, c) (combine dz cdf) -> tiny < c < 1 - tiny -> (i < n)%nat -> c = INR i / INR (n - 1) ->
  hd 0 dz <= d <= last dz 0 ->
  ppf m c (nth j (m_z m) 0) = m_transform m (nth j (m_z m) 0) (m_support m d).
Proof.
  intros sp m0 m j i d c SP H Hj n dz cdf LDC LDZ IN B Hi EC DR. pose proof (set_interp_inv _ _ _ H) as HI. cbv zeta in HI. destruct HI as (ED & EZ & ECD & _ & _ & FT & FS & LZ & LT & SZ).
  rewrite <- ED, <- ECD in FT. rewrite <- ED in FS. fold n in FT, FS. rewrite <- EZ in *. unfold ppf. f_equal. f_equal. unfold interp_ppf.
  assert (FL : length (m_table m) = length (m_spline m)) by (clear - FS; induction FS; cbn; auto).
  assert (IZ : In (nth j (m_z m) 0) (m_z m)) by (apply nth_In; auto).
  rewrite clip_id.
  2:{ split; [apply sorted_ge_head; auto|apply sorted_le_last; auto]. }
  apply lin_knot; auto; [rewrite map_length; lia|].
  pose proof (forall2_nth _ _ _ [] (fun _ => 0) j FS ltac:(lia)) as Q. destruct SP as [SP _]. destruct (SP _ _ _ Q) as (_ & LL & _ & PT). rewrite linspace_length in LL, PT.
  specialize (PT i Hi). rewrite linspace_nth in PT by auto. replace (0 + (1 - 0) * (INR i / INR (n - 1))) with c in PT by (rewrite EC; ring).
  assert (LFT : length (combine (m_dz m) (m_cdf m)) = length (m_table m)) by (clear - FT; induction FT; cbn; auto).
  pose proof (forall2_nth _ _ _ ([], []) [] j FT ltac:(lia)) as T. cbv beta in T. rewrite combine_nth in T by auto. cbn [fst snd] in T. fold dz cdf in T.
  apply ppf_column_inv in T. destruct T as (LTT & _ & f & EF & NV). cbv zeta in EF. rewrite linspace_length in NV.
  specialize (NV i Hi). rewrite linspace_nth in NV by auto. replace (0 + (1 - 0) * (INR i / INR (n - 1))) with c in NV by (rewrite EC; ring).
  set (mask := map (fun c => Rltb tiny c && Rltb c (1 - tiny)) cdf) in *.
  assert (VD : f c = d).
  { destruct (SP _ _ _ EF) as (_ & LP & _ & PP).
    assert (J : In (d, c) (combine (padded mask dz (hd 0 dz) (last dz 0)) (padded mask cdf 0 1))).
    { unfold padded. cbn [combine]. right.
      assert (QQ : forall (x y : list R) a1 b1, length x = length y -> combine (x ++ [a1]) (y ++ [b1]) = combine x y ++ [(a1, b1)]).
      { induction x as [|x0 x IH]; intros [|y0 y] a1 b1 LLL; try discriminate; auto. injection LLL as LLL. cbn. rewrite IH; auto. }
      rewrite QQ by (apply select_length; auto). apply in_or_app. left. rewrite select_combine by auto. destruct (In_nth _ _ (0, 0) IN) as (k & Hk & Ek).
      apply select_In_conv with k.
      - unfold mask. rewrite nth_error_map. rewrite combine_length in Hk. rewrite (nth_error_nth' cdf 0) by lia. cbn. f_equal. rewrite combine_nth in Ek by auto. injection Ek as _ Ek. rewrite Ek.
        apply andb_true_intro. split; apply Rltb_true; lra.
      - rewrite (nth_error_nth' _ (0, 0)) by auto. congruence. }
    destruct (In_nth _ _ (0, 0) J) as (k & Hk & Ek). rewrite combine_length in Hk. rewrite combine_nth in Ek by auto. injection Ek as E1 E2. rewrite <- E1, <- E2. apply PP. lia. }
  rewrite VD, clip_id in NV by auto.
  assert (VAL : nth j (map (fun g => g c) (m_spline m)) 0 = d).
  { rewrite (nth_map (fun g : R -> R => g c) (m_spline m) j (fun _ => 0)) by lia. rewrite PT. exact NV. }
  replace (nth j (m_z m) 0, d) with (nth j (combine (m_z m) (map (fun g => g c) (m_spline m))) (0, 0)).
  - apply nth_In. rewrite combine_length, map_length. lia.
  - rewrite combine_nth by (rewrite map_length; lia). rewrite VAL. auto.
Qed.
Print Assumptions C36_quantiles.

(** Tables of distributions. *)
Lemma low_cases : forall r, proper_rv r -> (exists a, rv_low r = Fin a) \/ rv_low r = MInf.
Proof. intros r (_ & _ & _ & _ & _ & _ & L & _ & P & _). destruct (rv_low r); eauto; try easy. Qed.
Lemma high_cases : forall r, proper_rv r -> (exists a, rv_high r = Fin a) \/ rv_high r = PInf.
Proof. intros r (_ & _ & _ & _ & _ & _ & L & _ & _ & P). destruct (rv_high r); eauto; try easy. destruct (rv_low r); easy. Qed.
Lemma cdf_points : forall r f d n, proper_rv r -> length d = n -> (2 <= n)%nat -> f (nth 0 d 0) = rv_low r -> f (last d 0) = rv_high r ->
  (forall i j, (i <= j < n)%nat -> ext_le (f (nth i d 0)) (f (nth j d 0))) -> proper_cdf (map (rv_cdf r) (map f d)).
Proof.
  intros r f d n (P0 & P1 & PM & _) L N F0 F1 M. assert (LL : length (map (rv_cdf r) (map f d)) = n) by (rewrite !map_length; auto).
  assert (V : forall i, (i < n)%nat -> nth i (map (rv_cdf r) (map f d)) 0 = rv_cdf r (f (nth i d 0))).
  { intros i Hi. rewrite map_map. apply (nth_map (fun x => rv_cdf r (f x)) d i 0 0). lia. }
  split; [lia|]. split; [rewrite V by lia; rewrite F0; auto|]. split.
  - rewrite last_nth, LL, V by lia. rewrite <- L at 1. rewrite <- last_nth, F1. auto.
  - rewrite LL. intros i j Hij. rewrite !V by lia. apply PM. auto.
Qed.
Lemma linspace_mono : forall a b n i j, a <= b -> (2 <= n)%nat -> (i <= j < n)%nat -> a <= nth i (linspace a b n) 0 <= nth j (linspace a b n) 0 /\ nth j (linspace a b n) 0 <= b.
Proof.
  intros a b n i j O N H. rewrite !linspace_nth by lia. pose proof (frac_unit i n ltac:(lia) N). pose proof (frac_unit j n ltac:(lia) N). pose proof (frac_mono i j n ltac:(lia) N).
  repeat split; nra.
Qed.
Lemma ln_mono : forall x y, 0 < x -> x <= y -> ln x <= ln y.
Proof. intros x y P H. destruct H as [H|<-]; [left; apply ln_increasing; auto|lra]. Qed.
Lemma log_mono : forall s x y, 0 < s -> 0 <= x <= y -> ext_le (scale_ext s (log_ext x)) (scale_ext s (log_ext y)).
Proof.
  intros s x y S H. unfold log_ext. destruct (Rlt_dec 0 x); destruct (Rlt_dec 0 y); try lra; cbn.
  - apply Rmult_le_compat_l; [lra|]. apply ln_mono; lra.
  - destruct (Req_EM_T x 0); [|lra]. cbn. destruct (Rlt_dec 0 s); [easy|lra].
  - destruct (Req_EM_T x 0); [|lra]. destruct (Req_EM_T y 0); [|lra]. cbn. destruct (Rlt_dec 0 s); [easy|lra].
Qed.
Lemma atanh_mono : forall s x y, 0 < s -> -1 <= x <= y -> y <= 1 -> ext_le (scale_ext s (atanh_ext x)) (scale_ext s (atanh_ext y)).
Proof.
  intros s x y S H Y. unfold atanh_ext.
  destruct (Req_EM_T x 1).
  { destruct (Req_EM_T y 1); [|lra]. cbn. destruct (Rlt_dec 0 s); [easy|lra]. }
  destruct (Req_EM_T x (-1)).
  { destruct (Req_EM_T y 1); [cbn; destruct (Rlt_dec 0 s); [easy|lra]|]. destruct (Req_EM_T y (-1)); [cbn; destruct (Rlt_dec 0 s); [easy|lra]|].
    destruct (Rlt_dec (Rabs y) 1) as [A|A]; [cbn; destruct (Rlt_dec 0 s); [easy|lra]|]. exfalso. apply A. apply Rabs_def1; lra. }
  destruct (Rlt_dec (Rabs x) 1) as [A|A]; [|exfalso; apply A; apply Rabs_def1; lra].
  destruct (Req_EM_T y 1); [cbn; destruct (Rlt_dec 0 s); [easy|lra]|]. destruct (Req_EM_T y (-1)); [lra|].
  destruct (Rlt_dec (Rabs y) 1) as [B|B]; [|exfalso; apply B; apply Rabs_def1; lra]. cbn.
  apply Rmult_le_compat_l; [lra|]. apply Rmult_le_compat_l; [lra|]. apply ln_mono; [apply Rdiv_lt_0_compat; lra|].
  apply Rmult_le_reg_r with ((1 - x) * (1 - y)); [apply Rmult_lt_0_compat; lra|].
  replace ((1 + x) / (1 - x) * ((1 - x) * (1 - y))) with ((1 + x) * (1 - y)) by (field; lra). replace ((1 + y) / (1 - y) * ((1 - x) * (1 - y))) with ((1 + y) * (1 - x)) by (field; lra). nra.
Qed.
Lemma atanh_ends : forall s, 0 < s -> scale_ext s (atanh_ext (2 * 0 - 1)) = MInf /\ scale_ext s (atanh_ext (2 * 1 - 1)) = PInf.
Proof.
  intros s S. unfold atanh_ext. replace (2 * 0 - 1) with (-1) by ring. replace (2 * 1 - 1) with 1 by ring. destruct (Req_EM_T (-1) 1); [lra|]. destruct (Req_EM_T (-1) (-1)); [|lra].
  destruct (Req_EM_T 1 1); [|lra]. cbn. destruct (Rlt_dec 0 s); [auto|lra].
Qed.
Lemma ends_split : forall (l : list R), (2 <= length l)%nat -> l = nth 0 l 0 :: interior l ++ [last l 0].
Proof. intros [|a [|b l]] H; cbn [length] in H; try lia. unfold interior. cbn [tl nth]. f_equal. change (last (a :: b :: l) 0) with (last (b :: l) 0). apply app_removelast_last. discriminate. Qed.

(** The cases where the table is right: supports that are finite, infinite on both sides, or infinite on the left side and the same for
    all redshifts; or the scale 'ppf'. *)
Definition tabulated_well (rvs : list rv) (s : scale) (same : bool) : Prop :=
  Forall (fun r => (exists a, rv_low r = Fin a) /\ exists b, rv_high r = Fin b) rvs \/
  s = ByPpf \/ Forall (fun r => rv_low r = MInf /\ rv_high r = PInf) rvs \/ (same = true /\ Forall (fun r => rv_low r = MInf) rvs).
Definition columns_follow (rvs : list rv) (n : nat) (dz : list (list R)) (u : list (list ext)) (support : R -> ext) : Prop :=
  Forall2 (fun r c => snd c = map support (fst c) /\ length (fst c) = n /\ support (nth 0 (fst c) 0) = rv_low r /\ support (last (fst c) 0) = rv_high r /\
    forall i j, (i <= j < n)%nat -> ext_le (support (nth i (fst c) 0)) (support (nth j (fst c) 0))) rvs (combine dz u) /\ length dz = length rvs /\ length u = length rvs.
Lemma follow_map : forall rvs n (f : rv -> list R) (g : list R -> list ext) support,
  (forall r, In r rvs -> g (f r) = map support (f r) /\ length (f r) = n /\ support (nth 0 (f r) 0) = rv_low r /\ support (last (f r) 0) = rv_high r /\
    forall i j, (i <= j < n)%nat -> ext_le (support (nth i (f r) 0)) (support (nth j (f r) 0))) ->
  columns_follow rvs n (map f rvs) (map g (map f rvs)) support.
Proof.
  intros rvs n f g support H. split; [|rewrite !map_length; auto]. induction rvs as [|r rvs IH]; [constructor|]. cbn [map combine]. apply Forall2_cons; [apply H; left; auto|].
  apply IH. intros; apply H; right; auto.
Qed.
Lemma forall2_length : forall {A B} (P : A -> B -> Prop) l l', Forall2 P l l' -> length l = length l'.
Proof. induction 1; cbn; auto. Qed.
Lemma ok3 : forall {A B C} (a a' : A) (b b' : B) (c c' : C), Ok (a, b, c) = Ok (a', b', c') -> a = a' /\ b = b' /\ c = c'.
Proof. intros. injection H; auto. Qed.
Lemma table_follows : forall rvs n s same dz u support, Forall proper_rv rvs -> (2 <= n)%nat -> (forall x, s = ByScale x -> 0 < x) ->
  (same = true -> forall r r', In r rvs -> In r' rvs -> rv_low r = rv_low r' /\ rv_high r = rv_high r') -> tabulated_well rvs s same ->
  rvs_table rvs n s same = Ok (dz, u, support) -> columns_follow rvs n dz u support.
Proof.
  intros rvs n s same dz u support P N SS SAME TW H. unfold rvs_table in H. destruct rvs as [|rv0 rest]; [discriminate|]. cbv beta zeta in H. set (rvs := rv0 :: rest) in *.
  assert (P0 : forall r, In r rvs -> proper_rv r) by (apply Forall_forall; auto). clear P.
  assert (I0 : In rv0 rvs) by (left; auto).
  assert (ONE : forall f : rv -> list R, (forall r r', rv_low r = rv_low r' -> rv_high r = rv_high r' -> f r = f r') -> map (fun r => if same then f rv0 else f r) rvs = map f rvs).
  { intros f F. apply map_ext_in. intros r I. destruct same; auto. apply F; apply SAME; auto. }
  destruct (forallb (fun r => is_finite (rv_low r) && is_finite (rv_high r)) rvs) eqn:FF.
  - rewrite forallb_forall in FF. rewrite (ONE (fun r => linspace (fin (rv_low r)) (fin (rv_high r)) n)) in H by (intros r r' -> ->; auto).
    apply ok3 in H. destruct H as (<- & <- & <-).
    apply (follow_map rvs n (fun r => linspace (fin (rv_low r)) (fin (rv_high r)) n) (map Fin) Fin). intros r I. specialize (FF r I). apply andb_prop in FF. destruct FF as [F1 F2].
    destruct (P0 r I) as (_ & _ & _ & _ & _ & _ & LE & _). destruct (rv_low r) as [a| | |] eqn:EA; try discriminate. destruct (rv_high r) as [b| | |] eqn:EB; try discriminate. cbn [fin]. cbn in LE.
    split; auto. split; [apply linspace_length|]. split; [rewrite linspace_first by auto; auto|]. split; [rewrite linspace_last by auto; auto|]. intros i j Hij. cbn. apply (linspace_mono a b n i j LE N Hij).
  - destruct (forallb _ rvs) eqn:SI in H; [|discriminate]. rewrite forallb_forall in SI. destruct s as [|s].
    + destruct same; [|discriminate]. apply ok3 in H. destruct H as (<- & <- & <-). apply (follow_map rvs n (fun _ => linspace 0 1 n) (map (rv_ppf rv0)) (rv_ppf rv0)). intros r I.
      destruct (SAME eq_refl r rv0 I I0) as [-> ->]. destruct (P0 rv0 I0) as (_ & _ & _ & Q0 & Q1 & QM & _).
      split; auto. split; [apply linspace_length|]. split; [rewrite linspace_first by auto; auto|]. split; [rewrite linspace_last by auto; auto|].
      intros i j Hij. destruct (linspace_mono 0 1 n i j ltac:(lra) N Hij). apply QM; lra.
    + specialize (SS s eq_refl).
      destruct (negb (is_finite (rv_low rv0))) eqn:LI; destruct (negb (is_finite (rv_high rv0))) eqn:UI; cbn [andb] in H.
      * apply ok3 in H. destruct H as (<- & <- & <-). rewrite map_map.
        pose proof (follow_map rvs n (fun _ => linspace 0 1 n) (fun d => match n with O => [] | 1%nat => [MInf] | _ => MInf :: map (fun x => scale_ext s (atanh_ext (2 * x - 1))) (interior d) ++ [PInf] end) (fun x => scale_ext s (atanh_ext (2 * x - 1)))) as Q.
        rewrite map_map in Q. apply Q. clear Q. intros r I.
        assert (ER : rv_low r = MInf /\ rv_high r = PInf).
        { specialize (SI r I). apply andb_prop in SI. destruct SI as [S1 S2]. apply Bool.eqb_prop in S1. apply Bool.eqb_prop in S2.
          destruct (low_cases r (P0 r I)) as [[a EA]|EA]; [rewrite EA in S1; discriminate|]. destruct (high_cases r (P0 r I)) as [[b EB]|EB]; [rewrite EB in S2; discriminate|]. auto. }
        destruct ER as [-> ->]. destruct (atanh_ends s SS) as [A0 A1].
        split; [|split; [apply linspace_length|split; [rewrite linspace_first by auto; auto|split; [rewrite linspace_last by auto; auto|]]]].
        -- destruct n as [|[|n']]; try lia. set (d := linspace 0 1 (S (S n'))). rewrite (ends_split d) at 2 by (unfold d; rewrite linspace_length; auto). cbn [map]. rewrite map_app. cbn [map].
           unfold d at 2. rewrite linspace_first by auto. unfold d at 3. rewrite linspace_last by auto. rewrite A0, A1. auto.
        -- intros i j Hij. destruct (linspace_mono 0 1 n i j ltac:(lra) N Hij). apply atanh_mono; lra.
      * assert (ER : forall r, In r rvs -> rv_low r = MInf /\ exists b, rv_high r = Fin b).
        { intros r I. specialize (SI r I). apply andb_prop in SI. destruct SI as [S1 S2]. apply Bool.eqb_prop in S1. apply Bool.eqb_prop in S2.
          destruct (low_cases r (P0 r I)) as [[a EA]|EA]; [rewrite EA in S1; discriminate|]. destruct (high_cases r (P0 r I)) as [[b EB]|EB]; [eauto|rewrite EB in S2; discriminate]. }
        assert (ST : same = true).
        { destruct TW as [F|[E|[F|[E _]]]]; auto; [|discriminate|]; rewrite Forall_forall in F; specialize (F rv0 I0); destruct (ER rv0 I0) as [A [b B]]; destruct F as [F1 F2].
          - destruct F1 as [a F1]. congruence.
          - congruence. }
        subst same. apply ok3 in H. destruct H as (<- & <- & <-).
        apply (follow_map rvs n (fun _ => linspace 0 (exp (fin (rv_high rv0) / s)) n) (fun d => match d with [] => [] | _ :: d => MInf :: map (fun x => scale_ext s (log_ext x)) d end) (fun x => scale_ext s (log_ext x))).
        intros r I. destruct (SAME eq_refl r rv0 I I0) as [-> ->]. destruct (ER rv0 I0) as [-> [b ->]]. cbn [fin]. pose proof (exp_pos (b / s)) as EP.
        assert (L0 : scale_ext s (log_ext 0) = MInf). { unfold log_ext. destruct (Rlt_dec 0 0); [lra|]. destruct (Req_EM_T 0 0); [|lra]. cbn. destruct (Rlt_dec 0 s); [auto|lra]. }
        split; [|split; [apply linspace_length|split; [rewrite linspace_first by auto; auto|split; [rewrite linspace_last by auto|]]]].
        -- remember (linspace 0 (exp (b / s)) n) as d. destruct d as [|x d]; auto. cbn [map]. f_equal. pose proof (linspace_first 0 (exp (b / s)) n N) as Q. rewrite <- Heqd in Q. cbn in Q. rewrite Q. auto.
        -- unfold log_ext. destruct (Rlt_dec 0 (exp (b / s))); [|lra]. cbn. f_equal. rewrite ln_exp. field. lra.
        -- intros i j Hij. destruct (linspace_mono 0 (exp (b / s)) n i j ltac:(lra) N Hij). apply log_mono; lra.
      * exfalso. assert (E : exists a, rv_low rv0 = Fin a) by (destruct (rv_low rv0); try discriminate; eauto). destruct E as [a EA].
        destruct (high_cases rv0 (P0 rv0 I0)) as [[b EB]|EB]; [rewrite EB in UI; discriminate|].
        destruct TW as [F|[E|[F|[_ F]]]]; [|discriminate| |]; rewrite Forall_forall in F; specialize (F rv0 I0).
        -- destruct F as [_ [b F]]. congruence.
        -- destruct F. congruence.
        -- congruence.
      * exfalso. assert (T : forallb (fun r => is_finite (rv_low r) && is_finite (rv_high r)) rvs = true).
        { apply forallb_forall. intros r I. specialize (SI r I). apply andb_prop in SI. destruct SI as [S1 S2]. apply Bool.eqb_prop in S1. apply Bool.eqb_prop in S2.
          apply Bool.negb_false_iff in S1. apply Bool.negb_false_iff in S2. rewrite S1, S2. auto. }
        congruence.
Qed.

(** One proper cumulative distribution per redshift, equal at every tabulated dz to the cdf of the distribution there. *)
Theorem C36_rvs_cdf_partial : forall sp z rvs n s same transform m, Forall proper_rv rvs -> (2 <= n)%nat -> (forall x, s = ByScale x -> 0 < x) ->
  (same = true -> forall r r', In r rvs -> In r' rvs -> rv_low r = rv_low r' /\ rv_high r = rv_high r') -> tabulated_well rvs s same ->
  rvs_smear sp z rvs n s same transform = Ok m ->
  Forall2 (fun r c => proper_cdf (snd c) /\ snd c = map (fun d => rv_cdf r (m_support m d)) (fst c) /\ length (fst c) = n) rvs (combine (m_dz m) (m_cdf m)).
Proof.
  intros sp z rvs n s same transform m P N SS SAME TW H. unfold rvs_smear in H. destruct (rvs_table rvs n s same) as [[[dz u] support]|] eqn:E; [|discriminate]. cbn [bind] in H.
  apply table_follows in E; auto. destruct E as (F & LD & LU). apply set_interp_inv in H. destruct H as (-> & _ & -> & -> & _). cbn [m_dz m_cdf m_support].
  clear SAME TW. revert dz u LD LU F. induction rvs as [|r rvs IH]; intros [|d dz] [|v u] LD LU F; try discriminate; [constructor|]. cbn [combine map fst snd] in *.
  inversion F as [|? ? ? ? F1 F2]; subst. inversion P; subst. injection LD as LD. injection LU as LU. apply Forall2_cons; [|apply IH; auto].
  cbn [fst snd] in *. destruct F1 as (-> & L & A & B & M). split; [apply cdf_points with n; auto|]. split; [apply map_map|auto].
Qed.
Print Assumptions C36_rvs_cdf_partial.

(** Distributions bounded below and not above, such as an exponential law, are never accepted: only the first point is put on the grid. *)
Lemma map_result_err : forall {A B} (f : A -> result B) l a e, In a l -> f a = Err e -> exists e', map_result f l = Err e'.
Proof.
  induction l as [|x l IH]; intros a e I E; [contradiction|]. cbn. destruct (f x) eqn:Fx; [|eexists; reflexivity]. destruct I as [->|I]; [congruence|]. cbn.
  destruct (IH a e I E) as [e' ->]. eexists; reflexivity.
Qed.
Lemma no_points : forall sp u dz cdf, cubic_spline sp -> (forall c, In c cdf -> c <= tiny \/ 1 - tiny <= c) -> exists e, ppf_column sp u dz cdf = Err e.
Proof.
  intros sp u dz cdf SP H. unfold ppf_column. cbv zeta. set (mask := map _ cdf).
  assert (E : forall (l : list R), select_by mask l = []).
  { unfold mask. clear SP mask. induction cdf as [|c cdf IH]; intros [|x l]; cbn; auto. rewrite IH by (intros; apply H; right; auto).
    replace (Rltb tiny c && Rltb c (1 - tiny)) with false; auto. symmetry. apply andb_false_iff. destruct (H c (or_introl eq_refl)); [left|right]; apply Rltb_false; auto. }
  unfold padded at 1. rewrite E. cbn [app]. destruct (sp [0; 1] _) as [f|e] eqn:Q; [|eexists; reflexivity]. destruct SP as [SP _]. destruct (SP _ _ _ Q) as [L _]. cbn in L. lia.
Qed.
Lemma tiny_small : 0 < tiny < 1 / 2. Proof. unfold tiny. split; lra. Qed.
Lemma set_interp_err : forall sp m d c, cubic_spline sp -> In (d, c) (combine (m_dz m) (m_cdf m)) -> (forall x, In x c -> x <= tiny \/ 1 - tiny <= x) -> exists e, set_interp sp m = Err e.
Proof.
  intros sp m d c SP I H. unfold set_interp. set (u := linspace _ _ _). destruct (no_points sp u d c SP H) as [e E].
  destruct (map_result_err (fun c => ppf_column sp u (fst c) (snd c)) _ (d, c) e I E) as [e' ->]. eexists; reflexivity.
Qed.
Theorem C36_upper_infinite_refuted : forall sp z rvs n s same transform, cubic_spline sp -> rvs <> [] -> 0 < s ->
  Forall (fun r => proper_rv r /\ (exists a, rv_low r = Fin a) /\ rv_high r = PInf) rvs -> exists e, rvs_smear sp z rvs n (ByScale s) same transform = Err e.
Proof.
  intros sp z rvs n s same transform SP NE SS F. destruct rvs as [|r0 rest]; [congruence|]. unfold rvs_smear, rvs_table. cbv beta zeta. set (rvs := r0 :: rest) in *. rewrite Forall_forall in F.
  destruct (F r0 (or_introl eq_refl)) as (P0 & [a A] & B). pose proof tiny_small as TS.
  assert (FF : forallb (fun r => is_finite (rv_low r) && is_finite (rv_high r)) rvs = false). { unfold rvs. cbn. rewrite A, B. reflexivity. }
  rewrite FF, A, B. clear FF. cbn [is_finite negb andb].
  match goal with |- context [if ?b then _ else Err ValueError] => destruct b end; [|eexists; reflexivity]. cbn [bind fin].
  assert (ONE : forall r, proper_rv r -> rv_high r = PInf -> rv_cdf r PInf = 1) by (intros r (_ & Q & _) E; congruence).
  destruct same.
  - eapply set_interp_err; [auto|unfold rvs; cbn [m_dz m_cdf map combine]; left; reflexivity|]. cbn [fst snd]. intros x I.
    set (d := linspace _ 0 n) in I. destruct d as [|x0 d'] eqn:ED; [contradiction|]. cbn [map] in I. destruct I as [<-|I].
    + left. assert (E0 : x0 = exp (- a / s) ).
      { destruct n as [|[|n']]; [discriminate| |].
        - unfold d, linspace in ED. cbn in ED. injection ED as <- _. unfold Rdiv. ring.
        - pose proof (linspace_first (exp (- a / s)) 0 (S (S n')) ltac:(lia)) as Q. fold d in Q. rewrite ED in Q. cbn in Q. auto. }
      rewrite E0. unfold log_ext. pose proof (exp_pos (- a / s)). destruct (Rlt_dec 0 (exp (- a / s))); [|lra]. cbn [scale_ext]. rewrite ln_exp.
      replace (- s * (- a / s)) with a by (field; lra). rewrite <- A. destruct P0 as (-> & _). lra.
    + right. rewrite map_map in I. apply in_map_iff in I. destruct I as [? [<- _]]. rewrite (ONE r0 P0 B). lra.
  - destruct rest as [|r1 rest].
    + match goal with |- exists e, ?x = _ => destruct x as [m|e] eqn:E; [|eexists; reflexivity] end. exfalso. apply set_interp_inv in E. destruct E as (_ & _ & _ & _ & _ & T & _ & N2 & NL & _).
      apply forall2_length in T. cbn [m_z m_dz m_cdf] in *. rewrite combine_length, !map_length in T. unfold rvs in T. cbn [length] in T. lia.
    + destruct (F r1 (or_intror (or_introl eq_refl))) as (P1 & _ & B1). eapply set_interp_err; [auto|unfold rvs; cbn [m_dz m_cdf map combine]; right; left; reflexivity|]. cbn [fst snd]. intros x I.
      right. rewrite map_map in I. apply in_map_iff in I. destruct I as [? [<- _]]. rewrite (ONE r1 P1 B1). lra.
Qed.
Print Assumptions C36_upper_infinite_refuted.
(** Neither are distributions not bounded below, with upper bounds that change with redshift: the first redshift is left at -inf. *)
Theorem C36_lower_infinite_refuted : forall sp z rvs n s transform, cubic_spline sp -> rvs <> [] -> 0 < s ->
  Forall (fun r => proper_rv r /\ rv_low r = MInf /\ exists b, rv_high r = Fin b) rvs -> exists e, rvs_smear sp z rvs n (ByScale s) false transform = Err e.
Proof.
  intros sp z rvs n s transform SP NE SS F. destruct rvs as [|r0 rest]; [congruence|]. unfold rvs_smear, rvs_table. cbv beta zeta. set (rvs := r0 :: rest) in *. rewrite Forall_forall in F.
  destruct (F r0 (or_introl eq_refl)) as (P0 & A & [b B]). pose proof tiny_small as TS.
  assert (FF : forallb (fun r => is_finite (rv_low r) && is_finite (rv_high r)) rvs = false). { unfold rvs. cbn. rewrite A. reflexivity. }
  rewrite FF, A, B. clear FF. cbn [is_finite negb andb]. match goal with |- context [if ?b then _ else Err ValueError] => destruct b end; [|eexists; reflexivity]. cbn [bind fin].
  eapply set_interp_err; [auto|unfold rvs; cbn [m_dz m_cdf map combine]; left; reflexivity|]. cbn [fst snd]. intros x I. rewrite map_map in I. apply in_map_iff in I. destruct I as [? [<- _]].
  left. rewrite <- A. destruct P0 as (-> & _). lra.
Qed.
Print Assumptions C36_lower_infinite_refuted.

(** Four points: the splines are cubic polynomials, that leave the range of dz between tabulated quantiles. *)
Ltac literal_R := repeat match goal with
  | |- context [Req_EM_T ?a ?b] => destruct (Req_EM_T a b); [try lra|try lra]
  end.
Lemma even_cdf : normalized_cdf [1; 1; 1; 1] = Ok [0; / 3; 2 / 3; 1].
Proof.
  unfold normalized_cdf, cumsum. cbn [cumsum_from last hd]. unfold fdiv. cbn [map_result]. destruct (Req_EM_T _ 0); [exfalso; lra|]. cbn [bind]. do 2 f_equal; [field|]. repeat (f_equal; [field|]). f_equal. f_equal; field.
Qed.
Lemma four_grid : linspace 0 1 4 = [0; / 3; 2 / 3; 1].
Proof. unfold linspace. cbn [seq map Nat.sub]. cbn [INR]. repeat (f_equal; [field|]). f_equal. f_equal; field. Qed.
Lemma rising_four : forall a b c d, a < b -> b < c -> c < d -> rising [a; b; c; d].
Proof. intros a b c d H1 H2 H3 i j H. cbn [length] in H. destruct i as [|[|[|i]]]; destruct j as [|[|[|[|j]]]]; cbn [nth]; try lia; lra. Qed.
Lemma four_smear : forall sp p q transform, cubic_spline sp -> 0 <= p <= 1 -> 0 <= q <= 1 ->
  exists m, tabulated_smear sp [0; p; q; 1] [0; 1] [[1; 1; 1; 1]; [1; 1; 1; 1]] transform = Ok m /\
    forall u, ppf m u 0 = transform 0 (Fin (cubic 0 (/ 3) (2 / 3) 1 0 p q 1 u)).
Proof.
  intros sp p q transform (S1 & S2 & S3) P Q. destruct (S2 [0; / 3; 2 / 3; 1] [0; p; q; 1] eq_refl ltac:(cbn; lia) ltac:(apply rising_four; lra)) as [f F].
  pose proof (S1 _ _ _ F) as (_ & _ & _ & N). pose proof (N 0%nat ltac:(cbn; lia)) as N0. pose proof (N 1%nat ltac:(cbn; lia)) as N1. pose proof (N 2%nat ltac:(cbn; lia)) as N2. pose proof (N 3%nat ltac:(cbn; lia)) as N3. cbn [nth] in N0, N1, N2, N3. clear N.
  assert (C : ppf_column sp [0; / 3; 2 / 3; 1] [0; p; q; 1] [0; / 3; 2 / 3; 1] = Ok [0; p; q; 1]).
  { unfold ppf_column, padded, tiny. cbn [map hd last]. decide_R. cbn [andb select_by app]. rewrite F. cbn [bind map hd last]. rewrite N0, N1, N2, N3. rewrite !clip_id by lra. auto. }
  eexists. split.
  - unfold tabulated_smear. cbn [forallb length Nat.eqb Nat.leb andb map_result]. rewrite even_cdf. cbn [bind]. unfold padded, row_inside. cbn [seq map forallb nth hd last]. decide_R. cbn [andb select_by app].
    unfold set_interp. cbn [m_dz m_cdf m_z hd length combine map_result fst snd]. rewrite four_grid, C. cbn [bind map_result]. rewrite F. cbn [bind length Nat.leb Nat.eqb andb increasing]. decide_R. cbn [andb m_support m_transform]. reflexivity.
  - intro u. unfold ppf, interp_ppf. cbn [m_transform m_support m_z m_spline map hd last]. rewrite clip_id by lra. cbn [lin]. decide_R. cbv iota. rewrite (S3 _ _ _ _ _ _ _ _ _ u F). do 2 f_equal. field.
Qed.
(** A sample outside of the range of the table, whatever the spline. *)
Theorem C36_sample_range_refuted : forall sp, cubic_spline sp ->
  exists dz z pdf m u d, hd 0 dz <= last dz 0 /\ tabulated_smear sp dz z pdf (fun _ d => d) = Ok m /\ 0 <= u <= 1 /\ ppf m u 0 = Fin d /\ d < hd 0 dz.
Proof.
  intros sp SP. destruct (four_smear sp (/ 100) (99 / 100) (fun _ d => d) SP ltac:(lra) ltac:(lra)) as [m [E V]].
  exists [0; / 100; 99 / 100; 1], [0; 1], [[1; 1; 1; 1]; [1; 1; 1; 1]], m, (/ 6), (- (95 / 400)). cbn [hd last]. split; [lra|]. split; auto. split; [lra|]. split; [|lra].
  rewrite V. f_equal. unfold cubic. field.
Qed.
Print Assumptions C36_sample_range_refuted.

(** A density that vanishes between two points where it does not (its cumulative distribution is flat there) is refused. *)
Theorem C36_flat_refuted : forall sp transform, cubic_spline sp ->
  exists e, tabulated_smear sp [0; 1; 2; 3; 4] [0; 1] [[1; 1; 0; 1; 1]; [1; 1; 0; 1; 1]] transform = Err e.
Proof.
  intros sp transform (S1 & _). assert (C : normalized_cdf [1; 1; 0; 1; 1] = Ok [0; / 3; / 3; 2 / 3; 1]).
  { unfold normalized_cdf, cumsum. cbn [cumsum_from last hd]. unfold fdiv. cbn [map_result]. destruct (Req_EM_T _ 0); [exfalso; lra|]. cbn [bind]. do 2 f_equal; [field|]. repeat (f_equal; [field|]). f_equal. f_equal; field. }
  unfold tabulated_smear. cbn [forallb length Nat.eqb Nat.leb andb map_result]. rewrite C. cbn [bind]. unfold padded, row_inside. cbn [seq map forallb nth hd last]. decide_R. cbn [andb select_by app].
  unfold set_interp. cbn [m_dz m_cdf m_z hd length combine map_result fst snd]. unfold ppf_column at 1. unfold padded, tiny. cbn [map hd last]. decide_R. cbn [andb select_by app].
  destruct (sp [0; / 3; / 3; 2 / 3; 1] _) as [f|e] eqn:F; [|cbn [bind]; eexists; reflexivity]. exfalso. destruct (S1 _ _ _ F) as (_ & _ & RI & _). specialize (RI 1%nat 2%nat ltac:(cbn; lia)). cbn [nth] in RI. lra.
Qed.
Print Assumptions C36_flat_refuted.
(** So are densities whose supports, at two redshifts, do not overlap: no row is kept. *)
Theorem C36_disjoint_refuted : forall sp transform, cubic_spline sp ->
  exists e, tabulated_smear sp [0; 1; 2; 3; 4; 5] [0; 1] [[0; 1; 1; 0; 0; 0]; [0; 0; 0; 0; 1; 1]] transform = Err e.
Proof.
  intros sp transform (S1 & _).
  assert (C : normalized_cdf [0; 1; 1; 0; 0; 0] = Ok [0; / 2; 1; 1; 1; 1]).
  { unfold normalized_cdf, cumsum. cbn [cumsum_from last hd]. unfold fdiv. cbn [map_result]. destruct (Req_EM_T _ 0); [exfalso; lra|]. cbn [bind]. do 2 f_equal; [field|]. repeat (f_equal; [field|]). f_equal. f_equal; field. }
  assert (D : normalized_cdf [0; 0; 0; 0; 1; 1] = Ok [0; 0; 0; 0; / 2; 1]).
  { unfold normalized_cdf, cumsum. cbn [cumsum_from last hd]. unfold fdiv. cbn [map_result]. destruct (Req_EM_T _ 0); [exfalso; lra|]. cbn [bind]. do 2 f_equal; [field|]. repeat (f_equal; [field|]). f_equal. f_equal; field. }
  unfold tabulated_smear. cbn [forallb length Nat.eqb Nat.leb andb map_result]. rewrite C, D. cbn [bind]. unfold padded, row_inside. cbn [seq map forallb nth hd last]. decide_R. cbn [andb select_by app].
  unfold set_interp. cbn [m_dz m_cdf m_z hd length combine map_result fst snd]. unfold ppf_column at 1. unfold padded, tiny. cbn [map hd last]. decide_R. cbn [andb select_by app].
  destruct (sp [0; 1] _) as [f|e] eqn:F; [|cbn [bind]; eexists; reflexivity]. exfalso. destruct (S1 _ _ _ F) as (L & _). cbn in L. lia.
Qed.
Print Assumptions C36_disjoint_refuted.

(** A spline that meets the contract: cubic through four points, polygonal through more. *)
Definition some_spline (x y : list R) : result (R -> R) :=
  if Nat.leb 4 (length x) && Nat.eqb (length x) (length y) && increasing x then
    match x, y with
    | [a; b; c; d], [p; q; r; s] => Ok (cubic a b c d p q r s)
    | _, _ => Ok (lin x y)
    end
  else Err ValueError.
Lemma rising_increasing : forall x, rising x <-> increasing x = true.
Proof.
  split.
  - induction x as [|a [|b x] IH]; intro H; auto. cbn [increasing]. apply andb_true_intro. split.
    + apply Rltb_true. apply (H 0%nat 1%nat). cbn. lia.
    + apply IH. intros i j Hij. apply (H (S i) (S j)). cbn in *. lia.
  - induction x as [|a x IH]; intro H; intros i j Hij; [cbn in Hij; lia|]. destruct x as [|b x]; [cbn in Hij; lia|]. cbn [increasing] in H. apply andb_prop in H. destruct H as [H1 H2]. apply Rltb_true in H1. specialize (IH H2).
    destruct j as [|j]; [lia|]. cbn [length] in Hij. destruct i as [|i]; [|apply (IH i j); cbn [length]; lia].
    change (a < nth j (b :: x) 0). destruct j as [|j]; [auto|]. apply Rlt_trans with b; auto. apply (IH 0%nat (S j)). cbn [length]. lia.
Qed.
Lemma increasing_sorted : forall x, increasing x = true -> sorted x.
Proof. auto. Qed.
Lemma some_spline_cubic : cubic_spline some_spline.
Proof.
  assert (K : forall x y f, some_spline x y = Ok f -> (4 <= length x)%nat /\ length x = length y /\ rising x /\
    (f = lin x y \/ exists a b c d p q r s, x = [a; b; c; d] /\ y = [p; q; r; s] /\ f = cubic a b c d p q r s)).
  { intros x y f H. unfold some_spline in H. destruct (_ && _) eqn:E; [|discriminate]. apply andb_prop in E. destruct E as [E E3]. apply andb_prop in E. destruct E as [E1 E2].
    apply Nat.leb_le in E1. apply Nat.eqb_eq in E2. apply rising_increasing in E3. repeat split; auto.
    destruct x as [|a [|b [|c [|d [|e x]]]]]; try (left; congruence); destruct y as [|p [|q [|r [|s [|t y]]]]]; try discriminate; try (left; congruence).
    right. injection H as <-. exists a, b, c, d, p, q, r, s. auto. }
  split; [|split].
  - intros x y f H. apply K in H. destruct H as (A & B & C & D). repeat split; auto. intros i Hi. destruct D as [->|(a & b & c & d & p & q & r & s & -> & -> & ->)].
    + apply lin_knot; auto; [apply increasing_sorted, rising_increasing; auto|lia|]. rewrite <- combine_nth by auto. apply nth_In. rewrite combine_length. lia.
    + pose proof (C 0%nat 1%nat ltac:(cbn; lia)) as Q1. pose proof (C 1%nat 2%nat ltac:(cbn; lia)) as Q2. pose proof (C 2%nat 3%nat ltac:(cbn; lia)) as Q3. cbn [nth] in Q1, Q2, Q3. cbn [length] in Hi.
      destruct i as [|[|[|[|i]]]]; try lia; cbn [nth]; unfold cubic; field; repeat split; lra.
  - intros x y L L4 RI. unfold some_spline. replace (_ && _) with true. { destruct x as [|a [|b [|c [|d [|e x]]]]]; destruct y as [|p [|q [|r [|s [|t y]]]]]; eexists; reflexivity. }
    symmetry. rewrite andb_true_iff, andb_true_iff. repeat split; [apply Nat.leb_le; auto|apply Nat.eqb_eq; auto|apply rising_increasing; auto].
  - intros a b c d p q r s f t H. unfold some_spline in H. destruct (_ && _); [|discriminate]. injection H as <-. auto.
Qed.

(** Smearing by a uniform density: the tables are accepted, and samples follow the quantiles. *)
Example C36_case : exists m, tabulated_smear some_spline [0; / 3; 2 / 3; 1] [0; 1] [[1; 1; 1; 1]; [1; 1; 1; 1]] (fun _ d => d) = Ok m /\
  Forall proper_cdf (m_cdf m) /\ ppf m (/ 2) 0 = Fin (/ 2).
Proof.
  destruct (four_smear some_spline (/ 3) (2 / 3) (fun _ d => d) some_spline_cubic ltac:(lra) ltac:(lra)) as [m [E V]]. exists m. split; auto. split.
  - apply C36_tabulated_cdf in E; [apply E|]. intros c x [<-|[<-|[]]] I; cbn in I; repeat (destruct I as [<-|I]; [lra|]); contradiction.
  - rewrite V. f_equal. unfold cubic. field.
Qed.
(** A uniform law on [0, 1]: a distribution that meets the hypotheses. *)
Definition uniform_law : rv := RV (Fin 0) (Fin 1) (fun x => match x with Fin x => Rclip x 0 1 | PInf => 1 | _ => 0 end) (fun p => Fin p).
Example C36_case_rvs : proper_rv uniform_law /\ exists m, rvs_smear some_spline [0; 1] [uniform_law; uniform_law] 4 (ByScale 1) true (fun _ d => d) = Ok m /\ m_cdf m = [[0; / 3; 2 / 3; 1]; [0; / 3; 2 / 3; 1]].
Proof.
  split.
  - unfold proper_rv, uniform_law. cbn [rv_low rv_high rv_cdf rv_ppf]. rewrite !clip_id by lra. repeat split; try lra; try discriminate; auto.
    + intros [a| | |] [b| | |] H; cbn in *; try easy; try lra; unfold Rclip, Rmax, Rmin; repeat destruct (Rle_dec _ _); lra.
    + intros p q H _. cbn. lra.
    + cbn. lra.
    + intro H. assert (E : 0 = 1) by congruence. lra.
  - unfold rvs_smear, rvs_table. cbn [forallb rv_low rv_high is_finite andb uniform_law map fin bind]. rewrite four_grid. cbn [combine map fst snd rv_cdf uniform_law]. rewrite !clip_id by lra.
    assert (P : exists t, ppf_column some_spline [0; / 3; 2 / 3; 1] [0; / 3; 2 / 3; 1] [0; / 3; 2 / 3; 1] = Ok t /\ length t = 4%nat).
    { unfold ppf_column, padded, tiny. cbn [map hd last]. decide_R. cbn [andb select_by app]. unfold some_spline at 1. cbn [length Nat.leb Nat.eqb andb increasing]. decide_R. cbn [andb bind]. eexists. split; reflexivity. }
    destruct P as [t [P T]]. destruct t as [|t0 [|t1 [|t2 [|t3 [|]]]]]; try discriminate.
    unfold set_interp. cbn [m_dz m_cdf m_z hd length combine map_result fst snd]. rewrite four_grid, P. cbn [bind map_result]. unfold some_spline. cbn [length Nat.leb Nat.eqb andb increasing]. decide_R. cbn [andb bind]. eexists. split; reflexivity.
Qed.
