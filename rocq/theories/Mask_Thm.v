(** Properties of selection functions (C26-C30, C32, C33). *)
Require Import Reals Lra Lia ZArith List Bool.
From Verif Require Import Base Vec3 Sky_Model Sky_Proof Cutsky_Model Box_Model Box_Proof3 Remap_Model Remap_Proof2 Mask_Model Mask_Spec Mask_Proof Mask_Proof2 Mask_Proof3 Mask_Proof4.
Import ListNotations.
Open Scope R_scope.

(* ---------- C26 ---------- *)
Lemma mask_call_nth : forall prob u i, length prob = length u -> (i < length u)%nat -> nth i (mask_call prob u) false = Rleb (nth i u 0) (nth i prob 0).
Proof.
  intros prob u. revert u. induction prob as [|p prob IH]; intros [|v u] [|i] L H; cbn in *; try lia; auto. apply IH; lia.
Qed.
(** One answer per object, which depends only on its probability and its random number. *)
Theorem C26_rows : forall prob u, length prob = length u ->
  length (mask_call prob u) = length prob /\
  forall i, (i < length u)%nat -> (nth i (mask_call prob u) false = true <-> nth i u 0 <= nth i prob 0).
Proof.
  intros prob u L. split.
  - unfold mask_call. rewrite map_length, combine_length. lia.
  - intros i Hi. rewrite mask_call_nth by auto. split; [intros H; apply Rleb_true in H; auto|intros H; apply Rleb_true; auto].
Qed.
Theorem C26_certain_acceptance : forall prob u i, length prob = length u -> (i < length u)%nat ->
  0 <= nth i u 0 < 1 -> 1 <= nth i prob 0 -> nth i (mask_call prob u) false = true.
Proof. intros. rewrite mask_call_nth by auto. apply Rleb_true. lra. Qed.
(** Full property: also when the number drawn is exactly 0, which [0, 1) allows; there it fails, see below. *)
Theorem C26_certain_rejection_partial : forall prob u i, length prob = length u -> (i < length u)%nat ->
  0 < nth i u 0 < 1 -> nth i prob 0 <= 0 -> nth i (mask_call prob u) false = false.
Proof. intros. rewrite mask_call_nth by auto. apply Rleb_false. lra. Qed.
Theorem C26_zero_draw_refuted : exists prob u : list R, length prob = length u /\ Forall (fun x => 0 <= x < 1) u /\
  exists i, (i < length u)%nat /\ nth i prob 0 = 0 /\ nth i (mask_call prob u) false = true.
Proof.
  exists [1; 0], [/2; 0]. split; auto. split; [repeat constructor; lra|]. exists 1%nat. split; [cbn; lia|]. split; auto. cbn. apply Rleb_true. lra.
Qed.
Print Assumptions C26_rows.
Print Assumptions C26_certain_acceptance.
Print Assumptions C26_certain_rejection_partial.
Print Assumptions C26_zero_draw_refuted.
Example C26_case : mask_call [1; 0; /2] [/2; /2; /4] = [true; false; true].
Proof.
  cbn. repeat f_equal; [apply Rleb_true; lra|apply Rleb_false; lra|apply Rleb_true; lra].
Qed.

(* ---------- C27 ---------- *)
Theorem C27_uniform_radial : forall nbar lo hi z,
  (~ inside lo hi z -> uniform_radial_prob nbar (radial_zrange (Some (lo, hi))) z = 0) /\
  (inside lo hi z ->
    (nbar <= 0 -> uniform_radial_prob nbar (radial_zrange (Some (lo, hi))) z = 0) /\
    (0 <= nbar <= 1 -> uniform_radial_prob nbar (radial_zrange (Some (lo, hi))) z = nbar) /\
    (1 <= nbar -> uniform_radial_prob nbar (radial_zrange (Some (lo, hi))) z = 1)).
Proof.
  intros nbar lo hi z. unfold uniform_radial_prob, radial_zrange.
  assert (E : in_zrange (lo, hi) z = true <-> inside lo hi z).
  { unfold in_zrange, inside. cbn [fst snd]. rewrite andb_true_iff. destruct hi as [h|].
    - split; intros [A B]; split; try (apply Rleb_true in A; exact A); try (apply Rleb_true in B; exact B); apply Rleb_true; auto.
    - split; intros [A B]; split; auto; [apply Rleb_true in A; auto|apply Rleb_true; auto]. }
  destruct (in_zrange (lo, hi) z); split; intros H.
  - exfalso. apply H, E. reflexivity.
  - unfold Rclip, Rmin, Rmax. repeat split; intros; repeat destruct Rle_dec; lra.
  - reflexivity.
  - apply E in H. discriminate.
Qed.
(** Without a range, every non-negative redshift is treated the same. *)
Theorem C27_default_range : forall nbar z,
  uniform_radial_prob nbar (radial_zrange None) z = uniform_radial_prob nbar (radial_zrange (Some (0, None))) z.
Proof. reflexivity. Qed.
Print Assumptions C27_uniform_radial.
Print Assumptions C27_default_range.
Example C27_case : inside 0 (Some 1) 1 /\ uniform_radial_prob (/4) (radial_zrange (Some (0, Some 1))) 1 = /4 /\ uniform_radial_prob 3 (radial_zrange (Some (0, Some 1))) 2 = 0.
Proof.
  split; [unfold inside; lra|]. split.
  - destruct (C27_uniform_radial (/4) 0 (Some 1) 1) as [_ H]. destruct H as (_ & H & _); [unfold inside; lra|]. apply H. lra.
  - apply (proj1 (C27_uniform_radial 3 0 (Some 1) 2)). intros [_ B]. lra.
Qed.

(* ---------- C28 ---------- *)
Definition range_lo (z : list R) (range : option (R * R)) : R := match range with Some r => fst r | None => hd 0 z end.
Definition range_hi (z : list R) (range : option (R * R)) : R := match range with Some r => snd r | None => last z 0 end.
Definition nonneg_norm (norm : option R) : Prop := match norm with Some n => 0 <= n | None => True end.

Lemma new_prob : forall zs nbar range norm m, tabulated_new zs nbar range norm = Ok m -> nonneg_norm norm ->
  exists n, 0 <= n /\ well m /\ m = TMask zs nbar (range_lo zs range) (range_hi zs range) (Some n) /\ forall z, tabulated_prob m z = Ok (tprob m n z).
Proof.
  intros zs nbar range norm m H N. apply tabulated_new_inv in H. cbn zeta in H. destruct H as (n & E & W & _ & _ & D). exists n.
  split; [destruct norm; [subst; auto|apply Rlt_le, default_norm_pos with m; auto]|]. split; auto. split; auto.
  intros z. rewrite <- well_prob by auto. f_equal. rewrite E. reflexivity.
Qed.

(** A mask that could be built gives every redshift a probability in [0, 1], 0 outside of its range. *)
Theorem C28_probability : forall zs nbar range norm m, tabulated_new zs nbar range norm = Ok m -> nonneg_norm norm ->
  forall z, exists p, tabulated_prob m z = Ok p /\ 0 <= p <= 1 /\ (z < range_lo zs range \/ range_hi zs range < z -> p = 0).
Proof.
  intros zs nbar range norm m H N z. destruct (new_prob _ _ _ _ _ H N) as (n & Hn & W & E & P). exists (tprob m n z).
  split; auto. split; [apply tprob_range; auto|]. intros O. apply tprob_outside. rewrite E. cbn. lra.
Qed.
(** At the tabulated redshifts of the range: the density times one factor (the one given, or one that is positive and never has to be
    cut at 1). *)
Theorem C28_follows_table : forall zs nbar range norm m, tabulated_new zs nbar range norm = Ok m -> nonneg_norm norm ->
  exists n, (forall n', norm = Some n' -> n = n') /\
    forall z b, In (z, b) (combine zs nbar) -> range_lo zs range <= z <= range_hi zs range ->
      (n * b <= 1 -> tabulated_prob m z = Ok (n * b)) /\ (1 <= n * b -> tabulated_prob m z = Ok 1) /\ (norm = None -> 0 < n /\ n * b <= 1).
Proof.
  intros zs nbar range norm m H N. pose proof H as H0. apply tabulated_new_inv in H0. cbn zeta in H0. destruct H0 as (n & E & W & _ & _ & D). exists n.
  split; [intros n' ->; auto|]. intros z b I B.
  assert (P : tabulated_prob m z = Ok (Rmin (n * b) 1)).
  { rewrite <- (tprob_knot m n z b); auto; [|rewrite E; exact B|rewrite E; exact I]. rewrite <- well_prob by auto. f_equal. rewrite E. reflexivity. }
  rewrite P. split; [intros C; rewrite Rmin_left; auto|]. split; [intros C; rewrite Rmin_right; auto|]. intros ->.
  split; [apply default_norm_pos with m; auto|]. apply (default_norm_knot m n z b); auto; rewrite E; auto.
Qed.
(** Full property: without normalisation given, the largest probability over the range is 1. Proved when the maximum of the density over
    the range is reached at a tabulated redshift of the range, in particular when the range is the whole table. *)
Theorem C28_default_maximum_partial : forall zs nbar range m, tabulated_new zs nbar range None = Ok m ->
  (range = None \/ exists z b, In (z, b) (combine zs nbar) /\ range_lo zs range <= z <= range_hi zs range /\
     (forall z' b', In (z', b') (combine zs nbar) -> range_lo zs range <= z' <= range_hi zs range -> b' <= b) /\
     lin zs nbar (range_lo zs range) <= b /\ lin zs nbar (range_hi zs range) <= b) ->
  exists z, range_lo zs range <= z <= range_hi zs range /\ tabulated_prob m z = Ok 1.
Proof.
  intros zs nbar range m H C. apply tabulated_new_inv in H. cbn zeta in H. destruct H as (n & E & W & _ & _ & D).
  assert (P : forall z, tabulated_prob m z = Ok (tprob m n z)) by (intros z; rewrite <- well_prob by auto; f_equal; rewrite E; reflexivity).
  assert (T : exists z, range_lo zs range <= z <= range_hi zs range /\ tprob m n z = 1).
  { destruct C as [->|(z & b & I & B & M & L1 & L2)].
    - destruct (whole_table_top m n W D) as (z & b & I & T); [rewrite E; reflexivity|rewrite E; reflexivity|]. exists z. split; auto.
      rewrite E in I. apply in_combine_l in I. cbn in I. destruct W as (S & _). rewrite E in S. split; [apply sorted_ge_head|apply sorted_le_last]; auto.
    - exists z. split; auto. apply (default_norm_top m n z b); auto; rewrite E; cbn [t_lo t_hi t_z t_nbar]; auto. intros z' b' B' I'. eapply M; eauto. }
  destruct T as (z & B & T). exists z. rewrite P, T. auto.
Qed.

(** Otherwise it fails: the table is cut at 1 also outside of the range, which lowers the interpolation inside. *)
Definition cut_table : list R * list R := ([0; 1; 2], [1; 1; 3]).
Lemma lin3 : forall a b c x, lin [0; 1; 2] [a; b; c] x =
  if Rltb x 0 then 0 else if Rleb x 1 then a + (b - a) * ((x - 0) / (1 - 0)) else if Rltb x 1 then 0 else if Rleb x 2 then b + (c - b) * ((x - 1) / (2 - 1)) else 0.
Proof. intros. rewrite !lin_step. reflexivity. Qed.
Ltac decide_R := repeat match goal with
  | |- context [Rltb ?a ?b] => first [replace (Rltb a b) with true by (symmetry; apply Rltb_true; lra) | replace (Rltb a b) with false by (symmetry; apply Rltb_false; lra)]
  | |- context [Rleb ?a ?b] => first [replace (Rleb a b) with true by (symmetry; apply Rleb_true; lra) | replace (Rleb a b) with false by (symmetry; apply Rleb_false; lra)]
  end.
Lemma cut_mask : tabulated_new [0; 1; 2] [1; 1; 3] (Some (0, 3 / 2)) None = Ok (TMask [0; 1; 2] [1; 1; 3] 0 (3 / 2) (Some (/ 2))).
Proof.
  unfold tabulated_new. cbn [forallb last]. decide_R. cbn [andb].
  unfold prepare, t_interp, knots, lin_spline. cbn [t_z t_nbar t_norm t_lo t_hi length Nat.eqb Nat.leb andb increasing map]. decide_R. cbn [andb bind].
  unfold nbar_in_range, between. cbn [t_z t_nbar t_norm t_lo t_hi map]. decide_R. cbn [andb select_by]. rewrite !lin3. decide_R. cbn [list_max fold_left].
  replace (Rmax (Rmax (Rmax 1 1) (1 + (1 - 1) * ((0 - 0) / (1 - 0)))) (1 + (3 - 1) * ((3 / 2 - 1) / (2 - 1)))) with 2.
  - rewrite fdiv_ok by lra. cbn [bind]. f_equal. f_equal. f_equal. lra.
  - unfold Rmax. repeat destruct Rle_dec; lra.
Qed.
Theorem C28_default_maximum_refuted : exists zs nbar range m, tabulated_new zs nbar range None = Ok m /\
  forall z p, tabulated_prob m z = Ok p -> p <= 3 / 4.
Proof.
  exists [0; 1; 2], [1; 1; 3], (Some (0, 3 / 2)), (TMask [0; 1; 2] [1; 1; 3] 0 (3 / 2) (Some (/ 2))). split; [apply cut_mask|].
  intros z p H. unfold tabulated_prob, t_interp, knots, lin_spline in H. cbn [t_z t_nbar t_norm length Nat.eqb Nat.leb andb increasing map t_lo t_hi] in H.
  revert H. decide_R. cbn [andb bind]. rewrite (Rmin_left (/ 2 * 1)), (Rmin_right (/ 2 * 3)) by lra. rewrite lin3. intros H. injection H as <-.
  destruct (between 0 (3 / 2) z) eqn:B; [|lra]. apply between_spec in B. destruct (Rltb z 0); [lra|]. destruct (Rleb z 1) eqn:C1; [lra|]. apply Rleb_false in C1.
  destruct (Rltb z 1); [lra|]. destruct (Rleb z 2); lra.
Qed.
(** Negative densities, and ranges beyond the table, are refused. *)
Theorem C28_refused : forall zs nbar range norm, zs <> [] ->
  (exists b, In b nbar /\ b < 0) \/ range_lo zs range < hd 0 zs \/ last zs 0 < range_hi zs range -> tabulated_new zs nbar range norm = Err ValueError.
Proof.
  intros zs nbar range norm Ne H. unfold tabulated_new. destruct (forallb _ nbar) eqn:F; auto. apply forallb_nonneg in F. rewrite Forall_forall in F.
  destruct zs as [|z0 zs]; [easy|].
  assert (E : match range with Some r => r | None => (z0, last (z0 :: zs) 0) end = (range_lo (z0 :: zs) range, range_hi (z0 :: zs) range)) by (destruct range as [[? ?]|]; reflexivity).
  rewrite E. destruct H as [(b & I & B)|[H|H]]; [specialize (F b I); lra| |].
  - replace (Rleb z0 (range_lo (z0 :: zs) range)) with false by (symmetry; apply Rleb_false; exact H). reflexivity.
  - replace (Rleb (range_hi (z0 :: zs) range) (last (z0 :: zs) 0)) with false by (symmetry; apply Rleb_false; exact H). rewrite andb_false_r. reflexivity.
Qed.
Print Assumptions C28_probability.
Print Assumptions C28_follows_table.
Print Assumptions C28_default_maximum_partial.
Print Assumptions C28_default_maximum_refuted.
Print Assumptions C28_refused.
(** A table of three redshifts with its default range meets the hypotheses; its maximum is in the middle. *)
Lemma hill_mask : tabulated_new [0; 1; 2] [1; 4; 2] None None = Ok (TMask [0; 1; 2] [1; 4; 2] 0 2 (Some (/ 4))).
Proof.
  unfold tabulated_new. cbn [forallb last]. decide_R. cbn [andb].
  unfold prepare, t_interp, knots, lin_spline. cbn [t_z t_nbar t_norm t_lo t_hi length Nat.eqb Nat.leb andb increasing map]. decide_R. cbn [andb bind].
  unfold nbar_in_range, between. cbn [t_z t_nbar t_norm t_lo t_hi map]. decide_R. cbn [andb select_by]. rewrite !lin3. decide_R. cbn [list_max fold_left].
  replace (Rmax (Rmax (Rmax (Rmax 1 4) 2) (1 + (4 - 1) * ((0 - 0) / (1 - 0)))) (4 + (2 - 4) * ((2 - 1) / (2 - 1)))) with 4.
  - rewrite fdiv_ok by lra. cbn [bind]. f_equal. f_equal. f_equal. lra.
  - unfold Rmax. repeat destruct Rle_dec; lra.
Qed.
Example C28_case : exists m, tabulated_new [0; 1; 2] [1; 4; 2] None None = Ok m /\ tabulated_prob m 1 = Ok 1 /\ tabulated_prob m (3 / 2) = Ok (3 / 4).
Proof.
  eexists. split; [apply hill_mask|]. unfold tabulated_prob, t_interp, knots, lin_spline, between. cbn [t_z t_nbar t_norm t_lo t_hi length Nat.eqb Nat.leb andb increasing map].
  decide_R. cbn [andb bind]. rewrite !lin3. decide_R. rewrite (Rmin_left (/ 4 * 1)), (Rmin_left (/ 4 * 4)), (Rmin_left (/ 4 * 2)) by lra. split; f_equal; lra.
Qed.

(* ---------- C29 ---------- *)
Definition built (m : tmask) : Prop := exists zs nbar range norm, tabulated_new zs nbar range norm = Ok m.
(** The selection probability as a function (0 if the mask raised). *)
Definition prob_of (m : tmask) (z : R) : R := match tabulated_prob m z with Ok p => p | Err _ => 0 end.
(** The mask with another normalisation. *)
Definition renormalized (m : tmask) (n : R) : tmask := TMask (t_z m) (t_nbar m) (t_lo m) (t_hi m) (Some n).
Lemma built_well : forall m, built m -> well m.
Proof. intros m (zs & nbar & range & norm & H). apply tabulated_new_inv in H. cbn zeta in H. destruct H as (n & _ & W & _). exact W. Qed.
Lemma prob_of_ok : forall m n z, well m -> prob_of (with_norm m n) z = tprob m n z.
Proof. intros. unfold prob_of. rewrite well_prob; auto. Qed.
Lemma mean_fsum : forall m n z w, well m -> weighted_mean (prob_of (with_norm m n)) z w = fsum m z w n / Rsum w.
Proof. intros m n z w W. unfold weighted_mean, fsum. f_equal. f_equal. apply map_ext. intros x. rewrite prob_of_ok; auto. Qed.
Lemma mean_plain : forall m n z, well m -> mean (prob_of (with_norm m n)) z = fsum m z (repeat 1 (length z)) n / INR (length z).
Proof. intros m n z W. unfold mean. rewrite fsum_ones. f_equal. f_equal. apply map_ext. intros x. apply prob_of_ok; auto. Qed.

(** Full property: also without weights, where it fails (see below). With weights, the weighted mean reaches the target. *)
Theorem C29_reaches_target_partial : forall brentq m target z w m', root_finder brentq -> built m -> length w = length z -> 0 < Rsum w ->
  0 < target <= 1 -> normalize brentq m target z (Some w) = Ok m' ->
  weighted_mean (prob_of m') z w = target /\ t_z m' = t_z m /\ t_nbar m' = t_nbar m /\ t_lo m' = t_lo m /\ t_hi m' = t_hi m.
Proof.
  intros brentq m target z w m' B M L S T H. apply built_well in M. rewrite normalize_weights in H by lra.
  apply search_sound in H; auto; [|lra|cbn; rewrite map_length; auto]. destruct H as (n & _ & -> & F). cbn [opt_weights] in F. rewrite fsum_scaled in F by lra.
  rewrite mean_fsum by auto. auto.
Qed.
(** The achieved fraction grows with the normalisation. *)
Theorem C29_monotone : forall m z w a b, built m -> Forall (fun x => 0 <= x) w -> 0 < Rsum w -> 0 <= a <= b ->
  weighted_mean (prob_of (renormalized m a)) z w <= weighted_mean (prob_of (renormalized m b)) z w.
Proof.
  intros m z w a b M F S H. apply built_well in M. change (renormalized m) with (with_norm m). rewrite !mean_fsum by auto.
  apply Rmult_le_compat_r; [apply Rlt_le, Rinv_0_lt_compat; auto|]. apply fsum_mono; auto.
Qed.
(** A target that some normalisation reaches is found; one that none reaches is an error. *)
Theorem C29_reachable : forall brentq m target z w, root_finder brentq -> built m -> length w = length z -> Forall (fun x => 0 <= x) w -> 0 < Rsum w -> 0 < target <= 1 ->
  ((exists n, 0 <= n /\ target <= weighted_mean (prob_of (renormalized m n)) z w) -> exists m', normalize brentq m target z (Some w) = Ok m') /\
  ((forall n, 0 <= n -> weighted_mean (prob_of (renormalized m n)) z w < target) -> normalize brentq m target z (Some w) = Err ValueError).
Proof.
  intros brentq m target z w B M L F S T. apply built_well in M. change (renormalized m) with (with_norm m). rewrite normalize_weights by lra.
  assert (L' : length (opt_weights (Some (map (fun x => x / Rsum w) w)) z) = length z) by (cbn; rewrite map_length; auto). split.
  - intros (n & Hn & H). rewrite mean_fsum in H by auto. apply search_reachable; auto; [lra| |].
    + cbn. apply Forall_forall. intros x I. apply in_map_iff in I. destruct I as (y & <- & I). rewrite Forall_forall in F. specialize (F y I).
      apply Rmult_le_pos; auto. apply Rlt_le, Rinv_0_lt_compat; auto.
    + exists n. split; auto. cbn [opt_weights]. rewrite fsum_scaled by lra. auto.
  - intros H. apply search_unreachable; auto; [lra|]. intros n Hn. cbn [opt_weights]. rewrite fsum_scaled by lra. specialize (H n Hn). rewrite mean_fsum in H; auto.
Qed.
(** Targets outside of [0, 1] are refused. *)
Theorem C29_refused : forall brentq m target z weights, target < 0 \/ 1 < target -> normalize brentq m target z weights = Err ValueError.
Proof.
  intros brentq m target z weights H. unfold normalize. destruct (Rleb 0 target && Rleb target 1) eqn:E; auto. apply andb_true_iff in E. destruct E as [A B].
  apply Rleb_true in A, B. lra.
Qed.
(** Without weights it is the sum of the probabilities, not their mean, that is set to the target: for every mask and sample of two
    objects or more, a successful call leaves the wrong fraction. *)
Theorem C29_unweighted_refuted : forall brentq m target z m', root_finder brentq -> built m -> (2 <= length z)%nat -> 0 < target <= 1 ->
  normalize brentq m target z None = Ok m' -> mean (prob_of m') z = target / INR (length z) /\ mean (prob_of m') z <> target.
Proof.
  intros brentq m target z m' B M L T H. apply built_well in M. rewrite normalize_plain in H by lra.
  apply search_sound in H; auto; [|lra|cbn; apply repeat_length]. destruct H as (n & _ & -> & F). cbn [opt_weights] in F. rewrite mean_plain, F by auto. split; auto.
  assert (2 <= INR (length z)) by (apply (le_INR 2); auto). intros C.
  assert (target = target * INR (length z)) by (rewrite <- C at 2; field; lra). nra.
Qed.
(** A target of 0 is not refused but divides by it. *)
Theorem C29_zero_target_refuted : forall brentq m z w, root_finder brentq -> built m -> length w = length z -> 0 < Rsum w -> (exists b, In b (t_nbar m) /\ 0 < b) ->
  normalize brentq m 0 z (Some w) = Err ZeroDivision.
Proof.
  intros brentq m z w B M L S (b & I & P). apply built_well in M. rewrite normalize_weights by lra.
  assert (Ne : positive m <> []). { assert (J : In b (positive m)) by (apply filter_In; split; auto; apply Rltb_true; auto). intros E. rewrite E in J. easy. }
  rewrite search_unfold by auto. destruct (B (normalization m 0 z (Some (map (fun x => x / Rsum w) w))) _ _ (search_ends m Ne)) as (_ & B2 & _). rewrite (B2 ZeroDivision); [reflexivity|].
  unfold normalization, integral. cbn [bind]. change (TMask _ _ _ _ _) with (with_norm m 0). rewrite csum_ok; [|auto|rewrite map_length; auto]. cbn [bind]. unfold fdiv.
  destruct (Req_EM_T 0 0); [reflexivity|lra].
Qed.
Print Assumptions C29_reaches_target_partial.
Print Assumptions C29_monotone.
Print Assumptions C29_reachable.
Print Assumptions C29_refused.
Print Assumptions C29_unweighted_refuted.
Print Assumptions C29_zero_target_refuted.
(** Half of a sample of two objects in a flat table is reachable, so normalize succeeds, with and without weights. *)
Definition flat_mask (n : R) : tmask := TMask [0; 1; 2] [1; 1; 1] 0 2 (Some n).
Lemma flat_new : forall n, tabulated_new [0; 1; 2] [1; 1; 1] None (Some n) = Ok (flat_mask n).
Proof.
  intros n. unfold tabulated_new. cbn [forallb last]. decide_R. cbn [andb]. unfold prepare, t_interp, knots, lin_spline. cbn [bind t_z t_nbar t_norm t_lo t_hi length Nat.eqb Nat.leb andb increasing map].
  decide_R. reflexivity.
Qed.
Lemma flat_prob : forall n z, 0 <= z <= 2 -> tprob (flat_mask 1) n z = Rmin n 1.
Proof.
  intros n z H. unfold tprob, flat_mask. cbn [t_lo t_hi t_z t_nbar map]. apply between_spec in H. rewrite H. apply between_spec in H. rewrite lin3, Rmult_1_r.
  destruct (Rltb z 0) eqn:A; [apply Rltb_true in A; lra|]. destruct (Rleb z 1) eqn:B1; [lra|]. apply Rleb_false in B1. destruct (Rltb z 1) eqn:B2; [apply Rltb_true in B2; lra|].
  destruct (Rleb z 2) eqn:B3; [lra|]. apply Rleb_false in B3. lra.
Qed.
Example C29_case : forall brentq, root_finder brentq ->
  built (flat_mask 1) /\ (exists m', normalize brentq (flat_mask 1) (/ 2) [/2; 1] (Some [1; 3]) = Ok m') /\ exists m', normalize brentq (flat_mask 1) (/ 2) [/2; 1] None = Ok m'.
Proof.
  intros brentq B. assert (M : built (flat_mask 1)) by (exists [0; 1; 2], [1; 1; 1], None, (Some 1); apply flat_new). split; auto. split.
  - apply C29_reachable; auto; try (repeat constructor; lra); try (cbn; lra). exists 1. split; [lra|]. change (renormalized (flat_mask 1)) with (with_norm (flat_mask 1)).
    rewrite mean_fsum by (apply built_well; auto). unfold fsum. cbn [combine map fst snd]. rewrite !flat_prob by lra. rewrite Rmin_left by lra. unfold Rsum. cbn. lra.
  - rewrite normalize_plain by lra. apply search_reachable; auto; [apply built_well; auto|lra|cbn; repeat constructor; lra|]. exists 1. split; [lra|].
    unfold fsum. cbn [combine map fst snd opt_weights length repeat]. rewrite !flat_prob by lra. rewrite Rmin_left by lra. unfold Rsum. cbn. lra.
Qed.

(* ---------- C30 ---------- *)
Lemma selects_false : forall lo hi dr ra dec, plain_range lo hi ->
  ~ (on_arc lo hi ra /\ fst (angular_decrange dr) <= dec <= snd (angular_decrange dr)) -> selects (Some (lo, hi)) dr ra dec = false.
Proof. intros lo hi dr ra dec P H. destruct (selects _ _ _ _) eqn:E; auto. apply selects_arc in E; auto. easy. Qed.
(** Full property: for every range. It fails for ordered ranges that cross a multiple of 360 (see below). For the others, all three
    angular masks keep their value exactly on the arc and in the (closed) declination range, and give 0 elsewhere. *)
Theorem C30_selects_arc_partial : forall lo hi d0 d1 ra dec nbar poly ang2pix hmap, plain_range lo hi ->
  let r := Some (lo, hi) in let d := Some (d0, d1) in
  (on_arc lo hi ra /\ d0 <= dec <= d1 ->
     uniform_angular_prob nbar r d ra dec = Rmin (Rmax nbar 0) 1 /\
     mangle_prob poly r d ra dec = snd (poly (wrap_angle true ra) dec) /\
     forall p, nth_error hmap (ang2pix ((90 - dec) * PI / 180) (wrap_angle true ra * PI / 180)) = Some p -> healpix_prob ang2pix hmap r d ra dec = Ok p) /\
  (~ (on_arc lo hi ra /\ d0 <= dec <= d1) ->
     uniform_angular_prob nbar r d ra dec = 0 /\
     mangle_prob poly r d ra dec = 0 /\
     forall p, healpix_prob ang2pix hmap r d ra dec = Ok p -> p = 0).
Proof.
  intros lo hi d0 d1 ra dec nbar poly ang2pix hmap P r d. unfold uniform_angular_prob, mangle_prob, healpix_prob. fold (selects r d ra dec). unfold r, d. split; intros H.
  - replace (selects (Some (lo, hi)) (Some (d0, d1)) ra dec) with true by (symmetry; apply selects_arc; auto).
    split; [unfold Rclip; lra|]. split; auto. intros p E. replace (- dec + 90) with (90 - dec) by ring. rewrite E. reflexivity.
  - rewrite selects_false by auto. split; auto. split; auto. intros p. destruct (nth_error _ _); [|discriminate]. intros E. injection E as <-. reflexivity.
Qed.
(** Without ranges the whole sky is selected. *)
Theorem C30_default_ranges : forall nbar ra dec, -90 <= dec <= 90 -> uniform_angular_prob nbar None None ra dec = Rmin (Rmax nbar 0) 1.
Proof.
  intros nbar ra dec H. unfold uniform_angular_prob. replace (mask_ranges _ _ _ dec) with true; [unfold Rclip; lra|].
  symmetry. apply mask_ranges_split. split; [apply default_arc|cbn; lra].
Qed.
(** Every ordered range across a multiple of 360, such as (-60, 40), loses the origin of right ascension although it is on the arc. *)
Theorem C30_crossing_refuted : forall lo hi nbar d0 d1 dec, (exists k : Z, lo < 360 * IZR k < hi) -> hi - lo <= 360 -> d0 <= dec <= d1 ->
  on_arc lo hi 0 /\ uniform_angular_prob nbar (Some (lo, hi)) (Some (d0, d1)) 0 dec = 0.
Proof.
  intros lo hi nbar d0 d1 dec (k & K) W D. destruct (arc_crossing lo hi k K W) as [A B]. split; auto. unfold uniform_angular_prob.
  replace (mask_ranges _ _ _ dec) with false; auto. symmetry. destruct (mask_ranges _ _ _ dec) eqn:E; auto. apply mask_ranges_split in E. destruct E as [E _]. congruence.
Qed.
(** A range of more than a turn loses most of the circle. *)
Theorem C30_wide_refuted : on_arc 0 370 180 /\ forall nbar d0 d1 dec, uniform_angular_prob nbar (Some (0, 370)) (Some (d0, d1)) 180 dec = 0.
Proof.
  split; [left; split; [lra|]; exists 0%Z; lra|]. intros nbar d0 d1 dec. unfold uniform_angular_prob. replace (mask_ranges _ _ _ dec) with false; auto.
  symmetry. destruct (mask_ranges _ _ _ dec) eqn:E; auto. apply mask_ranges_split in E. destruct E as [E _]. exfalso. revert E. unfold angular_rarange.
  destruct (wrap360 0) as (i & -> & Ri). destruct (wrap360 370) as (j & -> & Rj). destruct (wrap360 180) as (m & -> & Rm).
  assert (I0 : i = 0%Z) by (apply small_zero; lra). assert (M0 : m = 0%Z) by (apply small_zero; lra).
  assert (J : IZR (j + 1) = IZR j + 1) by apply plus_IZR. assert (J0 : (j + 1)%Z = 0%Z) by (apply small_zero; lra). rewrite J0 in J. subst i m.
  decide_R. cbn [andb]. rewrite ra_test_true. lra.
Qed.
Print Assumptions C30_selects_arc_partial.
Print Assumptions C30_default_ranges.
Print Assumptions C30_crossing_refuted.
Print Assumptions C30_wide_refuted.
Example C30_case : plain_range 300 40 /\ on_arc 300 40 (-10) /\ ~ on_arc 300 40 100 /\ plain_range 10 200 /\ plain_range 0 360 /\ (exists k : Z, -60 < 360 * IZR k < 40).
Proof.
  split; [left; lra|]. split; [right; split; [lra|]; exists 1%Z, 1%Z; lra|]. split.
  - intros [[H _]|(_ & j & k & H1 & H2)]; [lra|].
    assert (J : IZR (j - 1) = IZR j - 1) by apply minus_IZR. assert (J0 : (j - 1)%Z = 0%Z) by (apply small_zero; lra). rewrite J0 in J.
    assert (K : IZR (k - 1) = IZR k - 1) by apply minus_IZR. assert (K0 : (k - 1)%Z = 0%Z) by (apply small_zero; lra). rewrite K0 in K. lra.
  - split; [right; left; exists 0%Z; lra|]. split; [right; right; exists 0%Z; lra|]. exists 0%Z. lra.
Qed.

(* ---------- C32 ---------- *)
(** Masks that treat objects one by one: each object gets the probability given by the mask of its chunk to its own row; objects of
    a chunk without mask get 1. *)
Theorem C32_rows : forall masks ps chunk args, NoDup (map fst masks) ->
  Forall2 (fun m p => fst m = fst p /\ rowwise (snd m) (snd p)) masks ps -> args <> [] -> Forall (fun c => length c = length chunk) args ->
  exists prob, collection_prob masks chunk args = Ok prob /\ length prob = length chunk /\
    forall i, (i < length chunk)%nat ->
      (forall p, In (nth i chunk 0%Z, p) ps -> nth i prob 0 = p (map (fun c => nth i c 0) args)) /\
      (~ In (nth i chunk 0%Z) (map fst ps) -> nth i prob 0 = 1).
Proof. exact collection_rowwise. Qed.
(** Any mask is given the rows of its own chunk, and nothing else, and its answer goes to these rows, in order (one value is repeated). *)
Theorem C32_dispatch : forall masks chunk args prob, NoDup (map fst masks) -> collection_prob masks chunk args = Ok prob ->
  length prob = length chunk /\
  (forall k f, In (k, f) masks -> In k chunk -> exists new, f (map (rows_of k chunk) args) = Ok new /\
     (rows_of k chunk prob = new \/ exists v, new = [v] /\ rows_of k chunk prob = repeat v (length (rows_of k chunk prob)))) /\
  (forall k, ~ In k (map fst masks) -> rows_of k chunk prob = repeat 1 (length (rows_of k chunk prob))).
Proof.
  intros masks chunk args prob ND H. destruct (collection_fold args chunk masks _ prob ND (repeat_length _ _) H) as (L & St & Ot). split; auto. split.
  - intros k f I Ik. rewrite Forall_forall in St. apply (St _ I Ik).
  - intros k Nk. rewrite Ot by auto. apply rows_repeat.
Qed.
Print Assumptions C32_rows.
Print Assumptions C32_dispatch.
(** Two uniform radial masks, as in the tests of the package, are rowwise. *)
Definition radial_as_mask (nbar : R) (r : zrange) (cols : list (list R)) : result (list R) :=
  match cols with [z] => Ok (map (uniform_radial_prob nbar r) z) | _ => Err TypeError end.
Lemma radial_rowwise : forall nbar r z, exists out, radial_as_mask nbar r [z] = Ok out /\ length out = length z /\
  forall i, (i < length z)%nat -> nth i out 0 = uniform_radial_prob nbar r (nth i z 0).
Proof.
  intros nbar r z. eexists. split; [reflexivity|]. rewrite map_length. split; auto. intros i Hi.
  rewrite (nth_indep _ 0 (uniform_radial_prob nbar r 0)) by (rewrite map_length; auto). apply map_nth.
Qed.
(** Masks of one column written for any number of columns (the others are ignored) meet the hypothesis exactly. *)
Definition first_column (nbar : R) (r : zrange) (cols : list (list R)) : result (list R) := Ok (map (uniform_radial_prob nbar r) (hd [] cols)).
Example C32_case : exists prob, collection_prob [(1%Z, first_column (/2) (0, None)); (2%Z, first_column (/4) (1, None))] [2; 1; 3; 2]%Z [[2; 2; 2; 0]] = Ok prob /\
  nth 0 prob 0 = uniform_radial_prob (/4) (1, None) 2 /\ nth 1 prob 0 = uniform_radial_prob (/2) (0, None) 2 /\ nth 2 prob 0 = 1.
Proof.
  destruct (C32_rows [(1%Z, first_column (/2) (0, None)); (2%Z, first_column (/4) (1, None))]
    [(1%Z, fun row => uniform_radial_prob (/2) (0, None) (hd 0 row)); (2%Z, fun row => uniform_radial_prob (/4) (1, None) (hd 0 row))] [2; 1; 3; 2]%Z [[2; 2; 2; 0]]) as (prob & E & L & H).
  - cbn. constructor; [intros [C|[]]; discriminate|]. constructor; [intros []|constructor].
  - assert (G : forall nb r, rowwise (first_column nb r) (fun row => uniform_radial_prob nb r (hd 0 row))).
    { intros nb r n [|c cols] Ne F; [easy|]. inversion F; subst. eexists. split; [reflexivity|]. cbn [hd]. rewrite map_length. split; auto. intros i Hi.
      rewrite (nth_indep _ 0 (uniform_radial_prob nb r 0)) by (rewrite map_length; auto). rewrite map_nth. reflexivity. }
    apply Forall2_cons; [split; [reflexivity|apply G]|]. apply Forall2_cons; [split; [reflexivity|apply G]|]. apply Forall2_nil.
  - discriminate.
  - apply Forall_cons; [reflexivity|apply Forall_nil].
  - exists prob. split; auto. split; [|split].
    + rewrite (proj1 (H 0%nat ltac:(cbn; lia)) (fun row => uniform_radial_prob (/4) (1, None) (hd 0 row))); [reflexivity|right; left; reflexivity].
    + rewrite (proj1 (H 1%nat ltac:(cbn; lia)) (fun row => uniform_radial_prob (/2) (0, None) (hd 0 row))); [reflexivity|left; reflexivity].
    + apply (H 2%nat ltac:(cbn; lia)). cbn. intros [C|[C|[]]]; discriminate.
Qed.

(* ---------- C33 ---------- *)
(** The redshift bins: the edges given, or the first redshift, the midpoints and the last redshift. *)
Definition bin_edge (m : tmask) (zedges : option (list R)) (i : nat) : R :=
  match zedges with
  | Some e => nth i e 0
  | None => if Nat.eqb i 0 then hd 0 (t_z m) else if Nat.eqb i (length (t_z m)) then last (t_z m) 0 else (nth (i - 1) (t_z m) 0 + nth i (t_z m) 0) / 2
  end.
Lemma bin_edge_eq : forall m o i, (2 <= length (t_z m))%nat -> (i <= length (t_z m))%nat -> nth i (edges_of m o) 0 = bin_edge m o i.
Proof.
  intros m [e|] i N H; [reflexivity|]. unfold edges_of, default_zedges, bin_edge. destruct i as [|i]; [reflexivity|]. change (Nat.eqb (S i) 0) with false. cbn [app nth].
  destruct (Nat.eqb (S i) (length (t_z m))) eqn:E.
  - apply Nat.eqb_eq in E. rewrite app_nth2; rewrite midpoints_length; [|lia]. replace (i - pred (length (t_z m)))%nat with 0%nat by lia. reflexivity.
  - apply Nat.eqb_neq in E. rewrite app_nth1 by (rewrite midpoints_length; lia). rewrite midpoints_nth by lia. cbn [Nat.sub]. rewrite Nat.sub_0_r. reflexivity.
Qed.
(** Density times shell volume is kept in every bin; redshifts and range are unchanged. *)
Theorem C33_conserved : forall m distance_self distance_target zedges m', built m -> convert_to_cosmo m distance_self distance_target zedges = Ok m' ->
  t_z m' = t_z m /\ t_lo m' = t_lo m /\ t_hi m' = t_hi m /\ length (t_nbar m') = length (t_nbar m) /\
  forall i, (i < length (t_nbar m))%nat ->
    nth i (t_nbar m') 0 * shell_volume distance_target (bin_edge m zedges i) (bin_edge m zedges (S i)) =
    nth i (t_nbar m) 0 * shell_volume distance_self (bin_edge m zedges i) (bin_edge m zedges (S i)).
Proof.
  intros m d1 d2 o m' M H. apply built_well in M. destruct M as (_ & L & N & _). apply convert_inv in H. destruct H as ((n & E) & L1 & L2 & V). rewrite E. cbn [t_z t_lo t_hi]. rewrite <- E.
  repeat (split; [auto|]). intros i Hi. destruct (V i Hi) as [V1 V2]. rewrite !bin_edge_eq in V1, V2 by lia. rewrite V2. field. exact V1.
Qed.
(** Converting back restores the density; the same distances leave it unchanged. *)
Theorem C33_back : forall m distance_self distance_target zedges m' m'', built m ->
  convert_to_cosmo m distance_self distance_target zedges = Ok m' -> convert_to_cosmo m' distance_target distance_self zedges = Ok m'' -> t_nbar m'' = t_nbar m.
Proof.
  intros m d1 d2 o m' m'' M H H'. apply convert_inv in H. apply convert_inv in H'. destruct H as ((n & E) & L1 & L2 & V). destruct H' as ((n' & E') & L1' & L2' & V').
  assert (Ee : edges_of m' o = edges_of m o) by (unfold edges_of; destruct o; auto; rewrite E; reflexivity). rewrite Ee in *.
  apply nth_ext with 0 0; [lia|]. intros i Hi. destruct (V i ltac:(lia)) as [V1 V2]. destruct (V' i ltac:(lia)) as [V1' V2']. rewrite V2', V2. field. auto.
Qed.
Theorem C33_same_distances : forall m distance zedges m', built m -> convert_to_cosmo m distance distance zedges = Ok m' -> t_nbar m' = t_nbar m.
Proof.
  intros m d o m' M H. apply convert_inv in H. destruct H as ((n & E) & L1 & L2 & V). apply nth_ext with 0 0; [lia|]. intros i Hi. destruct (V i ltac:(lia)) as [V1 V2]. rewrite V2. field. auto.
Qed.
(** With increasing distances and edges the conversion succeeds, and so does converting back. *)
Theorem C33_succeeds : forall m distance_self distance_target zedges, built m ->
  (forall x y, x < y -> distance_self x < distance_self y) -> (forall x y, x < y -> distance_target x < distance_target y) ->
  (forall e, zedges = Some e -> length e = S (length (t_z m)) /\ increasing e = true) ->
  (exists z b, In (z, b) (combine (t_z m) (t_nbar m)) /\ t_lo m <= z <= t_hi m /\ 0 < b) ->
  exists m', convert_to_cosmo m distance_self distance_target zedges = Ok m' /\ exists m'', convert_to_cosmo m' distance_target distance_self zedges = Ok m''.
Proof.
  intros m d1 d2 o M D1 D2 He Hb. apply built_well in M. pose proof M as (S & L & N & _).
  assert (Q : sorted (edges_of m o) /\ length (edges_of m o) = Datatypes.S (length (t_z m))).
  { destruct o as [e|]; [destruct (He e eq_refl); auto|]. split; [apply default_edges_sorted; auto|]. apply default_edges_length. destruct (t_z m); [cbn in N; lia|discriminate]. }
  destruct Q as [Q1 Q2]. destruct (convert_ok m d1 d2 o M Q1 Q2 D1 D2 Hb) as (m' & E & W'). exists m'. split; auto.
  pose proof E as E0. apply convert_inv in E0. destruct E0 as ((n & E') & L1 & L2 & V).
  assert (Ee : edges_of m' o = edges_of m o) by (unfold edges_of; destruct o; auto; rewrite E'; reflexivity).
  assert (Ez : t_z m' = t_z m) by (rewrite E'; reflexivity). assert (El : t_lo m' = t_lo m) by (rewrite E'; reflexivity). assert (Eh : t_hi m' = t_hi m) by (rewrite E'; reflexivity).
  destruct (convert_ok m' d2 d1 o W') as (m'' & E'' & _); auto.
  - rewrite Ee; auto.
  - rewrite Ee, Ez; auto.
  - destruct Hb as (z & b & I & B & P). apply In_nth_error in I. destruct I as (i & I). apply nth_error_combine in I. destruct I as [Iz Ib].
    assert (Hi : (i < length (t_z m))%nat) by (apply nth_error_Some; congruence). exists z, (nth i (t_nbar m') 0). rewrite Ez, El, Eh. split; [|split; auto].
    + replace z with (nth i (t_z m) 0) by (apply nth_error_nth; auto). rewrite <- combine_nth by lia. apply nth_In. rewrite combine_length. lia.
    + destruct (V i ltac:(lia)) as [_ ->]. rewrite (nth_error_nth _ _ 0 Ib). assert (Lt : nth i (edges_of m o) 0 < nth (Datatypes.S i) (edges_of m o) 0) by (apply sorted_nth; auto; lia).
      apply Rdiv_lt_0_compat; [apply Rmult_lt_0_compat; auto|]; apply shell_pos; auto.
  - exists m''; auto.
Qed.
Print Assumptions C33_conserved.
Print Assumptions C33_back.
Print Assumptions C33_same_distances.
Print Assumptions C33_succeeds.
Example C33_case : exists m m', tabulated_new [0; 1; 2] [1; 4; 2] None None = Ok m /\ convert_to_cosmo m (fun z => 3 * z) (fun z => 2 * z) None = Ok m'.
Proof.
  eexists. destruct (C33_succeeds (TMask [0; 1; 2] [1; 4; 2] 0 2 (Some (/ 4))) (fun z => 3 * z) (fun z => 2 * z) None) as (m' & E & _).
  - exists [0; 1; 2], [1; 4; 2], None, None. apply hill_mask.
  - intros; lra.
  - intros; lra.
  - discriminate.
  - exists 1, 4. cbn. split; auto. lra.
  - exists m'. split; [apply hill_mask|exact E].
Qed.
