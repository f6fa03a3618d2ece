(** Proofs about the normalisation, change of cosmology, collections and right ascension ranges of masks. *)
Require Import Reals Lra Lia ZArith List Bool.
From Verif Require Import Base Vec3 Sky_Model Sky_Proof Cutsky_Model Box_Model Box_Proof2 Box_Proof3 Box_Proof4 Remap_Model Remap_Proof2 Mask_Model Mask_Spec Mask_Proof.
Import ListNotations.
Open Scope R_scope.

(* ---------- normalisation ---------- *)
Definition fsum (m : tmask) (z w : list R) (n : R) : R := Rsum (map (fun x => tprob m n (fst x) * snd x) (combine z w)).

Lemma map_result_pure : forall {A B} (f : A -> result B) (g : A -> B) l, (forall a, In a l -> f a = Ok (g a)) -> map_result f l = Ok (map g l).
Proof.
  induction l as [|a l IH]; intros H; [reflexivity|]. cbn. rewrite (H a) by (left; auto). cbn [bind]. rewrite IH; [reflexivity|]. intros x I. apply H. right; auto.
Qed.
Lemma combine_map_l : forall {A B C} (f : A -> C) (a : list A) (b : list B), combine (map f a) b = map (fun x => (f (fst x), snd x)) (combine a b).
Proof. induction a as [|x a IH]; intros [|y b]; cbn; auto. f_equal. apply IH. Qed.
Lemma csum_ok : forall m n z w, well m -> length w = length z -> csum_prob (with_norm m n) z w = Ok (fsum m z w n).
Proof.
  intros m n z w W L. unfold csum_prob. rewrite (map_result_pure _ (tprob m n)) by (intros; apply well_prob; auto). cbn [bind].
  rewrite map_length, L, Nat.eqb_refl. f_equal. unfold fsum. rewrite combine_map_l, map_map. reflexivity.
Qed.

Lemma fsum_mono : forall m z w a b, well m -> Forall (fun x => 0 <= x) w -> 0 <= a <= b -> fsum m z w a <= fsum m z w b.
Proof.
  intros m z w a b W F H. unfold fsum.
  assert (T : forall x, tprob m a x <= tprob m b x).
  { intros x. unfold tprob. destruct (between _ _ x); [|lra]. destruct W as (S & _ & _ & P). apply lin_mono; auto.
    clear -P H. induction P as [|y l Py P IH]; cbn; constructor; auto.
    apply Rle_min_compat_r. nra. }
  revert w F. induction z as [|x z IH]; intros [|y w] F; cbn; try lra. inversion F as [|? ? F0 F1]; subst. specialize (IH w F1). specialize (T x).
  cbn in IH. unfold Rsum in *. nra.
Qed.

Lemma fsum_zero : forall m z w, well m -> fsum m z w 0 = 0.
Proof.
  intros m z w W. unfold fsum.
  assert (T : forall x, tprob m 0 x = 0).
  { intros x. unfold tprob. destruct (between _ _ x); auto. 
    replace (map (fun b => Rmin (0 * b) 1) (t_nbar m)) with (map (fun b => 0 * b) (t_nbar m)).
    - rewrite lin_scale. ring.
    - apply map_ext. intros b. rewrite Rmult_0_l, Rmin_left; lra. }
  revert w. induction z as [|x z IH]; intros [|y w]; cbn; auto. rewrite T. specialize (IH w). unfold Rsum in IH. rewrite IH. ring.
Qed.

Lemma fsum_continuity : forall m z w, continuity (fsum m z w).
Proof.
  intros m z w.
  assert (T : forall x, continuity (fun n => tprob m n x)).
  { intros x. unfold tprob. destruct (between _ _ x); [|intros t; apply continuity_pt_const; intros ? ?; reflexivity].
    intros t. apply continuity_pt_ext with (f := fun n => lin (t_z m) (map (fun f => f n) (map (fun b n => Rmin (n * b) 1) (t_nbar m))) x).
    { intros n. rewrite map_map. reflexivity. }
    apply lin_continuous. apply Forall_forall. intros g I. apply in_map_iff in I. destruct I as (b & <- & _).
    apply Rmin_continuity; [|intros u; apply continuity_pt_const; intros ? ?; reflexivity].
    intros u. apply continuity_pt_ext with (f := (id * fct_cte b)%F); [reflexivity|].
    apply continuity_pt_mult; [apply derivable_continuous_pt, derivable_pt_id|apply continuity_pt_const; intros ? ?; reflexivity]. }
  intros t. apply continuity_pt_ext with (f := fun n => Rsum (map (fun f => f n) (map (fun x n => tprob m n (fst x) * snd x) (combine z w)))).
  { intros n. unfold fsum. rewrite map_map. reflexivity. }
  apply Rsum_continuity. apply Forall_forall. intros g I. apply in_map_iff in I. destruct I as (x & <- & _). intros u.
  apply continuity_pt_ext with (f := ((fun n => tprob m n (fst x)) * fct_cte (snd x))%F); [reflexivity|].
  apply continuity_pt_mult; [apply T|apply continuity_pt_const; intros ? ?; reflexivity].
Qed.

(** Beyond the inverse of the lowest density, all tabulated points are saturated. *)
Lemma list_min_pos : forall l, l <> [] -> Forall (fun b => 0 < b) l -> 0 < list_min l.
Proof.
  intros [|a l] H F; [easy|]. cbn. clear H. inversion F as [|? ? A B]; subst. clear F. revert a A. induction l as [|b l IH]; intros a A; auto.
  inversion B; subst. cbn. apply IH; auto. unfold Rmin. destruct (Rle_dec a b); auto.
Qed.
Definition positive (m : tmask) : list R := filter (fun b => Rltb 0 b) (t_nbar m).
Lemma positive_pos : forall m, Forall (fun b => 0 < b) (positive m).
Proof. intros m. apply Forall_forall. intros x I. apply filter_In in I. destruct I as [_ B]. apply Rltb_true in B. auto. Qed.
Lemma fsum_saturated : forall m z w n, well m -> positive m <> [] -> 1 / list_min (positive m) <= n -> fsum m z w n = fsum m z w (1 / list_min (positive m)).
Proof.
  intros m z w n W Ne H. unfold fsum. f_equal. apply map_ext_in. intros x _. f_equal. unfold tprob. destruct (between _ _ _); auto. f_equal.
  apply map_ext_in. intros b I. destruct W as (_ & _ & _ & P). rewrite Forall_forall in P. specialize (P b I).
  pose proof (list_min_pos _ Ne (positive_pos m)) as Pm. set (mn := list_min (positive m)) in *.
  destruct (Rle_lt_or_eq_dec _ _ P) as [Pb|<-]; [|rewrite !Rmult_0_r; reflexivity].
  assert (Hb : mn <= b). { apply list_min_le. apply filter_In. split; auto. apply Rltb_true; auto. }
  assert (Q : 1 <= 1 / mn * b). { apply Rmult_le_reg_l with mn; auto. replace (mn * (1 / mn * b)) with b by (field; lra). lra. }
  assert (1 / mn * b <= n * b) by (apply Rmult_le_compat_r; lra). rewrite !Rmin_right; lra.
Qed.

(** The loop of normalize on fixed weights. *)
Definition opt_weights (weights : option (list R)) (z : list R) : list R := match weights with Some w => w | None => repeat 1 (length z) end.
Lemma normalization_ok : forall m t z ws n, well m -> t <> 0 -> length (opt_weights ws z) = length z ->
  normalization m t z ws n = Ok (fsum m z (opt_weights ws z) n / t - 1).
Proof.
  intros m t z ws n W T L. unfold normalization, integral. change (TMask _ _ _ _ _) with (with_norm m n). destruct ws as [w|]; cbn [bind opt_weights] in *.
  - rewrite csum_ok; auto. cbn [bind]. rewrite fdiv_ok; auto.
  - rewrite csum_ok; auto. cbn [bind]. rewrite fdiv_ok; auto.
Qed.

Definition search (brentq : (R -> result R) -> R -> R -> result R) (m : tmask) (t : R) (z : list R) (ws : option (list R)) : result tmask :=
  match positive m with
  | [] => Err ValueError
  | l => do norm <- brentq (normalization m t z ws) 0 (1 / list_min l); prepare m (Some norm)
  end.

Lemma search_unfold : forall brentq m t z ws, positive m <> [] ->
  search brentq m t z ws = do norm <- brentq (normalization m t z ws) 0 (1 / list_min (positive m)); prepare m (Some norm).
Proof. intros. unfold search. destruct (positive m); [easy|reflexivity]. Qed.

Lemma search_ends : forall m, positive m <> [] -> 0 < 1 / list_min (positive m).
Proof. intros m H. pose proof (list_min_pos _ H (positive_pos m)). apply Rdiv_lt_0_compat; lra. Qed.

Lemma search_sound : forall brentq m t z ws m', root_finder brentq -> well m -> t <> 0 -> length (opt_weights ws z) = length z ->
  search brentq m t z ws = Ok m' -> exists n, 0 <= n /\ m' = with_norm m n /\ fsum m z (opt_weights ws z) n = t.
Proof.
  intros brentq m t z ws m' B W T L H. assert (Ne : positive m <> []) by (intros E; unfold search in H; rewrite E in H; discriminate).
  rewrite search_unfold in H; auto. destruct (B (normalization m t z ws) _ _ (search_ends m Ne)) as (B1 & _).
  destruct (brentq _ _ _) as [n|] eqn:E; [|discriminate]. cbn [bind] in H. destruct (B1 n eq_refl) as [Rn Z].
  rewrite well_prepare in H; auto. injection H as <-. exists n. split; [lra|]. split; [reflexivity|].
  rewrite normalization_ok in Z; auto. injection Z as Z. assert (fsum m z (opt_weights ws z) n / t = 1) by lra.
  apply Rmult_eq_reg_r with (/ t); [|apply Rinv_neq_0_compat; auto]. rewrite Rinv_r; auto.
Qed.

Lemma search_reachable : forall brentq m t z ws, root_finder brentq -> well m -> 0 < t -> length (opt_weights ws z) = length z ->
  Forall (fun x => 0 <= x) (opt_weights ws z) -> (exists n, 0 <= n /\ t <= fsum m z (opt_weights ws z) n) -> exists m', search brentq m t z ws = Ok m'.
Proof.
  intros brentq m t z ws B W T L F (n & Hn & H).
  assert (Ne : positive m <> []).
  { intros E. assert (fsum m z (opt_weights ws z) n = fsum m z (opt_weights ws z) 0).
    { unfold fsum. f_equal. apply map_ext_in. intros x _. f_equal. unfold tprob. destruct (between _ _ _); auto. f_equal. apply map_ext_in. intros b I.
      destruct W as (_ & _ & _ & P). rewrite Forall_forall in P. specialize (P b I). destruct (Rle_lt_or_eq_dec _ _ P) as [Pb|<-]; [|rewrite !Rmult_0_r; reflexivity].
      assert (In b (positive m)) by (apply filter_In; split; auto; apply Rltb_true; auto). rewrite E in *. easy. }
    rewrite fsum_zero in H0; auto. lra. }
  rewrite search_unfold; auto. pose proof (search_ends m Ne) as Pe. destruct (B (normalization m t z ws) _ _ Pe) as (B1 & _ & B3).
  destruct (B3 (fun n => fsum m z (opt_weights ws z) n / t - 1)) as [B4 _].
  - intros x _. apply normalization_ok; auto. lra.
  - intros u. apply continuity_pt_ext with (f := (fsum m z (opt_weights ws z) * fct_cte (/ t) - fct_cte 1)%F); [reflexivity|].
    apply continuity_pt_minus; [|apply continuity_pt_const; intros ? ?; reflexivity].
    apply continuity_pt_mult; [apply fsum_continuity|apply continuity_pt_const; intros ? ?; reflexivity].
  - destruct B4 as (x & E).
    + rewrite fsum_zero; auto.
      assert (G : t <= fsum m z (opt_weights ws z) (1 / list_min (positive m))).
      { destruct (Rle_lt_dec n (1 / list_min (positive m))) as [C|C].
        - apply Rle_trans with (1 := H). apply fsum_mono; auto.
        - rewrite <- (fsum_saturated m z _ n); auto. lra. }
      assert (1 <= fsum m z (opt_weights ws z) (1 / list_min (positive m)) / t).
      { apply Rmult_le_reg_r with t; auto. unfold Rdiv. rewrite Rmult_assoc, Rinv_l by lra. lra. }
      unfold Rdiv at 1. rewrite Rmult_0_l. nra.
    + rewrite E. cbn [bind]. exists (with_norm m x). apply well_prepare; auto.
Qed.

Lemma search_unreachable : forall brentq m t z ws, root_finder brentq -> well m -> 0 < t -> length (opt_weights ws z) = length z ->
  (forall n, 0 <= n -> fsum m z (opt_weights ws z) n < t) -> search brentq m t z ws = Err ValueError.
Proof.
  intros brentq m t z ws B W T L H. destruct (positive m) as [|b l] eqn:E; [unfold search; rewrite E; reflexivity|].
  assert (Ne : positive m <> []) by (rewrite E; discriminate). rewrite search_unfold; auto. pose proof (search_ends m Ne) as Pe.
  destruct (B (normalization m t z ws) _ _ Pe) as (B1 & _ & B3). destruct (B3 (fun n => fsum m z (opt_weights ws z) n / t - 1)) as [_ B4].
  - intros x _. apply normalization_ok; auto. lra.
  - intros u. apply continuity_pt_ext with (f := (fsum m z (opt_weights ws z) * fct_cte (/ t) - fct_cte 1)%F); [reflexivity|].
    apply continuity_pt_minus; [|apply continuity_pt_const; intros ? ?; reflexivity].
    apply continuity_pt_mult; [apply fsum_continuity|apply continuity_pt_const; intros ? ?; reflexivity].
  - rewrite B4; [reflexivity|]. rewrite fsum_zero; auto. specialize (H (1 / list_min (positive m)) ltac:(lra)).
    assert (fsum m z (opt_weights ws z) (1 / list_min (positive m)) / t < 1).
    { apply Rmult_lt_reg_r with t; auto. unfold Rdiv. rewrite Rmult_assoc, Rinv_l by lra. lra. }
    unfold Rdiv at 1. rewrite Rmult_0_l. nra.
Qed.

Lemma normalize_weights : forall brentq m t z w, 0 <= t <= 1 -> Rsum w <> 0 ->
  normalize brentq m t z (Some w) = search brentq m t z (Some (map (fun x => x / Rsum w) w)).
Proof.
  intros brentq m t z w T S. unfold normalize. assert (E : Rleb 0 t && Rleb t 1 = true) by (apply andb_true_iff; split; apply Rleb_true; lra). rewrite E.
  rewrite (map_result_pure _ (fun x => x / Rsum w)) by (intros; apply fdiv_ok; auto). reflexivity.
Qed.
Lemma normalize_plain : forall brentq m t z, 0 <= t <= 1 -> normalize brentq m t z None = search brentq m t z None.
Proof.
  intros brentq m t z T. unfold normalize. assert (E : Rleb 0 t && Rleb t 1 = true) by (apply andb_true_iff; split; apply Rleb_true; lra). rewrite E. reflexivity.
Qed.
Lemma fsum_scaled : forall m z w n s, s <> 0 -> fsum m z (map (fun x => x / s) w) n = fsum m z w n / s.
Proof.
  intros m z w n s H. unfold fsum. revert z. induction w as [|y w IH]; intros [|x z]; cbn; try (unfold Rdiv; ring).
  specialize (IH z). unfold Rsum in IH. cbn in IH. rewrite IH. field. auto.
Qed.
Lemma fsum_ones : forall m z n, fsum m z (repeat 1 (length z)) n = Rsum (map (tprob m n) z).
Proof. intros. unfold fsum. induction z as [|x z IH]; cbn; auto. unfold Rsum in IH. rewrite IH. ring. Qed.
