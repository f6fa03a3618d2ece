(** Proofs about right ascension ranges. *)
Require Import Reals Lra Lia ZArith List Bool.
From Verif Require Import Base Vec3 Sky_Model Sky_Proof Mask_Model Mask_Spec.
Import ListNotations.
Open Scope R_scope.

Definition ra_test (r : R * R) (ra : R) : bool :=
  if Rleb (fst r) (snd r) then Rleb (fst r) ra && Rleb ra (snd r) else Rleb (fst r) ra || Rleb ra (snd r).
Lemma ra_test_true : forall a b x, ra_test (a, b) x = true <-> (a <= b /\ a <= x <= b) \/ (b < a /\ (a <= x \/ x <= b)).
Proof.
  intros a b x. unfold ra_test. cbn [fst snd]. destruct (Rleb a b) eqn:E.
  - apply Rleb_true in E. rewrite andb_true_iff. split.
    + intros [A B]. apply Rleb_true in A, B. left; auto.
    + intros [[_ [A B]]|[C _]]; [split; apply Rleb_true; auto|lra].
  - apply Rleb_false in E. rewrite orb_true_iff. split.
    + intros [A|A]; apply Rleb_true in A; right; auto.
    + intros [[C _]|[_ [A|A]]]; [lra|left|right]; apply Rleb_true; auto.
Qed.
Lemma mask_ranges_split : forall r d ra dec, mask_ranges r d ra dec = true <-> ra_test r ra = true /\ fst d <= dec <= snd d.
Proof.
  intros r d ra dec. unfold mask_ranges. fold (ra_test r ra). rewrite andb_true_iff. rewrite andb_true_iff. split.
  - intros [A [B C]]. apply Rleb_true in B, C. auto.
  - intros [A [B C]]. split; auto. split; apply Rleb_true; auto.
Qed.

Lemma wrap360 : forall x, exists k : Z, wrap_angle true x = x + 360 * IZR k /\ 0 <= x + 360 * IZR k < 360.
Proof.
  intros x. destruct (wrap_congr true x) as (k & E). pose proof (wrap_range true x) as W. unfold turn in *. exists k.
  rewrite E in W |- *. split; [ring|]. lra.
Qed.
Lemma small_zero : forall t : Z, -1 < IZR t < 1 -> t = 0%Z.
Proof. intros t [A B]. apply lt_IZR in A, B. lia. Qed.
Lemma small_three : forall t : Z, -2 < IZR t < 2 -> t = (-1)%Z \/ t = 0%Z \/ t = 1%Z.
Proof. intros t [A B]. apply lt_IZR in A, B. lia. Qed.

(** Ranges written downwards, such as (300, 40). *)
Lemma arc_down : forall lo hi ra, hi <= lo -> (ra_test (angular_rarange (Some (lo, hi))) (wrap_angle true ra) = true <-> on_arc lo hi ra).
Proof.
  intros lo hi ra H. unfold angular_rarange. destruct (Rltb lo hi) eqn:D; [apply Rltb_true in D; lra|]. cbn [andb].
  destruct (wrap360 lo) as (i & Ea & Ra). destruct (wrap360 hi) as (j & Eb & Rb). destruct (wrap360 ra) as (m & Er & Rr).
  rewrite Ea, Eb, Er. rewrite ra_test_true. unfold on_arc. split.
  - intros C. right. split; auto. destruct C as [[C1 C2]|[C1 C2]].
    + exists (j - i)%Z, (m - i)%Z. rewrite !minus_IZR. lra.
    + destruct C2 as [C2|C2].
      * exists (j - i + 1)%Z, (m - i)%Z. rewrite plus_IZR, !minus_IZR. lra.
      * exists (j - i + 1)%Z, (m - i + 1)%Z. rewrite !plus_IZR, !minus_IZR. lra.
  - intros [[C _]|(_ & j' & k' & C1 & C2)]; [lra|].
    assert (J : IZR (j' - j + i) = IZR j' - IZR j + IZR i) by (rewrite plus_IZR, minus_IZR; ring).
    assert (K : IZR (k' - m + i) = IZR k' - IZR m + IZR i) by (rewrite plus_IZR, minus_IZR; ring).
    assert (J3 : -2 < IZR (j' - j + i) < 2) by lra. assert (K3 : -2 < IZR (k' - m + i) < 2) by lra.
    apply small_three in J3. apply small_three in K3.
    destruct J3 as [J3|[J3|J3]]; destruct K3 as [K3|[K3|K3]]; rewrite J3 in J; rewrite K3 in K; lra.
Qed.

(** Ordered ranges that do not cross a multiple of 360. *)
Lemma arc_up : forall lo hi ra k, lo < hi -> 360 * IZR k <= lo -> hi < 360 * (IZR k + 1) ->
  (ra_test (angular_rarange (Some (lo, hi))) (wrap_angle true ra) = true <-> on_arc lo hi ra).
Proof.
  intros lo hi ra k H K1 K2. unfold angular_rarange. destruct (Rltb lo hi) eqn:D; [|apply Rltb_false in D; lra]. cbn [andb].
  destruct (wrap360 lo) as (i & Ea & Ra). destruct (wrap360 hi) as (j & Eb & Rb). destruct (wrap360 ra) as (m & Er & Rr).
  rewrite Ea, Eb, Er.
  assert (I : IZR (i + k) = IZR i + IZR k) by apply plus_IZR. assert (J : IZR (j + k) = IZR j + IZR k) by apply plus_IZR.
  assert (I0 : (i + k)%Z = 0%Z) by (apply small_zero; lra). assert (J0 : (j + k)%Z = 0%Z) by (apply small_zero; lra).
  rewrite I0 in I. rewrite J0 in J. destruct (Rleb (hi + 360 * IZR j) (lo + 360 * IZR i)) eqn:E; [apply Rleb_true in E; lra|]. apply Rleb_false in E.
  rewrite ra_test_true. unfold on_arc. split.
  - intros [[C1 C2]|[C1 _]]; [|lra]. left. split; auto. exists (m + k)%Z. rewrite plus_IZR. lra.
  - intros [[_ (k' & C)]|[C _]]; [|lra]. left. split; [lra|].
    assert (T : IZR (k' - m - k) = IZR k' - IZR m - IZR k) by (rewrite !minus_IZR; ring).
    assert (T0 : (k' - m - k)%Z = 0%Z) by (apply small_zero; lra). rewrite T0 in T. lra.
Qed.

(** The whole circle. *)
Lemma arc_whole : forall lo hi ra k, lo = 360 * IZR k -> hi = lo + 360 ->
  ra_test (angular_rarange (Some (lo, hi))) (wrap_angle true ra) = true /\ on_arc lo hi ra.
Proof.
  intros lo hi ra k -> ->. unfold angular_rarange. destruct (Rltb _ _) eqn:D; [|apply Rltb_false in D; lra]. cbn [andb].
  destruct (wrap360 (360 * IZR k)) as (i & Ea & Ra). destruct (wrap360 (360 * IZR k + 360)) as (j & Eb & Rb). destruct (wrap360 ra) as (m & Er & Rr).
  rewrite Ea, Eb, Er.
  assert (I : IZR (i + k) = IZR i + IZR k) by apply plus_IZR. assert (J : IZR (j + k + 1) = IZR j + IZR k + 1) by (rewrite !plus_IZR; ring).
  assert (I0 : (i + k)%Z = 0%Z) by (apply small_zero; lra). assert (J0 : (j + k + 1)%Z = 0%Z) by (apply small_zero; lra).
  rewrite I0 in I. rewrite J0 in J. destruct (Rleb _ _) eqn:E; [|apply Rleb_false in E; lra]. split.
  - apply ra_test_true. left. lra.
  - left. split; [lra|]. exists (m + k)%Z. rewrite plus_IZR. lra.
Qed.

(** Ordered ranges that cross a multiple of 360, such as (-60, 40): the origin of right ascension is not selected. *)
Lemma arc_crossing : forall lo hi k, lo < 360 * IZR k < hi -> hi - lo <= 360 ->
  on_arc lo hi 0 /\ ra_test (angular_rarange (Some (lo, hi))) (wrap_angle true 0) = false.
Proof.
  intros lo hi k H W. split.
  - left. split; [lra|]. exists k. lra.
  - destruct (ra_test _ _) eqn:T; auto. exfalso. revert T. unfold angular_rarange. destruct (Rltb lo hi) eqn:D; [|apply Rltb_false in D; lra]. cbn [andb].
    destruct (wrap360 lo) as (i & Ea & Ra). destruct (wrap360 hi) as (j & Eb & Rb). destruct (wrap360 0) as (m & Er & Rr). rewrite Ea, Eb, Er.
    assert (I : IZR (i + k - 1) = IZR i + IZR k - 1) by (rewrite minus_IZR, plus_IZR; ring). assert (J : IZR (j + k) = IZR j + IZR k) by (rewrite plus_IZR; ring).
    assert (I0 : (i + k - 1)%Z = 0%Z) by (apply small_zero; lra). assert (J0 : (j + k)%Z = 0%Z) by (apply small_zero; lra).
    assert (M0 : m = 0%Z) by (apply small_zero; lra). subst m. rewrite I0 in I. rewrite J0 in J.
    destruct (Rleb (hi + 360 * IZR j) (lo + 360 * IZR i)) eqn:E; [|apply Rleb_false in E; lra]. rewrite ra_test_true. lra.
Qed.

Lemma default_arc : forall ra, ra_test (angular_rarange None) (wrap_angle true ra) = true.
Proof. intros ra. cbn. destruct (wrap360 ra) as (m & -> & Rr). apply ra_test_true. left. lra. Qed.

Definition selects (rarange decrange : option (R * R)) (ra dec : R) : bool :=
  mask_ranges (angular_rarange rarange) (angular_decrange decrange) (wrap_angle true ra) dec.

Lemma selects_arc : forall lo hi decrange ra dec, plain_range lo hi ->
  (selects (Some (lo, hi)) decrange ra dec = true <-> on_arc lo hi ra /\ fst (angular_decrange decrange) <= dec <= snd (angular_decrange decrange)).
Proof.
  intros lo hi decrange ra dec H. unfold selects. rewrite mask_ranges_split.
  assert (E : ra_test (angular_rarange (Some (lo, hi))) (wrap_angle true ra) = true <-> on_arc lo hi ra).
  { destruct (Rle_lt_dec hi lo) as [C|C]; [apply arc_down; auto|]. destruct H as [H|[(k & K1 & K2)|(k & K1 & K2)]]; [lra|apply arc_up with k; auto|].
    destruct (arc_whole lo hi ra k K1 K2) as [A B]. tauto. }
  tauto.
Qed.
