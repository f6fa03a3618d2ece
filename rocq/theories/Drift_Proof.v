(** Propagation of errors through the calls of an isometry. *)
Require Import Reals Lra Lia Psatz ZArith List Bool String.
From Verif Require Import Base Vec3 Isometry_Model Isometry_Proof Drift_Model Drift_Spec.
Import ListNotations.
Open Scope R_scope.

(** ** Lengths *)
Lemma vnorm_triangle : forall a b, vnorm (vadd a b) <= vnorm a + vnorm b.
Proof.
  intros a b. pose proof (vnorm_nonneg a). pose proof (vnorm_nonneg b). pose proof (vnorm_nonneg (vadd a b)).
  apply Rsqr_incr_0; unfold Rsqr; try lra. rewrite vnorm_sqr.
  replace (vdot (vadd a b) (vadd a b)) with (vdot a a + vdot b b + 2 * vdot a b) by vring.
  pose proof (cauchy_schwarz a b). pose proof (Rle_abs (vdot a b)). rewrite <- (vnorm_sqr a), <- (vnorm_sqr b). nra.
Qed.
Lemma vnorm_sub_le : forall a b c, vnorm (vsub a c) <= vnorm (vsub a b) + vnorm (vsub b c).
Proof. intros a b c. replace (vsub a c) with (vadd (vsub a b) (vsub b c)) by vring. apply vnorm_triangle. Qed.
Lemma vnorm_near : forall a b, vnorm a <= vnorm b + vnorm (vsub a b).
Proof. intros a b. replace a with (vadd b (vsub a b)) at 1 by vring. apply vnorm_triangle. Qed.
Lemma vnorm_sym : forall a b, vnorm (vsub a b) = vnorm (vsub b a).
Proof. intros a b. unfold vnorm. f_equal. vring. Qed.
Lemma vnorm_sum : forall v, vnorm v <= Rabs (vx v) + Rabs (vy v) + Rabs (vz v).
Proof.
  intros [a b c]. cbn. pose proof (Rabs_pos a). pose proof (Rabs_pos b). pose proof (Rabs_pos c).
  apply Rsqr_incr_0; unfold Rsqr; [|apply vnorm_nonneg|lra]. rewrite vnorm_sqr. vunfold.
  assert (A : forall x, x * x = Rabs x * Rabs x) by (intros x; rewrite <- Rabs_mult, Rabs_right; nra). rewrite (A a), (A b), (A c). nra.
Qed.
Lemma vnorm_mono : forall a b k, 0 <= k -> Rabs (vx a) <= k * Rabs (vx b) -> Rabs (vy a) <= k * Rabs (vy b) -> Rabs (vz a) <= k * Rabs (vz b) -> vnorm a <= k * vnorm b.
Proof.
  intros [a1 a2 a3] [b1 b2 b3] k K. cbn. intros A B C. pose proof (vnorm_nonneg (V b1 b2 b3)).
  apply Rsqr_incr_0; unfold Rsqr; [|apply vnorm_nonneg|nra].
  replace (k * vnorm (V b1 b2 b3) * (k * vnorm (V b1 b2 b3))) with (k * k * (vnorm (V b1 b2 b3) * vnorm (V b1 b2 b3))) by ring. rewrite !vnorm_sqr. vunfold.
  assert (S : forall x, x * x = Rabs x * Rabs x) by (intros x; rewrite <- Rabs_mult, Rabs_right; nra).
  assert (Q : forall x y, Rabs x <= k * Rabs y -> x * x <= k * k * (y * y)).
  { intros x y H1. rewrite (S x), (S y). pose proof (Rabs_pos x). pose proof (Rabs_pos y). apply Rle_trans with ((k * Rabs y) * (k * Rabs y)); [apply Rmult_le_compat; lra|right; ring]. }
  pose proof (Q _ _ A). pose proof (Q _ _ B). pose proof (Q _ _ C). lra.
Qed.
Lemma coord_le : forall v, Rabs (vx v) <= vnorm v /\ Rabs (vy v) <= vnorm v /\ Rabs (vz v) <= vnorm v.
Proof.
  intros [a b c]. assert (Q : forall x, x * x <= a * a + b * b + c * c -> Rabs x <= vnorm (V a b c)).
  { intros x H. apply Rsqr_incr_0; unfold Rsqr; [|apply Rabs_pos|apply vnorm_nonneg]. rewrite vnorm_sqr. rewrite <- Rabs_mult, Rabs_right by nra. vunfold. lra. }
  cbn. repeat split; apply Q; nra.
Qed.
Lemma vnorm_l1 : forall v, Rabs (vx v) + Rabs (vy v) + Rabs (vz v) <= 2 * vnorm v.
Proof.
  intros [a b c]. cbn. pose proof (Rabs_pos a). pose proof (Rabs_pos b). pose proof (Rabs_pos c). pose proof (vnorm_nonneg (V a b c)).
  apply Rsqr_incr_0; unfold Rsqr; try lra. replace (2 * vnorm (V a b c) * (2 * vnorm (V a b c))) with (4 * (vnorm (V a b c) * vnorm (V a b c))) by ring. rewrite vnorm_sqr. vunfold.
  assert (S : forall x, x * x = Rabs x * Rabs x) by (intros x; rewrite <- Rabs_mult, Rabs_right; nra). rewrite (S a), (S b), (S c).
  revert H H0 H1. generalize (Rabs a), (Rabs b), (Rabs c). clear. intros x y z X Y Z.
  pose proof (Rle_0_sqr (x - y)) as S1. pose proof (Rle_0_sqr (x - z)) as S2. pose proof (Rle_0_sqr (y - z)) as S3. unfold Rsqr in S1, S2, S3. pose proof (Rle_0_sqr x) as X1. pose proof (Rle_0_sqr y) as X2. pose proof (Rle_0_sqr z) as X3. unfold Rsqr in X1, X2, X3. lra.
Qed.

(** ** Matrices near a rotation *)
Lemma near_norm : forall eps a b v, is_rotation b -> near eps a b -> vnorm (mapply a v) <= (1 + eps) * vnorm v.
Proof.
  intros eps a b v B H. specialize (H v). pose proof (vnorm_near (mapply a v) (mapply b v)) as T. rewrite (rot_preserves_norm b v B) in T. lra.
Qed.
Lemma near_trans : forall eps a b, 0 <= eps -> near eps a b -> near eps (mtrans a) (mtrans b).
Proof.
  intros eps a b P H x. set (d := vsub (mapply (mtrans a) x) (mapply (mtrans b) x)). pose proof (vnorm_nonneg d) as D. pose proof (vnorm_nonneg x) as X.
  assert (E : vnorm d * vnorm d = vdot x (vsub (mapply a d) (mapply b d))).
  { rewrite vnorm_sqr. unfold d. clear. destruct a as [ [] [] []], b as [ [] [] []], x. vunfold. ring. }
  pose proof (cauchy_schwarz x (vsub (mapply a d) (mapply b d))) as C. specialize (H d). pose proof (Rle_abs (vdot x (vsub (mapply a d) (mapply b d)))) as A.
  destruct (Rle_lt_or_eq_dec _ _ D) as [Q|Z]; [|rewrite <- Z; nra].
  apply Rmult_le_reg_r with (vnorm d); auto. rewrite E. apply Rle_trans with (vnorm x * (eps * vnorm d)); [|right; ring].
  apply Rle_trans with (1 := A). apply Rle_trans with (1 := C). apply Rmult_le_compat_l; auto.
Qed.
Lemma near_weak : forall e e' a b, e <= e' -> near e a b -> near e' a b.
Proof. intros e e' a b L H v. specialize (H v). pose proof (vnorm_nonneg v). nra. Qed.
Lemma unit_norms : vnorm (V 1 0 0) = 1 /\ vnorm (V 0 1 0) = 1 /\ vnorm (V 0 0 1) = 1.
Proof. repeat split; apply vnorm_unit; vunfold; ring. Qed.
Lemma col_norms : forall k a, (forall v, vnorm (mapply a v) <= k * vnorm v) -> vnorm (col0 a) <= k /\ vnorm (col1 a) <= k /\ vnorm (col2 a) <= k.
Proof.
  intros k a H. destruct unit_norms as (U0 & U1 & U2). pose proof (H (V 1 0 0)) as H0. pose proof (H (V 0 1 0)) as H1. pose proof (H (V 0 0 1)) as H2. rewrite U0 in H0. rewrite U1 in H1. rewrite U2 in H2.
  replace (mapply a (V 1 0 0)) with (col0 a) in H0 by vring. replace (mapply a (V 0 1 0)) with (col1 a) in H1 by vring. replace (mapply a (V 0 0 1)) with (col2 a) in H2 by vring. lra.
Qed.
Lemma row_norms : forall k a, 0 <= k -> (forall v, vnorm (mapply a v) <= k * vnorm v) -> vnorm (row0 a) <= k /\ vnorm (row1 a) <= k /\ vnorm (row2 a) <= k.
Proof.
  intros k a K H. assert (Q : forall r, vnorm r * vnorm r <= vnorm (mapply a r) -> vnorm r <= k).
  { intros r Hr. specialize (H r). pose proof (vnorm_nonneg r) as N. destruct (Rle_lt_or_eq_dec _ _ N) as [P|P]; [|lra]. apply Rmult_le_reg_r with (vnorm r); auto. lra. }
  assert (C : forall r c, c = vdot r r -> Rabs c <= vnorm (mapply a r) -> vnorm r <= k).
  { intros r c E L. apply Q. rewrite vnorm_sqr, <- E. pose proof (Rle_abs c). lra. }
  repeat split; eapply C; try reflexivity; [pose proof (coord_le (mapply a (row0 a))) as P|pose proof (coord_le (mapply a (row1 a))) as P|pose proof (coord_le (mapply a (row2 a))) as P];
    unfold mapply in P at 1 3 5; cbn [vx vy vz] in P; apply P.
Qed.

(** ** Steps *)
Section Steps.
Variables (rnd : R -> R) (dot3 : vec -> vec -> R) (u g eps : R).
Hypothesis ARND : accurate u rnd.
Hypothesis ADOT : accurate_dot g dot3.
Hypothesis U0 : 0 <= u.
Hypothesis UE : u <= eps.
Hypothesis G0 : 0 <= g.
Hypothesis GE : 6 * g <= eps.

Lemma eps0 : 0 <= eps. Proof. lra. Qed.
(** [rho - 1] bounds the error of the matrix, [(phi - 1) * t] that of the vector, of length at most [t]. *)
Lemma apply_close : forall a b rho v w phi t, 1 <= rho -> 1 <= phi -> is_rotation b -> near (rho - 1) a b -> vnorm w <= t -> vnorm (vsub v w) <= (phi - 1) * t ->
  vnorm (vsub (fl_apply dot3 a v) (mapply b w)) <= ((1 + eps) * rho * phi - 1) * t.
Proof.
  intros a b rho v w phi t Hr Hp B N W D.
  assert (T : 0 <= t) by (pose proof (vnorm_nonneg w); lra).
  assert (NV : vnorm v <= phi * t) by (pose proof (vnorm_near v w); lra). pose proof (vnorm_nonneg v) as V0.
  assert (NA : forall x, vnorm (mapply a x) <= rho * vnorm x) by (intros x; pose proof (near_norm _ a b x B N); lra).
  destruct (row_norms rho a ltac:(lra) NA) as (R0 & R1 & R2).
  assert (E1 : vnorm (vsub (fl_apply dot3 a v) (mapply a v)) <= 6 * g * rho * (phi * t)).
  { eapply Rle_trans; [apply vnorm_sum|]. unfold fl_apply, mapply, vsub. cbn [vx vy vz].
    assert (Q : forall r, vnorm r <= rho -> Rabs (dot3 r v - vdot r v) <= g * rho * (phi * t)).
    { intros r Hn. eapply Rle_trans; [apply ADOT|]. rewrite Rmult_assoc. apply Rmult_le_compat_l; auto. apply Rmult_le_compat; auto using vnorm_nonneg. }
    pose proof (Q _ R0). pose proof (Q _ R1). pose proof (Q _ R2). assert (0 <= g * rho * (phi * t)) by (repeat apply Rmult_le_pos; lra). lra. }
  assert (E2 : vnorm (vsub (mapply a v) (mapply b v)) <= (rho - 1) * (phi * t)) by (eapply Rle_trans; [apply N|apply Rmult_le_compat_l; lra]).
  assert (E3 : vnorm (vsub (mapply b v) (mapply b w)) <= (phi - 1) * t) by (rewrite <- mapply_sub, rot_preserves_norm by auto; auto).
  pose proof (vnorm_sub_le (fl_apply dot3 a v) (mapply a v) (mapply b w)). pose proof (vnorm_sub_le (mapply a v) (mapply b v) (mapply b w)).
  assert (6 * g * rho * (phi * t) <= eps * rho * (phi * t)) by (repeat apply Rmult_le_compat_r; try lra; apply Rmult_le_pos; lra). lra.
Qed.
Lemma mul_close : forall a b c d rho sig, 1 <= rho -> 1 <= sig -> is_rotation b -> is_rotation d -> near (rho - 1) a b -> near (sig - 1) c d ->
  near ((1 + eps) * rho * sig - 1) (fl_mul dot3 a c) (mmul b d).
Proof.
  intros a b c d rho sig Hr Hs B D N1 N2 v.
  assert (NA : forall x, vnorm (mapply a x) <= rho * vnorm x) by (intros x; pose proof (near_norm _ a b x B N1); lra).
  assert (NC : forall x, vnorm (mapply c x) <= sig * vnorm x) by (intros x; pose proof (near_norm _ c d x D N2); lra).
  destruct (row_norms rho a ltac:(lra) NA) as (R0 & R1 & R2). destruct (col_norms sig c NC) as (C0 & C1 & C2).
  pose proof (vnorm_nonneg v) as V0. pose proof (vnorm_l1 v) as L1.
  assert (E1 : vnorm (vsub (mapply (fl_mul dot3 a c) v) (mapply (mmul a c) v)) <= 6 * g * (rho * sig) * vnorm v).
  { eapply Rle_trans; [apply vnorm_sum|].
    assert (Q : forall r, vnorm r <= rho -> Rabs (vdot (V (dot3 r (col0 c)) (dot3 r (col1 c)) (dot3 r (col2 c))) v - vdot (V (vdot r (col0 c)) (vdot r (col1 c)) (vdot r (col2 c))) v) <= 2 * g * (rho * sig) * vnorm v).
    { intros r Hn. assert (P : forall k, vnorm k <= sig -> Rabs (dot3 r k - vdot r k) <= g * (rho * sig)).
      { intros k Hk. eapply Rle_trans; [apply ADOT|]. apply Rmult_le_compat_l; auto. apply Rmult_le_compat; auto using vnorm_nonneg. }
      pose proof (P _ C0) as P0. pose proof (P _ C1) as P1. pose proof (P _ C2) as P2.
      set (x0 := dot3 r (col0 c)) in *. set (x1 := dot3 r (col1 c)) in *. set (x2 := dot3 r (col2 c)) in *. set (y0 := vdot r (col0 c)) in *. set (y1 := vdot r (col1 c)) in *. set (y2 := vdot r (col2 c)) in *.
      unfold vdot at 1 2. cbn [vx vy vz]. replace (x0 * vx v + x1 * vy v + x2 * vz v - (y0 * vx v + y1 * vy v + y2 * vz v)) with ((x0 - y0) * vx v + (x1 - y1) * vy v + (x2 - y2) * vz v) by ring.
      eapply Rle_trans; [apply Rabs_triang|]. eapply Rle_trans; [apply Rplus_le_compat_r, Rabs_triang|]. rewrite !Rabs_mult.
      assert (K : 0 <= g * (rho * sig)) by (repeat apply Rmult_le_pos; lra).
      pose proof (Rmult_le_compat_r _ _ _ (Rabs_pos (vx v)) P0). pose proof (Rmult_le_compat_r _ _ _ (Rabs_pos (vy v)) P1). pose proof (Rmult_le_compat_r _ _ _ (Rabs_pos (vz v)) P2).
      pose proof (Rmult_le_compat_l _ _ _ K L1). lra. }
    unfold mapply, fl_mul, mmul, vsub. cbn [vx vy vz row0 row1 row2]. pose proof (Q _ R0). pose proof (Q _ R1). pose proof (Q _ R2). lra. }
  assert (E2 : vnorm (vsub (mapply (mmul a c) v) (mapply b (mapply c v))) <= (rho - 1) * (sig * vnorm v)).
  { rewrite mapply_mul. eapply Rle_trans; [apply N1|]. apply Rmult_le_compat_l; [lra|apply NC]. }
  assert (E3 : vnorm (vsub (mapply b (mapply c v)) (mapply (mmul b d) v)) <= (sig - 1) * vnorm v) by (rewrite mapply_mul, <- mapply_sub, rot_preserves_norm by auto; apply N2).
  pose proof (vnorm_sub_le (mapply (fl_mul dot3 a c) v) (mapply (mmul a c) v) (mapply (mmul b d) v)). pose proof (vnorm_sub_le (mapply (mmul a c) v) (mapply b (mapply c v)) (mapply (mmul b d) v)).
  assert (6 * g * (rho * sig) * vnorm v <= eps * (rho * sig) * vnorm v) by (repeat apply Rmult_le_compat_r; try lra; apply Rmult_le_pos; lra). lra.
Qed.
Lemma vadd_close : forall a b a' b' phi t t', 1 <= phi -> vnorm a' <= t -> vnorm b' <= t' -> vnorm (vsub a a') <= (phi - 1) * t -> vnorm (vsub b b') <= (phi - 1) * t' ->
  vnorm (vsub (fl_vadd rnd a b) (vadd a' b')) <= ((1 + eps) * phi - 1) * (t + t').
Proof.
  intros a b a' b' phi t t' Hp A B DA DB.
  assert (E1 : vnorm (vsub (fl_vadd rnd a b) (vadd a b)) <= u * vnorm (vadd a b)) by (apply vnorm_mono; cbn; auto; apply ARND).
  pose proof (vnorm_triangle a b). pose proof (vnorm_near a a'). pose proof (vnorm_near b b').
  assert (E2 : vnorm (vsub (vadd a b) (vadd a' b')) <= (phi - 1) * (t + t')).
  { replace (vsub (vadd a b) (vadd a' b')) with (vadd (vsub a a') (vsub b b')) by vring. pose proof (vnorm_triangle (vsub a a') (vsub b b')). lra. }
  pose proof (vnorm_sub_le (fl_vadd rnd a b) (vadd a b) (vadd a' b')). pose proof (vnorm_nonneg a'). pose proof (vnorm_nonneg b').
  assert (u * vnorm (vadd a b) <= eps * (phi * (t + t'))). { apply Rmult_le_compat; auto using vnorm_nonneg. lra. } lra.
Qed.

(** ** The invariant *)
Notation e := (1 + eps).
Definition close (j m : nat) (L : R) (s sh : iso) : Prop :=
  is_rotation (rot s) /\ near (e ^ j - 1) (rot sh) (rot s) /\ vnorm (tra s) <= L /\ vnorm (vsub (tra sh) (tra s)) <= (e ^ m - 1) * L /\ (j <= m)%nat.
Lemma pow_ge : forall n, 1 <= e ^ n. Proof. intros n. apply pow_R1_Rle. pose proof eps0. lra. Qed.
Lemma pow_mono : forall n m, (n <= m)%nat -> e ^ n <= e ^ m. Proof. intros n m H. apply Rle_pow; auto. pose proof eps0. lra. Qed.
Lemma rot_trans : forall m, is_rotation m -> is_rotation (mtrans m).
Proof. intros m [A B]. pose proof (is_rotation_trans m (conj A B)) as C. split; [rewrite mtrans_mtrans; auto|rewrite mdet_trans; auto]. Qed.
Lemma near_refl : forall k a, 0 <= k -> near k a a.
Proof. intros k a K v. rewrite vsub_self, vnorm_vzero. pose proof (vnorm_nonneg v). nra. Qed.

Lemma close_new : close 0 0 0 iso_new iso_new.
Proof. unfold close. cbn. split; [apply is_rotation_mid|]. split; [apply near_refl; lra|]. rewrite vsub_self, vnorm_vzero. repeat split; try lra; auto. Qed.
Lemma close_dot : forall j m L s sh i a f, close j m L s sh -> is_rotation i -> near eps a i ->
  close (j + 2) (m + 2) L (fst (iso_dot s i f)) (fst (fl_iso_dot dot3 sh a f)).
Proof.
  intros j m L s sh i a f (R & N & T & D & J) RI NI. pose proof (pow_ge j). pose proof (pow_ge m). pose proof eps0 as E0.
  assert (NM : near (e ^ (j + 2) - 1) (fl_mul dot3 a (rot sh)) (mmul i (rot s))).
  { replace (e ^ (j + 2)) with (e * e * e ^ j) by (rewrite pow_add; ring). apply mul_close; auto; [lra|]. replace (e - 1) with eps by ring. auto. }
  assert (L0 : 0 <= L) by (pose proof (vnorm_nonneg (tra s)); lra).
  assert (W : vnorm (vsub (tra sh) (tra s)) <= (e ^ (m + 2) - 1) * L) by (pose proof (pow_mono m (m + 2) ltac:(lia)); eapply Rle_trans; [apply D|apply Rmult_le_compat_r; lra]).
  unfold iso_dot, fl_iso_dot. destruct (String.eqb f "origin"); [|destruct (String.eqb f "current")]; unfold close; cbn [fst rot tra]; repeat split; auto; try lia; try (apply is_rotation_mul; auto); try apply is_rotation_mul; auto.
  - rewrite rot_preserves_norm; auto.
  - replace (e ^ (m + 2)) with (e * e * e ^ m) by (rewrite pow_add; ring). apply apply_close; auto; [lra|]. replace (e - 1) with eps by ring. auto.
Qed.
Lemma close_translation : forall j m L s sh sft ax f, close j m L s sh ->
  close j (m + 2) (L + match shift_vector sft ax with Ok v => vnorm v | Err _ => 0 end) (fst (iso_translation s sft ax f)) (fst (fl_iso_translation rnd dot3 sh sft ax f)).
Proof.
  intros j m L s sh sft ax f (R & N & T & D & J). pose proof (pow_ge j). pose proof (pow_ge m). pose proof eps0 as E0.
  assert (L0 : 0 <= L) by (pose proof (vnorm_nonneg (tra s)); lra). pose proof (pow_mono m (m + 2) ltac:(lia)) as M2. pose proof (pow_mono (j + 1) (m + 1) ltac:(lia)) as JM. pose proof (pow_mono m (m + 1) ltac:(lia)) as M1.
  unfold iso_translation, fl_iso_translation. destruct (shift_vector sft ax) as [v|er]; [|unfold close; cbn [fst]; repeat split; auto; try apply R; try lra; try lia].
  2:{ rewrite Rplus_0_r. eapply Rle_trans; [apply D|apply Rmult_le_compat_r; lra]. }
  pose proof (vnorm_nonneg v) as V0. replace (m + 2)%nat with (S (m + 1)) by lia.
  destruct (String.eqb f "current"); [|destruct (String.eqb f "origin")]; unfold close; cbn [fst rot tra]; (split; [exact R|split; [exact N|split; [|split; [|lia] ] ] ]).
  - eapply Rle_trans; [apply vnorm_triangle|]. unfold tensordot1. rewrite rot_preserves_norm by auto. lra.
  - cbn [pow]. apply vadd_close; auto; [apply pow_ge|unfold tensordot1; rewrite rot_preserves_norm; auto; lra|eapply Rle_trans; [apply D|apply Rmult_le_compat_r; lra]|].
    assert (A : vnorm (vsub (fl_apply dot3 (rot sh) v) (mapply (rot s) v)) <= (e * e ^ j * 1 - 1) * vnorm v) by (apply apply_close; auto; try lra; rewrite vsub_self, vnorm_vzero; lra).
    unfold tensordot1. eapply Rle_trans; [apply A|]. apply Rmult_le_compat_r; auto. replace (e ^ (j + 1)) with (e * e ^ j) in JM by (rewrite pow_add; ring). lra.
  - eapply Rle_trans; [apply vnorm_triangle|]. lra.
  - cbn [pow]. apply vadd_close; auto; [apply pow_ge|lra|eapply Rle_trans; [apply D|apply Rmult_le_compat_r; lra]|]. rewrite vsub_self, vnorm_vzero. pose proof (pow_ge (m + 1)). apply Rmult_le_pos; lra.
  - lra.
  - pose proof (pow_ge (S (m + 1))). replace (m + 2)%nat with (S (m + 1)) in M2 by lia. eapply Rle_trans; [apply D|]. apply Rmult_le_compat; lra.
Qed.
Lemma close_reset_rotation : forall j m L s sh f, close j m L s sh -> exists j' m', (j' + m' <= j + m + 4)%nat /\
  close j' m' L (fst (iso_reset_rotation s f)) (fst (fl_iso_reset_rotation dot3 sh f)).
Proof.
  intros j m L s sh f (R & N & T & D & J). pose proof (pow_ge j). pose proof (pow_ge m). unfold iso_reset_rotation, fl_iso_reset_rotation.
  destruct (String.eqb f "origin"); [|destruct (String.eqb f "current")]; cbn [fst].
  - exists 0%nat, (1 + j + m)%nat. split; [lia|]. unfold close. cbn [rot tra]. split; [apply is_rotation_mid|]. split; [apply near_refl; cbn; lra|].
    pose proof (rot_trans _ R) as RT. split; [rewrite rot_preserves_norm; auto|]. split; [|lia].
    replace (e ^ (1 + j + m)) with (e * e ^ j * e ^ m) by (rewrite !pow_add, pow_1; ring). apply apply_close; auto. apply near_trans; auto. lra.
  - exists 0%nat, m. split; [lia|]. unfold close. cbn [rot tra]. split; [apply is_rotation_mid|]. split; [apply near_refl; cbn; lra|]. repeat split; auto. lia.
  - exists j, m. split; [lia|]. unfold close. repeat split; auto; apply R.
Qed.
Lemma close_reset_translate : forall j m L s sh, close j m L s sh -> close j m L (fst (iso_reset_translate s)) (fst (iso_reset_translate sh)).
Proof.
  intros j m L s sh (R & N & T & D & J). assert (L0 : 0 <= L) by (pose proof (vnorm_nonneg (tra s)); lra). pose proof (pow_ge m). unfold close, iso_reset_translate. cbn [fst rot tra].
  rewrite vsub_self, vnorm_vzero. repeat split; auto; try apply R. apply Rmult_le_pos; lra.
Qed.
Lemma close_step : forall j m L s sh j' m' L' s' sh', close j m L s sh -> close j' m' L' s' sh' ->
  close (j + j' + 1) (Nat.max (m + j' + 1) m' + 1) (L + L') (iso_concat_step s s') (fl_iso_concat_step rnd dot3 sh sh').
Proof.
  intros j m L s sh j' m' L' s' sh' (R & N & T & D & J) (R' & N' & T' & D' & J'). pose proof (pow_ge j). pose proof (pow_ge m). pose proof (pow_ge j'). pose proof (pow_ge m').
  assert (L0 : 0 <= L) by (pose proof (vnorm_nonneg (tra s)); lra). assert (L0' : 0 <= L') by (pose proof (vnorm_nonneg (tra s')); lra).
  unfold close, iso_concat_step, fl_iso_concat_step. cbn [rot tra]. split; [apply is_rotation_mul; auto|]. split; [|split; [|split; [|lia] ] ].
  - replace (e ^ (j + j' + 1)) with (e * e ^ j' * e ^ j) by (rewrite !pow_add, pow_1; ring). apply mul_close; auto.
  - eapply Rle_trans; [apply vnorm_triangle|]. unfold tensordot1. rewrite rot_preserves_norm by auto. lra.
  - set (k := Nat.max (m + j' + 1) m'). replace (e ^ (k + 1)) with (e * e ^ k) by (rewrite pow_add; ring). apply vadd_close; auto; [apply pow_ge|unfold tensordot1; rewrite rot_preserves_norm; auto| |].
    + pose proof (pow_mono (m + j' + 1) k ltac:(lia)) as P. unfold tensordot1. eapply Rle_trans; [apply (apply_close (rot sh') (rot s') (e ^ j') (tra sh) (tra s) (e ^ m) L); auto|].
      apply Rmult_le_compat_r; auto. replace (e ^ (m + j' + 1)) with (e * e ^ j' * e ^ m) in P by (rewrite !pow_add, pow_1; ring). lra.
    + pose proof (pow_mono m' k ltac:(lia)). eapply Rle_trans; [apply D'|]. apply Rmult_le_compat_r; lra.
Qed.
Lemma close_add : forall j m L s sh j' m' L' s' sh', close j m L s sh -> close j' m' L' s' sh' -> exists i k, (i + k <= (j + m) + (j' + m') + 8)%nat /\
  close i k (L + L') (iso_add s s') (fl_iso_add rnd dot3 sh sh').
Proof.
  intros j m L s sh j' m' L' s' sh' C C'. pose proof (close_step _ _ _ _ _ _ _ _ _ _ (close_step _ _ _ _ _ _ _ _ _ _ close_new C) C') as K. rewrite Rplus_0_l in K.
  eexists _, _. split; [|exact K]. destruct C as (_ & _ & _ & _ & J). destruct C' as (_ & _ & _ & _ & J'). lia.
Qed.
Lemma transform_close : forall j m L s sh ti v, close j m L s sh -> vnorm (vsub (fl_transform rnd dot3 sh ti v) (transform s ti v)) <= (e ^ (m + 2) - 1) * (L + vnorm v).
Proof.
  intros j m L s sh ti v (R & N & T & D & J). pose proof (pow_ge j). pose proof (pow_ge m). pose proof eps0 as E0. pose proof (vnorm_nonneg v) as V0.
  assert (L0 : 0 <= L) by (pose proof (vnorm_nonneg (tra s)); lra).
  assert (A : vnorm (vsub (fl_apply dot3 (rot sh) v) (mapply (rot s) v)) <= (e ^ (j + 1) - 1) * vnorm v).
  { replace (e ^ (j + 1)) with (e * e ^ j * 1) by (rewrite pow_add; ring). apply apply_close; auto; try lra. rewrite vsub_self, vnorm_vzero. lra. }
  unfold transform, fl_transform, tensordot1. destruct ti.
  - eapply Rle_trans; [apply A|]. pose proof (pow_mono (j + 1) (m + 2) ltac:(lia)). pose proof (pow_ge (j + 1)). apply Rmult_le_compat; lra.
  - replace (e ^ (m + 2)) with (e * e ^ (m + 1)) by (rewrite !pow_add; ring). rewrite (Rplus_comm L). apply vadd_close; auto; [apply pow_ge|rewrite rot_preserves_norm; auto; lra| |].
    + pose proof (pow_mono (j + 1) (m + 1) ltac:(lia)). eapply Rle_trans; [apply A|]. apply Rmult_le_compat_r; lra.
    + pose proof (pow_mono m (m + 1) ltac:(lia)). eapply Rle_trans; [apply D|]. apply Rmult_le_compat_r; lra.
Qed.
End Steps.
