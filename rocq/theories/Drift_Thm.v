(** C83: moves stay rigid under rounding. *)
Require Import String Reals Lra Lia Psatz ZArith List Bool.
From Flocq Require Import Core Relative.
From Verif Require Import Base Vec3 Isometry_Model Isometry_Spec Isometry_Proof Round_Model Round_Spec Drift_Model Drift_Spec Drift_Proof Drift_Proof2.
Import ListNotations.
Open Scope R_scope.

Section Drift.
Variables (rnd : R -> R) (dot3 : vec -> vec -> R) (fcos fsin : R -> R) (u g eps : R).
Hypothesis ARND : accurate u rnd.
Hypothesis ADOT : accurate_dot g dot3.
Hypothesis ACOS : accurate_fun (2 * u) fcos cos.
Hypothesis ASIN : accurate_fun (2 * u) fsin sin.
Hypothesis U0 : 0 <= u.
Hypothesis UE : u <= eps.
Hypothesis G0 : 0 <= g.
Hypothesis GE : 6 * g <= eps.
Hypothesis E1 : eps <= 1 / 5.

Lemma program_close : forall p, fine u eps p -> exists j m, (j + m <= 4 * calls p)%nat /\ close eps j m (travel p) (exact p) (computed rnd dot3 fcos fsin p).
Proof.
  induction p as [|p IH i a f|p IH angle ax d f|p IH sft ax f|p IH f|p IH|p IHp q IHq]; cbn [fine calls travel exact computed]; intros F.
  - exists 0%nat, 0%nat. split; [lia|]. apply close_new.
  - destruct F as (F & RI & NI). destruct (IH F) as (j & m & J & C). exists (j + 2)%nat, (m + 2)%nat. split; [lia|]. eapply (close_dot dot3 u g); eauto.
  - destruct F as (F & SM). destruct (IH F) as (j & m & J & C). pose proof (Rabs_pos (radians angle d)) as T0. assert (0 <= u * Rabs (radians angle d)) by (apply Rmult_le_pos; lra).
    pose proof (matrix_close rnd fcos fsin u ARND ACOS ASIN U0 ltac:(lra) ax angle d ltac:(lra)) as MC. revert MC. unfold iso_rotation, fl_iso_rotation. cbv zeta.
    destruct (get_los ax) as [w|e], (fl_get_los rnd ax) as [v|e']; cbn [bind].
    + destruct (rotation_matrix_from_vector_angle _ _) as [mx|], (fl_rotation_matrix rnd fcos fsin _ _) as [mh|]; intros MC; try tauto.
      * destruct MC as [RM NM]. exists (j + 2)%nat, (m + 2)%nat. split; [lia|]. eapply (close_dot dot3 u g); eauto. eapply near_weak; eauto.
      * exists j, m. split; [lia|auto].
    + destruct (rotation_matrix_from_vector_angle _ _); [tauto|]. intros _. exists j, m. split; [lia|auto].
    + destruct (fl_rotation_matrix rnd fcos fsin _ _); [tauto|]. intros _. exists j, m. split; [lia|auto].
    + intros _. exists j, m. split; [lia|auto].
  - destruct (IH F) as (j & m & J & C). exists j, (m + 2)%nat. split; [lia|]. eapply (close_translation rnd dot3 u g); eauto.
  - destruct (IH F) as (j & m & J & C). destruct (close_reset_rotation dot3 u g eps ADOT U0 UE G0 GE _ _ _ _ _ f C) as (j' & m' & J' & C'). exists j', m'. split; [lia|auto].
  - destruct (IH F) as (j & m & J & C). exists j, m. split; [lia|]. eapply (close_reset_translate u); eauto.
  - destruct F as [Fp Fq]. destruct (IHp Fp) as (j & m & J & C). destruct (IHq Fq) as (j' & m' & J' & C').
    destruct (close_add rnd dot3 u g eps ARND ADOT U0 UE G0 GE _ _ _ _ _ _ _ _ _ _ C C') as (i & k & I & K). exists i, k. split; [lia|auto].
Qed.

(** C83 *)
(** After any program, the computed position of any object is within ((1 + eps)^(4 n + 2) - 1) (L + |v|) of where the exact rigid
    motion puts it, for n calls and translations of total length L. [eps] is the accuracy of one call: six times that of a sum of
    products, and 4000 u (1 + |angle|) for the matrices of rotation(). Velocities (ti = true) as well. *)
Theorem C83_positions : forall p ti v, fine u eps p ->
  vnorm (vsub (fl_transform rnd dot3 (computed rnd dot3 fcos fsin p) ti v) (transform (exact p) ti v)) <= ((1 + eps) ^ (4 * calls p + 2) - 1) * (travel p + vnorm v).
Proof.
  intros p ti v F. destruct (program_close p F) as (j & m & J & C). eapply Rle_trans; [apply (transform_close rnd dot3 u g eps ARND ADOT U0 UE G0 GE j m); exact C|].
  apply Rmult_le_compat_r; [destruct C as (_ & _ & T & _); pose proof (vnorm_nonneg (tra (exact p))); pose proof (vnorm_nonneg v); lra|].
  assert ((1 + eps) ^ (m + 2) <= (1 + eps) ^ (4 * calls p + 2)) by (apply Rle_pow; [lra|lia]). lra.
Qed.

(** Hence distances between objects are kept, within the two bounds. *)
Theorem C83_distances : forall p v w, fine u eps p ->
  Rabs (vnorm (vsub (fl_transform rnd dot3 (computed rnd dot3 fcos fsin p) false v) (fl_transform rnd dot3 (computed rnd dot3 fcos fsin p) false w)) - vnorm (vsub v w)) <=
  ((1 + eps) ^ (4 * calls p + 2) - 1) * (2 * travel p + vnorm v + vnorm w).
Proof.
  intros p v w F. pose proof (C83_positions p false v F) as A. pose proof (C83_positions p false w F) as B.
  destruct (program_close p F) as (_ & _ & _ & (R & _)).
  assert (D : vnorm (vsub (transform (exact p) false v) (transform (exact p) false w)) = vnorm (vsub v w)).
  { unfold transform, tensordot1. replace (vsub (vadd (mapply (rot (exact p)) v) (tra (exact p))) (vadd (mapply (rot (exact p)) w) (tra (exact p)))) with (mapply (rot (exact p)) (vsub v w)) by vring.
    apply rot_preserves_norm, R. }
  set (a := fl_transform _ _ _ _ v) in *. set (b := fl_transform _ _ _ _ w) in *. set (a' := transform _ _ v) in *. set (b' := transform _ _ w) in *.
  pose proof (vnorm_sub_le a a' b) as T1. pose proof (vnorm_sub_le a' b' b) as T2. pose proof (vnorm_sub_le a' a b') as T3. pose proof (vnorm_sub_le a b b') as T4.
  rewrite (vnorm_sym b' b) in T2. rewrite (vnorm_sym a' a) in T3. apply Rabs_le. lra.
Qed.

(** ** Moving and moving back *)
Inductive move : Type := MTranslate (v : vec) | MTurn (ideal given : mat) | MRotate (angle : R) (axis : axis_arg) (degree : bool).
Definition go (p : prog) (m : move) : prog :=
  match m with
  | MTranslate v => PTranslation p (ShVec v) AxNone "origin"
  | MTurn ideal given => PDot p ideal given "origin"
  | MRotate angle axis degree => PRotation p angle axis degree "origin"
  end.
Definition back (m : move) : move :=
  match m with
  | MTranslate v => MTranslate (vopp v)
  | MTurn ideal given => MTurn (mtrans ideal) (mtrans given)
  | MRotate angle axis degree => MRotate (- angle) axis degree
  end.
Definition fine_move (m : move) : Prop :=
  match m with
  | MTranslate _ => True
  | MTurn ideal given => is_rotation ideal /\ near eps given ideal
  | MRotate angle _ degree => 4000 * u * (1 + Rabs (radians angle degree)) <= eps
  end.
Definition way (m : move) : R := match m with MTranslate v => vnorm v | _ => 0 end.

Definition act (m : move) (s : iso) : iso :=
  match m with
  | MTranslate v => fst (iso_translation s (ShVec v) AxNone "origin")
  | MTurn ideal _ => fst (iso_dot s ideal "origin")
  | MRotate angle axis degree => fst (iso_rotation s angle axis degree "origin")
  end.
Lemma exact_go : forall ms p, exact (fold_left go ms p) = fold_left (fun s m => act m s) ms (exact p).
Proof. induction ms as [|m ms IH]; intros p; cbn; auto. rewrite IH. destruct m; reflexivity. Qed.
Lemma act_back : forall m s, fine_move m -> act (back m) (act m s) = s.
Proof.
  intros [v|i a|angle ax d] s F; cbn [act back].
  - unfold iso_translation. cbn. destruct s as [r t]. cbn. f_equal. vring.
  - destruct F as [RI _]. unfold iso_dot. cbn. destruct s as [r t]. cbn. rewrite mmul_assoc, <- mapply_mul, is_rotation_trans, mmul_id_l, mapply_id by auto. reflexivity.
  - unfold iso_rotation. destruct (get_los ax) as [w|] eqn:W; auto. pose proof (get_los_unit ax w W) as W1.
    rewrite !(rotation_matrix_eq (AxVec w) _ w) by (cbn [get_los]; apply normalize_of_unit; auto).
    set (t := (if d then angle else angle * 180 / PI) * PI / 180). replace ((if d then - angle else - angle * 180 / PI) * PI / 180) with (- t) by (unfold t; pose proof PI_RGT_0; destruct d; field; lra).
    assert (K : mmul (axis_rot w (cos (- t)) (sin (- t))) (axis_rot w (cos t) (sin t)) = mid).
    { rewrite axis_rot_mul, cos_neg, sin_neg by auto. replace (cos t * cos t - - sin t * sin t) with 1 by (pose proof (sin2_cos2 t); unfold Rsqr in *; lra).
      replace (- sin t * cos t + cos t * sin t) with 0 by ring. apply axis_rot_id. }
    unfold iso_dot. cbn. destruct s as [r tt]. cbn. rewrite mmul_assoc, <- mapply_mul, K, mmul_id_l, mapply_id. reflexivity.
Qed.
Lemma round_trip : forall ms s, Forall fine_move ms -> fold_left (fun s m => act m s) (ms ++ rev (map back ms)) s = s.
Proof.
  induction ms as [|m ms IH]; intros s F; cbn; auto. inversion F; subst. rewrite app_assoc, fold_left_app, IH by auto. cbn. apply act_back; auto.
Qed.
Lemma fine_go : forall ms p, fine u eps p -> Forall fine_move ms -> fine u eps (fold_left go ms p).
Proof. induction ms as [|m ms IH]; intros p F FM; cbn; auto. inversion FM; subst. apply IH; auto. destruct m; cbn in *; auto. Qed.
Lemma fine_back : forall m, fine_move m -> fine_move (back m).
Proof.
  intros [v|i a|angle ax d]; cbn; auto.
  - intros [R N]. split; [apply rot_trans; auto|]. apply near_trans; auto. lra.
  - unfold radians. destruct d; [replace (- angle * PI / 180) with (- (angle * PI / 180)) by field|]; rewrite Rabs_Ropp; auto.
Qed.
Lemma calls_go : forall ms p, calls (fold_left go ms p) = (length ms + calls p)%nat.
Proof. induction ms as [|m ms IH]; intros p; cbn; auto. rewrite IH. destruct m; cbn; lia. Qed.
Lemma travel_go : forall ms p, travel (fold_left go ms p) = travel p + Rsum (map way ms).
Proof. induction ms as [|m ms IH]; intros p; cbn; [ring|]. rewrite IH. unfold Rsum. destruct m; cbn; ring. Qed.
Lemma way_back : forall ms, Rsum (map way (rev (map back ms))) = Rsum (map way ms).
Proof.
  assert (A : forall a b, Rsum (a ++ b) = Rsum a + Rsum b) by (intros a b; unfold Rsum; induction a as [|x a IH]; cbn; [ring|rewrite IH; ring]).
  induction ms as [|m ms IH]; cbn; auto. rewrite map_app, A, IH. unfold Rsum. cbn. destruct m as [v| |]; cbn; try ring.
  replace (vnorm (vopp v)) with (vnorm v); [ring|]. unfold vnorm. f_equal. vring.
Qed.
(** Any moves (translations, matrices, rotations) followed by the opposite moves in reverse order bring every object back within the
    bound; n is the number of moves, L the length of the translations. *)
Theorem C83_back : forall ms v, Forall fine_move ms ->
  vnorm (vsub (fl_transform rnd dot3 (computed rnd dot3 fcos fsin (fold_left go (ms ++ rev (map back ms)) PNew)) false v) v) <=
  ((1 + eps) ^ (8 * length ms + 2) - 1) * (2 * Rsum (map way ms) + vnorm v).
Proof.
  intros ms v F. set (p := fold_left go (ms ++ rev (map back ms)) PNew).
  assert (FB : Forall fine_move (rev (map back ms))). { apply Forall_rev. clear - F E1 UE U0. induction F; cbn; constructor; auto. apply fine_back; auto. }
  assert (FP : fine u eps p) by (apply fine_go; [exact I|apply Forall_app; auto]).
  pose proof (C83_positions p false v FP) as C.
  assert (EX : exact p = iso_new) by (unfold p; rewrite exact_go; apply round_trip; auto). rewrite EX in C.
  replace (transform iso_new false v) with v in C by (unfold transform, iso_new, tensordot1; cbn [rot tra]; rewrite mapply_id, vadd_0_r; auto).
  assert (N : calls p = (2 * length ms)%nat) by (unfold p; rewrite calls_go, app_length, rev_length, map_length; cbn; lia). rewrite N in C.
  assert (T : travel p = 2 * Rsum (map way ms)).
  { unfold p. rewrite travel_go, map_app. assert (A : forall a b, Rsum (a ++ b) = Rsum a + Rsum b) by (intros a b; unfold Rsum; induction a as [|x a IH]; cbn; [ring|rewrite IH; ring]).
    rewrite A, way_back. cbn. ring. }
  rewrite T in C. replace (4 * (2 * length ms) + 2)%nat with (8 * length ms + 2)%nat in C by lia. exact C.
Qed.
End Drift.
Print Assumptions C83_positions.
Print Assumptions C83_distances.
Print Assumptions C83_back.

(** The bound is at most twice what one adds call by call, as long as this is less than a half. *)
Theorem C83_linear : forall eps k, 0 <= eps -> INR k * eps <= 1 / 2 -> (1 + eps) ^ k - 1 <= 2 * INR k * eps.
Proof.
  intros eps k E K. assert (B : forall j, INR j * eps <= 1 / 2 -> (1 + eps) ^ j * (1 - INR j * eps) <= 1).
  { induction j as [|j IH]; intros H; [cbn; lra|]. rewrite S_INR in *. cbn [pow]. assert (P : 0 <= (1 + eps) ^ j) by (apply pow_le; lra). pose proof (pos_INR j).
    assert (Q : INR j * eps <= 1 / 2) by lra. specialize (IH Q). assert (0 <= INR j * eps) by (apply Rmult_le_pos; lra).
    assert ((1 + eps) * (1 - (INR j + 1) * eps) <= 1 - INR j * eps) by nra. nra. }
  specialize (B k K). assert (0 <= INR k * eps) by (apply Rmult_le_pos; [apply pos_INR|lra]). set (x := INR k * eps) in *. set (y := (1 + eps) ^ k) in *.
  replace (2 * INR k * eps) with (2 * x) by (unfold x; ring). assert (0 <= y) by (apply pow_le; lra). nra.
Qed.
Print Assumptions C83_linear.

(** Sums of products computed from left to right have the accuracy asked for. *)
Theorem C83_left : forall u rnd, 0 <= u <= 1 / 10 -> accurate u rnd -> accurate_dot (4 * u) (dot3_left rnd).
Proof.
  intros u rnd U A [a1 a2 a3] [b1 b2 b3]. unfold dot3_left, vdot. cbn [vx vy vz].
  assert (CS : Rabs (a1 * b1) + Rabs (a2 * b2) + Rabs (a3 * b3) <= vnorm (V a1 a2 a3) * vnorm (V b1 b2 b3)).
  { pose proof (cauchy_schwarz (V (Rabs a1) (Rabs a2) (Rabs a3)) (V (Rabs b1) (Rabs b2) (Rabs b3))) as C. unfold vdot at 1 in C. cbn [vx vy vz] in C.
    rewrite !Rabs_mult. assert (Q : forall x y z, vnorm (V (Rabs x) (Rabs y) (Rabs z)) = vnorm (V x y z)).
    { intros x y z. unfold vnorm. f_equal. vunfold. rewrite <- !Rabs_mult, !Rabs_right by nra. reflexivity. }
    rewrite !Q in C. eapply Rle_trans; [apply Rle_abs|exact C]. }
  assert (S : forall x, Rabs (rnd x) <= (1 + u) * Rabs x) by (intros x; specialize (A x); replace (rnd x) with (x + (rnd x - x)) by ring; pose proof (Rabs_triang x (rnd x - x)); lra).
  set (x := a1 * b1) in *. set (y := a2 * b2) in *. set (z := a3 * b3) in *.
  pose proof (A x) as A1. pose proof (A y) as A2. pose proof (A z) as A3. pose proof (A (rnd x + rnd y)) as A4. pose proof (A (rnd (rnd x + rnd y) + rnd z)) as A5.
  pose proof (S x) as S1. pose proof (S y) as S2. pose proof (S z) as S3. pose proof (S (rnd x + rnd y)) as S4. pose proof (Rabs_triang (rnd x) (rnd y)) as T1. pose proof (Rabs_triang (rnd (rnd x + rnd y)) (rnd z)) as T2.
  pose proof (Rabs_pos x) as P1. pose proof (Rabs_pos y) as P2. pose proof (Rabs_pos z) as P3.
  replace (rnd (rnd (rnd x + rnd y) + rnd z) - (x + y + z)) with ((rnd (rnd (rnd x + rnd y) + rnd z) - (rnd (rnd x + rnd y) + rnd z)) + ((rnd (rnd x + rnd y) - (rnd x + rnd y)) + ((rnd x - x) + (rnd y - y) + (rnd z - z)))) by ring.
  eapply Rle_trans; [apply Rabs_triang|]. eapply Rle_trans; [apply Rplus_le_compat_l, Rabs_triang|].
  eapply Rle_trans; [do 2 apply Rplus_le_compat_l; eapply Rle_trans; [apply Rabs_triang|apply Rplus_le_compat_r, Rabs_triang] |].
  set (w := Rabs x + Rabs y + Rabs z) in *.
  assert (Q1 : Rabs (rnd x + rnd y) <= (1 + u) * w) by (unfold w; nra).
  assert (Q2 : Rabs (rnd (rnd x + rnd y) + rnd z) <= (1 + u) * (1 + u) * w).
  { assert (Rabs (rnd x + rnd y) <= (1 + u) * (Rabs x + Rabs y)) by lra. assert ((1 + u) * Rabs (rnd x + rnd y) <= (1 + u) * ((1 + u) * (Rabs x + Rabs y))) by (apply Rmult_le_compat_l; lra).
    assert ((1 + u) * Rabs z <= (1 + u) * (1 + u) * Rabs z) by (apply Rmult_le_compat_r; nra). unfold w. lra. }
  assert (Q3 : u * Rabs (rnd x + rnd y) <= u * ((1 + u) * w)) by (apply Rmult_le_compat_l; lra).
  assert (Q4 : u * Rabs (rnd (rnd x + rnd y) + rnd z) <= u * ((1 + u) * (1 + u) * w)) by (apply Rmult_le_compat_l; lra).
  assert (W : 0 <= w) by (unfold w; lra).
  assert (Q5 : u * ((1 + u) * (1 + u) * w) + (u * ((1 + u) * w) + u * w) <= 4 * u * w).
  { replace (u * ((1 + u) * (1 + u) * w) + (u * ((1 + u) * w) + u * w)) with (u * w * (3 + 3 * u + u * u)) by ring. replace (4 * u * w) with (u * w * 4) by ring. apply Rmult_le_compat_l; [apply Rmult_le_pos; lra|nra]. }
  apply Rle_trans with (4 * u * w); [unfold w in *; lra|]. rewrite Rmult_assoc, Rmult_assoc. apply Rmult_le_compat_l; [lra|]. apply Rmult_le_compat_l; lra.
Qed.
Print Assumptions C83_left.

(** Double precision without underflow: rounding to nearest with 53 bits. *)
Definition double_free : R -> R := round radix2 (FLX_exp 53) ZnearestE.
Example C83_double : accurate unit_roundoff double_free.
Proof.
  intros x. unfold double_free, unit_roundoff. eapply Rle_trans; [apply relative_error_N_FLX; reflexivity|]. apply Rmult_le_compat_r; [apply Rabs_pos|].
  cbn. lra.
Qed.
(** Ten degrees about z, a translation of 1000 along x, back by ten degrees about (1, 1, 1), added to a turn by the exact matrix: all
    hypotheses hold with eps = 10^-11. *)
Example C83_case : let u := unit_roundoff in let eps := / 10 ^ 11 in
  let p := PRotation (PTranslation (PRotation PNew 10 (AxStr "z") true "origin") (ShScalar 1000) (AxStr "x") "current") (-10) AxNone true "origin" in
  let q := PDot PNew mid mid "current" in
  accurate u double_free /\ accurate_dot (4 * u) (dot3_left double_free) /\ accurate_fun (2 * u) cos cos /\ accurate_fun (2 * u) sin sin /\
  0 <= u /\ u <= eps /\ 6 * (4 * u) <= eps /\ eps <= 1 / 5 /\ fine u eps (PAdd p q) /\ calls (PAdd p q) = 6%nat.
Proof.
  cbv zeta. assert (U : 0 <= unit_roundoff <= 1 / 10 ^ 15) by (unfold unit_roundoff; cbn; lra).
  assert (E : / 10 ^ 11 = 1 / 100000000000) by (cbn; lra). assert (U' : 0 <= unit_roundoff <= 1 / 1000000000000000) by (cbn in U; lra).
  split; [apply C83_double|]. split; [apply C83_left; [lra|apply C83_double]|].
  assert (Z : forall f : R -> R, accurate_fun (2 * unit_roundoff) f f) by (intros f x; rewrite Rminus_eq_0, Rabs_R0; lra).
  split; [apply Z|]. split; [apply Z|]. rewrite E. split; [lra|]. split; [lra|]. split; [lra|]. split; [lra|]. split; [|reflexivity].
  pose proof PI_RGT_0. pose proof PI_4. cbn [fine radians]. assert (A : Rabs (10 * PI / 180) <= 1) by (apply Rabs_le; lra). assert (B : Rabs (-10 * PI / 180) <= 1) by (apply Rabs_le; lra).
  pose proof (Rabs_pos (10 * PI / 180)). pose proof (Rabs_pos (-10 * PI / 180)).
  assert (Q : forall t, 0 <= t <= 1 -> 4000 * unit_roundoff * (1 + t) <= 1 / 100000000000) by (intros t T; apply Rle_trans with (4000 * unit_roundoff * 2); [apply Rmult_le_compat_l; lra|lra]).
  repeat split; try (apply Q; lra); try apply is_rotation_mid. apply near_refl. lra.
Qed.
