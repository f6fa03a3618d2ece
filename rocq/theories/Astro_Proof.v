(** Lemmas for C101: relative errors, the arcsine, angles. *)
Require Import Reals Lra Lia ZArith Bool.
From Verif Require Import Base Vec3 Isometry_Proof Sky_Model Sky_Spec Sky_Proof Round_Model Drift_Spec Drift_Proof Astro_Model Astro_Spec.
Open Scope R_scope.

(** ** Sines and arcsines *)
Lemma PI_above3 : 3 < PI. Proof. pose proof PI2_3_2. lra. Qed.
Lemma PI_below : PI <= 3.34.
Proof. destruct (PI_ineq 2) as [_ H]. unfold tg_alt, PI_tg in H. cbn [sum_f_R0 Nat.mul Nat.add INR pow] in H. lra. Qed.
Lemma sin_half : forall x, 0 <= x <= PI / 2 -> x / 2 <= sin x.
Proof.
  intros x [H0 H1]. pose proof PI_below. pose proof PI_above3. destruct (Rle_lt_dec x (PI / 3)) as [L|L].
  - destruct (Req_dec x 0) as [->|N]; [rewrite sin_0; lra|]. assert (P : 0 < x) by lra.
    destruct (MVT_cor2 (fun t => sin t - t / 2) (fun t => cos t - 1 / 2) 0 x P) as (c & E & C).
    { intros c C. apply derivable_pt_lim_minus; [apply derivable_pt_lim_sin|]. replace (1 / 2) with (1 * / 2 + c * 0) by field.
      apply (derivable_pt_lim_mult (fun t => t) (fun _ => / 2) c 1 0); [apply derivable_pt_lim_id|apply derivable_pt_lim_const]. }
    rewrite sin_0 in E. assert (1 / 2 <= cos c) by (rewrite <- cos_PI3; apply cos_decr_1; lra). nra.
  - assert (S : sin (PI / 3) <= sin x) by (apply sin_incr_1; lra). rewrite sin_PI3 in S.
    assert (Q : 1.7 <= sqrt 3) by (apply Rsqr_incr_0_var; [rewrite Rsqr_sqrt by lra; unfold Rsqr; lra|apply sqrt_pos]). lra.
Qed.
Lemma asin_order : forall s t, -1 <= s <= 1 -> -1 <= t <= 1 -> s <= t -> asin s <= asin t.
Proof.
  intros s t S T L. pose proof (asin_bound s). pose proof (asin_bound t). destruct (Rle_lt_dec (asin s) (asin t)) as [|N]; auto. exfalso.
  assert (sin (asin t) < sin (asin s)) by (apply sin_increasing_1; lra). rewrite !sin_asin in H1 by lra. lra.
Qed.
(** The arcsine: the square root of the error everywhere, the error over the cosine away from the ends. *)
Lemma asin_near1 : forall s t, -1 <= s <= 1 -> -1 <= t <= 1 -> s <= t -> 
  (asin t - asin s) * (asin t - asin s) <= 8 * (t - s) /\ (cos (asin t) + cos (asin s)) * (asin t - asin s) <= 4 * (t - s).
Proof.
  intros s t S T L. pose proof (asin_order s t S T L) as O. pose proof (asin_bound s) as Bs. pose proof (asin_bound t) as Bt. pose proof PI_above3.
  pose proof (sin_asin s S) as Es. pose proof (sin_asin t T) as Et. set (a := asin s) in *. set (b := asin t) in *.
  set (h := (b - a) / 2). set (m := (a + b) / 2). assert (Eb : b = m + h) by (unfold m, h; field). assert (Ea : a = m - h) by (unfold m, h; field).
  assert (H0 : 0 <= h <= PI / 2) by (unfold h; lra). assert (D : t - s = 2 * (cos m * sin h)). { rewrite <- Et, <- Es, Eb, Ea, sin_plus, sin_minus. ring. }
  pose proof (sin_half h H0) as Sh. assert (Ch : 0 <= cos h) by (apply cos_ge_0; lra). assert (Cm : 0 <= cos m) by (apply cos_ge_0; unfold m; lra).
  split.
  - assert (M : sin h <= cos m). { rewrite <- cos_shift. destruct (Rle_lt_dec 0 m).
      - apply cos_decr_1; unfold m, h in *; lra.
      - rewrite <- (cos_neg m). apply cos_decr_1; unfold m, h in *; lra. }
    replace (b - a) with (2 * h) by (unfold h; field). rewrite D. nra.
  - replace (cos b + cos a) with (2 * (cos m * cos h)) by (rewrite Eb, Ea, cos_plus, cos_minus; ring). replace (b - a) with (2 * h) by (unfold h; field). rewrite D.
    pose proof (COS_bound h). assert (0 <= cos m * sin h) by (apply Rmult_le_pos; lra). assert (cos m * h * (1 - cos h) >= 0) by (apply Rle_ge, Rmult_le_pos; [apply Rmult_le_pos; lra|lra]). assert (0 <= cos m * (2 * sin h - h)) by (apply Rmult_le_pos; lra). lra.
Qed.
Lemma asin_near : forall s t e, -1 <= s <= 1 -> -1 <= t <= 1 -> Rabs (s - t) <= e ->
  Rabs (asin s - asin t) <= sqrt (8 * e) /\ cos (asin t) * Rabs (asin s - asin t) <= 4 * e.
Proof.
  intros s t e S T E. pose proof (Rabs_pos (s - t)).
  assert (K : forall a b, -1 <= a <= 1 -> -1 <= b <= 1 -> a <= b -> b - a <= e -> asin b - asin a <= sqrt (8 * e) /\ 0 <= asin b - asin a /\ cos (asin a) * (asin b - asin a) <= 4 * e /\ cos (asin b) * (asin b - asin a) <= 4 * e).
  { intros a b A B L D. destruct (asin_near1 a b A B L) as [Q1 Q2]. pose proof (asin_order a b A B L). pose proof (asin_bound a). pose proof (asin_bound b).
    assert (0 <= cos (asin a)) by (apply cos_ge_0; lra). assert (0 <= cos (asin b)) by (apply cos_ge_0; lra).
    split; [|split; [lra|split; nra] ]. rewrite <- (sqrt_square (asin b - asin a)) by lra. apply sqrt_le_1_alt. lra. }
  destruct (Rle_lt_dec s t) as [L|L].
  - rewrite Rabs_left1 in E by lra. destruct (K s t S T L ltac:(lra)) as (A & B & C & D). rewrite Rabs_left1 by lra. split; [lra|]. replace (- (asin s - asin t)) with (asin t - asin s) by ring. exact D.
  - rewrite Rabs_right in E by lra. destruct (K t s T S ltac:(lra) ltac:(lra)) as (A & B & C & D). rewrite Rabs_right by lra. split; [exact A|exact C].
Qed.
Lemma cos_lipschitz : forall a b, Rabs (cos a - cos b) <= Rabs (a - b).
Proof.
  assert (K : forall a b, a < b -> Rabs (cos b - cos a) <= b - a).
  { intros a b L. destruct (MVT_cor2 cos (fun t => - sin t) a b L) as (c & E & _); [intros; apply derivable_pt_lim_cos|]. rewrite E. pose proof (SIN_bound c). apply Rabs_le. nra. }
  intros a b. destruct (Rtotal_order a b) as [L|[->|L] ].
  - rewrite (Rabs_minus_sym (cos a)), (Rabs_minus_sym a), (Rabs_right (b - a)) by lra. apply K. exact L.
  - rewrite !Rminus_eq_0, Rabs_R0. lra.
  - rewrite (Rabs_right (a - b)) by lra. apply K. exact L.
Qed.
Lemma sin_lipschitz : forall a b, Rabs (sin a - sin b) <= Rabs (a - b).
Proof.
  intros a b. rewrite <- !cos_shift. eapply Rle_trans; [apply cos_lipschitz|]. replace (PI / 2 - a - (PI / 2 - b)) with (- (a - b)) by ring. rewrite Rabs_Ropp. lra.
Qed.

(** ** Relative errors *)
Definition rel (e x' x : R) : Prop := Rabs (x' - x) <= e * Rabs x.
Lemma rel_iff : forall e x' x, 0 <= e -> (rel e x' x <-> exists t, Rabs t <= e /\ x' = x * (1 + t)).
Proof.
  intros e x' x E. split.
  - intros H. unfold rel in H. destruct (Req_dec x 0) as [->|N].
    + exists 0. rewrite Rabs_R0 in *. split; [exact E|]. pose proof (Rabs_pos (x' - 0)). assert (Z : Rabs (x' - 0) = 0) by lra. destruct (Req_dec x' 0) as [->|N]; [ring|]. pose proof (Rabs_pos_lt (x' - 0)). lra.
    + exists ((x' - x) / x). split; [|field; exact N]. unfold Rdiv. rewrite Rabs_mult, Rabs_inv. apply Rmult_le_reg_r with (Rabs x); [apply Rabs_pos_lt; exact N|].
      rewrite Rmult_assoc, Rinv_l, Rmult_1_r by (apply Rabs_no_R0; exact N). exact H.
  - intros (t & T & ->). unfold rel. replace (x * (1 + t) - x) with (t * x) by ring. rewrite Rabs_mult. apply Rmult_le_compat_r; [apply Rabs_pos|exact T].
Qed.
Lemma rel_trans : forall e f x y z, 0 <= e -> 0 <= f -> rel e x y -> rel f y z -> rel (e + f + e * f) x z.
Proof.
  intros e f x y z E F H K. apply rel_iff in H as (t & T & ->); [|exact E]. apply rel_iff in K as (r & R & ->); [|exact F]. apply rel_iff; [nra|]. exists (r + t + r * t).
  split; [|ring]. eapply Rle_trans; [apply Rabs_triang|]. pose proof (Rabs_triang r t). rewrite Rabs_mult. pose proof (Rabs_pos r). pose proof (Rabs_pos t). nra.
Qed.
Lemma rel_weak : forall e f x y, e <= f -> rel e x y -> rel f x y.
Proof. intros e f x y L H. unfold rel in *. pose proof (Rabs_pos y). nra. Qed.
Lemma rel_refl : forall e x, 0 <= e -> rel e x x.
Proof. intros e x E. unfold rel. rewrite Rminus_eq_0, Rabs_R0. pose proof (Rabs_pos x). nra. Qed.
Lemma rel_mult : forall e x y c, rel e x y -> rel e (c * x) (c * y).
Proof. intros e x y c H. unfold rel in *. rewrite <- Rmult_minus_distr_l, !Rabs_mult. pose proof (Rabs_pos c). nra. Qed.
Lemma rel_size : forall e x y, rel e x y -> Rabs x <= (1 + e) * Rabs y.
Proof. intros e x y H. unfold rel in H. pose proof (Rabs_triang (x - y) y). replace (x - y + y) with x in H0 by ring. lra. Qed.
(** A quotient, by a number known to 4u. *)
Lemma rel_inv : forall e x y, 0 <= e <= 1 / 100 -> y <> 0 -> rel e x y -> x <> 0 /\ rel (e * 1.02) (/ x) (/ y).
Proof.
  intros e x y E N H. apply rel_iff in H as (t & T & ->); [|lra]. assert (B : -(1/100) <= t <= 1/100) by (apply Rabs_def2 in T || idtac; pose proof (Rle_abs t); pose proof (Rle_abs (- t)); rewrite Rabs_Ropp in *; lra).
  assert (N' : 1 + t <> 0) by lra. split; [apply Rmult_integral_contrapositive; split; assumption|]. apply rel_iff; [lra|]. exists (- t / (1 + t)). split; [|field; split; assumption].
  unfold Rdiv. rewrite Rabs_mult, Rabs_Ropp, (Rabs_right (/ (1 + t))) by (apply Rle_ge, Rlt_le, Rinv_0_lt_compat; lra).
  apply Rmult_le_compat; [apply Rabs_pos|apply Rlt_le, Rinv_0_lt_compat; lra|exact T|]. apply Rmult_le_reg_r with (1 + t); [lra|]. rewrite Rinv_l by exact N'. lra.
Qed.
