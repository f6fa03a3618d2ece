(** Accuracy of the matrix of rotation(). *)
Require Import Reals Lra Lia Psatz ZArith List Bool String.
From Verif Require Import Base Vec3 Isometry_Model Isometry_Proof Round_Model Drift_Model Drift_Spec Drift_Proof.
Import ListNotations.
Open Scope R_scope.

Lemma cos_lip : forall a b, Rabs (cos a - cos b) <= Rabs (a - b).
Proof.
  intros a b. assert (Q : forall x y, x < y -> Rabs (cos y - cos x) <= Rabs (y - x)).
  { intros x y H. destruct (MVT_cor2 cos (fun t => - sin t) x y H) as (c & E & _); [intros; apply derivable_pt_lim_cos|]. rewrite E, Rabs_mult.
    rewrite <- (Rmult_1_l (Rabs (y - x))) at 2. apply Rmult_le_compat_r; [apply Rabs_pos|]. rewrite Rabs_Ropp. pose proof (SIN_bound c). apply Rabs_le. lra. }
  destruct (Rtotal_order a b) as [H|[->|H] ]; [rewrite Rabs_minus_sym, (Rabs_minus_sym a)|rewrite !Rminus_eq_0, Rabs_R0; lra|]; apply Q; auto.
Qed.
Lemma sin_lip : forall a b, Rabs (sin a - sin b) <= Rabs (a - b).
Proof.
  intros a b. assert (Q : forall x y, x < y -> Rabs (sin y - sin x) <= Rabs (y - x)).
  { intros x y H. destruct (MVT_cor2 sin cos x y H) as (c & E & _); [intros; apply derivable_pt_lim_sin|]. rewrite E, Rabs_mult.
    rewrite <- (Rmult_1_l (Rabs (y - x))) at 2. apply Rmult_le_compat_r; [apply Rabs_pos|]. pose proof (COS_bound c). apply Rabs_le. lra. }
  destruct (Rtotal_order a b) as [H|[->|H] ]; [rewrite Rabs_minus_sym, (Rabs_minus_sym a)|rewrite !Rminus_eq_0, Rabs_R0; lra|]; apply Q; auto.
Qed.

Section Matrix.
Variables (rnd fcos fsin : R -> R) (u : R).
Hypothesis ARND : accurate u rnd.
Hypothesis ACOS : accurate_fun (2 * u) fcos cos.
Hypothesis ASIN : accurate_fun (2 * u) fsin sin.
Hypothesis U0 : 0 <= u.
Hypothesis U1 : u <= 1 / 4000.

(** Relative and absolute errors, in units of [u]. *)
Definition rel (k x' x : R) : Prop := Rabs (x' - x) <= k * u * Rabs x.
Definition ap (k x' x : R) : Prop := Rabs (x' - x) <= k * u.
Lemma rel_0 : forall x, rel 0 x x.
Proof. intros x. unfold rel. rewrite Rminus_eq_0, Rabs_R0. lra. Qed.
Lemma rel_weak : forall k k' x' x, k <= k' -> rel k x' x -> rel k' x' x.
Proof. intros k k' x' x L H. unfold rel in *. eapply Rle_trans; [exact H|]. apply Rmult_le_compat_r; [apply Rabs_pos|nra]. Qed.
Lemma rel_size : forall k x' x, rel k x' x -> Rabs x' <= (1 + k * u) * Rabs x.
Proof. intros k x' x H. unfold rel in H. replace x' with (x + (x' - x)) by ring. pose proof (Rabs_triang x (x' - x)). lra. Qed.
Lemma rel_rnd : forall k x' x, 0 <= k <= 4000 -> rel k x' x -> rel (k + 2) (rnd x') x.
Proof.
  intros k x' x K H. pose proof (rel_size _ _ _ H) as S. unfold rel in *. specialize (ARND x'). replace (rnd x' - x) with ((rnd x' - x') + (x' - x)) by ring.
  pose proof (Rabs_triang (rnd x' - x') (x' - x)). pose proof (Rabs_pos x). assert (k * u <= 1) by nra.
  assert (u * Rabs x' <= u * (2 * Rabs x)) by (apply Rmult_le_compat_l; nra). nra.
Qed.
Lemma rel_mult : forall k l x' x y' y, 0 <= k <= 100 -> 0 <= l <= 100 -> rel k x' x -> rel l y' y -> rel (k + l + 3) (x' * y') (x * y).
Proof.
  intros k l x' x y' y K L A B. pose proof (rel_size _ _ _ A) as S. unfold rel in *. replace (x' * y' - x * y) with (x' * (y' - y) + y * (x' - x)) by ring.
  eapply Rle_trans; [apply Rabs_triang|]. rewrite !Rabs_mult. pose proof (Rabs_pos x). pose proof (Rabs_pos y). pose proof (Rabs_pos x'). pose proof (Rabs_pos (y' - y)). pose proof (Rabs_pos (x' - x)).
  assert (P : 0 <= Rabs x * Rabs y) by nra.
  assert (A1 : Rabs x' * Rabs (y' - y) <= (1 + k * u) * Rabs x * (l * u * Rabs y)) by (apply Rmult_le_compat; auto).
  assert (A2 : Rabs y * Rabs (x' - x) <= Rabs y * (k * u * Rabs x)) by (apply Rmult_le_compat_l; auto).
  assert (Q : k * u * (l * u) <= 3 * u).
  { assert (k * u <= 100 * u) by (apply Rmult_le_compat_r; lra). assert (l * u <= 100 * u) by (apply Rmult_le_compat_r; lra). assert (0 <= l * u) by (apply Rmult_le_pos; lra). assert (0 <= k * u) by (apply Rmult_le_pos; lra).
    apply Rle_trans with ((1 / 40) * (100 * u)); [apply Rmult_le_compat; lra|lra]. }
  assert (k * u * (l * u) * (Rabs x * Rabs y) <= 3 * u * (Rabs x * Rabs y)) by (apply Rmult_le_compat_r; auto). lra.
Qed.
Lemma rel_plus : forall k x' x y' y, 0 <= x -> 0 <= y -> rel k x' x -> rel k y' y -> rel k (x' + y') (x + y).
Proof.
  intros k x' x y' y X Y A B. unfold rel in *. rewrite (Rabs_right x) in A by lra. rewrite (Rabs_right y) in B by lra. rewrite (Rabs_right (x + y)) by lra. replace (x' + y' - (x + y)) with ((x' - x) + (y' - y)) by ring.
  pose proof (Rabs_triang (x' - x) (y' - y)). lra.
Qed.
Lemma rel_sign : forall k x' x, 0 <= k <= 4000 -> 0 <= x -> rel k x' x -> 0 <= x'.
Proof. intros k x' x K X H. unfold rel in H. rewrite (Rabs_right x) in H by lra. assert (k * u <= 1) by nra. pose proof (Rle_abs (- (x' - x))). rewrite Rabs_Ropp in *. nra. Qed.
Lemma rel_sqrt : forall k x' x, 0 <= k <= 4000 -> 0 <= x -> rel k x' x -> rel k (sqrt x') (sqrt x).
Proof.
  intros k x' x K X H. pose proof (rel_sign _ _ _ K X H) as X'. unfold rel in *. destruct (Req_dec x 0) as [->|N].
  - rewrite Rabs_R0, Rmult_0_r in H. assert (E : x' = 0) by (pose proof (Rabs_pos (x' - 0)); assert (A : Rabs (x' - 0) = 0) by lra; rewrite Rminus_0_r in A; destruct (Req_dec x' 0); auto; pose proof (Rabs_pos_lt x' H1); lra).
    rewrite E, Rminus_eq_0, Rabs_R0, sqrt_0, Rabs_R0. lra.
  - assert (P : 0 < sqrt x) by (apply sqrt_lt_R0; lra). pose proof (sqrt_pos x') as P'. rewrite (Rabs_right (sqrt x)) by lra. rewrite (Rabs_right x) in H by lra.
    assert (E : (sqrt x' - sqrt x) * (sqrt x' + sqrt x) = x' - x) by (replace ((sqrt x' - sqrt x) * (sqrt x' + sqrt x)) with (sqrt x' * sqrt x' - sqrt x * sqrt x) by ring; rewrite !sqrt_sqrt by lra; ring).
    rewrite <- E, Rabs_mult, (Rabs_right (sqrt x' + sqrt x)) in H by lra. rewrite <- (sqrt_sqrt x) in H at 3 by lra.
    apply Rmult_le_reg_r with (sqrt x); auto. pose proof (Rabs_pos (sqrt x' - sqrt x)). nra.
Qed.
Lemma rel_div : forall k l x' x y' y, 0 <= k -> 0 <= l <= 2000 -> y <> 0 -> rel k x' x -> rel l y' y -> y' <> 0 /\ rel (2 * (k + l)) (x' / y') (x / y).
Proof.
  intros k l x' x y' y K L Y A B. assert (LU : l * u <= 1 / 2) by nra. pose proof (Rabs_pos_lt y Y) as PY.
  assert (S : Rabs y / 2 <= Rabs y').
  { unfold rel in B. pose proof (Rabs_triang_inv y (y - y')) as T. replace (y - (y - y')) with y' in T by ring. rewrite (Rabs_minus_sym y y') in T. nra. }
  assert (N : y' <> 0) by (intros E; rewrite E, Rabs_R0 in S; lra). split; auto. unfold rel in *.
  replace (x' / y' - x / y) with (((x' - x) * y - x * (y' - y)) / (y' * y)) by (field; auto). unfold Rdiv at 1 2. rewrite !Rabs_mult, !Rabs_inv by auto.
  rewrite Rabs_mult. assert (PY' : 0 < Rabs y') by (apply Rabs_pos_lt; auto).
  apply Rmult_le_reg_r with (Rabs y' * Rabs y); [apply Rmult_lt_0_compat; auto|]. rewrite Rmult_assoc, Rinv_l, Rmult_1_r by nra.
  replace (2 * (k + l) * u * (Rabs x * / Rabs y) * (Rabs y' * Rabs y)) with (2 * (k + l) * u * Rabs x * Rabs y') by (field; lra).
  eapply Rle_trans; [unfold Rminus at 1; apply Rabs_triang|]. rewrite Rabs_Ropp, !Rabs_mult. pose proof (Rabs_pos x).
  assert (Rabs (x' - x) * Rabs y <= k * u * Rabs x * Rabs y) by (apply Rmult_le_compat_r; lra).
  assert (Rabs x * Rabs (y' - y) <= Rabs x * (l * u * Rabs y)) by (apply Rmult_le_compat_l; lra).
  assert ((k + l) * u * Rabs x * Rabs y <= (k + l) * u * Rabs x * (2 * Rabs y')) by (apply Rmult_le_compat_l; [repeat apply Rmult_le_pos; lra|lra]). lra.
Qed.
Lemma rel_ap : forall k x' x, 0 <= k -> Rabs x <= 1 -> rel k x' x -> ap k x' x.
Proof. intros k x' x K X H. unfold rel, ap in *. pose proof (Rabs_pos x). assert (0 <= k * u) by nra. nra. Qed.
Lemma ap_rnd : forall k b x' x, k * u <= 1 -> Rabs x <= b -> ap k x' x -> ap (k + b + 1) (rnd x') x.
Proof.
  intros k b x' x K X H. unfold ap in *. specialize (ARND x'). replace (rnd x' - x) with ((rnd x' - x') + (x' - x)) by ring. pose proof (Rabs_triang (rnd x' - x') (x' - x)).
  assert (S : Rabs x' <= b + 1). { replace x' with (x + (x' - x)) by ring. pose proof (Rabs_triang x (x' - x)). lra. }
  assert (u * Rabs x' <= u * (b + 1)) by (apply Rmult_le_compat_l; auto). lra.
Qed.
Lemma ap_plus : forall k l x' x y' y, ap k x' x -> ap l y' y -> ap (k + l) (x' + y') (x + y).
Proof. intros k l x' x y' y A B. unfold ap in *. replace (x' + y' - (x + y)) with ((x' - x) + (y' - y)) by ring. pose proof (Rabs_triang (x' - x) (y' - y)). lra. Qed.
Lemma ap_mult : forall k l x' x y' y, 0 <= l -> k * l * u <= 1 -> Rabs x <= 1 -> Rabs y <= 1 -> ap k x' x -> ap l y' y -> ap (k + l + 1) (x' * y') (x * y).
Proof.
  intros k l x' x y' y L KL X Y A B. unfold ap in *. replace (x' * y' - x * y) with ((x' - x) * (y' - y) + (x * (y' - y) + y * (x' - x))) by ring.
  eapply Rle_trans; [apply Rabs_triang|]. eapply Rle_trans; [apply Rplus_le_compat_l, Rabs_triang|]. rewrite !Rabs_mult.
  pose proof (Rabs_pos (x' - x)). pose proof (Rabs_pos (y' - y)). pose proof (Rabs_pos x). pose proof (Rabs_pos y).
  assert (Rabs (x' - x) * Rabs (y' - y) <= k * u * (l * u)) by (apply Rmult_le_compat; auto). assert (k * u * (l * u) <= 1 * u) by (replace (k * u * (l * u)) with (k * l * u * u) by ring; apply Rmult_le_compat_r; auto).
  assert (Rabs x * Rabs (y' - y) <= 1 * (l * u)) by (apply Rmult_le_compat; auto). assert (Rabs y * Rabs (x' - x) <= 1 * (k * u)) by (apply Rmult_le_compat; auto). lra.
Qed.

(** ** The axis *)
Lemma rel_trans : forall k l x y z, 0 <= k <= 60 -> 0 <= l <= 60 -> rel k x y -> rel l y z -> rel (k + l + 1) x z.
Proof.
  intros k l x y z K L A B. pose proof (rel_size _ _ _ B) as S. unfold rel in *. replace (x - z) with ((x - y) + (y - z)) by ring. pose proof (Rabs_triang (x - y) (y - z)). pose proof (Rabs_pos z).
  assert (k * u * Rabs y <= k * u * ((1 + l * u) * Rabs z)) by (apply Rmult_le_compat_l; [apply Rmult_le_pos; lra|auto]).
  assert (Q : k * u * (l * u) <= 1 * u).
  { assert (k * u <= 60 * u) by (apply Rmult_le_compat_r; lra). assert (l * u <= 60 * u) by (apply Rmult_le_compat_r; lra). assert (0 <= l * u) by (apply Rmult_le_pos; lra). assert (0 <= k * u) by (apply Rmult_le_pos; lra).
    apply Rle_trans with ((1 / 60) * (60 * u)); [apply Rmult_le_compat; lra|lra]. }
  assert (k * u * (l * u) * Rabs z <= 1 * u * Rabs z) by (apply Rmult_le_compat_r; auto). lra.
Qed.
Lemma distance_rel : forall v, rel 8 (fl_distance rnd v) (vnorm v).
Proof.
  intros [x y z]. unfold fl_distance, vnorm, vdot. cbn [vx vy vz].
  assert (SQ : forall t, rel 2 (rnd (t * t)) (t * t)) by (intros t; replace 2 with (0 + 2) by ring; apply rel_rnd; [lra|apply rel_0]).
  assert (P : forall t, 0 <= t * t) by (intros; nra). pose proof (P x). pose proof (P y). pose proof (P z).
  replace 8 with (2 + 2 + 2 + 2) by ring. apply rel_rnd; [lra|]. apply rel_sqrt; [lra|lra|]. apply rel_rnd; [lra|]. apply rel_plus; try lra; [|apply rel_weak with 2; [lra|apply SQ] ].
  apply rel_rnd; [lra|]. apply rel_plus; auto.
Qed.
Definition vrel (k : R) (v w : vec) : Prop := rel k (vx v) (vx w) /\ rel k (vy v) (vy w) /\ rel k (vz v) (vz w).
Lemma rel_zero : forall k x' x, 0 <= k < 4000 -> rel k x' x -> (x' = 0 <-> x = 0).
Proof.
  intros k x' x K H. unfold rel in H. assert (k * u < 1) by (destruct (Req_dec k 0) as [->|]; [lra|]; apply Rlt_le_trans with (4000 * (1 / 4000)); [|lra]; apply Rle_lt_trans with (k * (1 / 4000)); [apply Rmult_le_compat_l; lra|lra]). split; intros E.
  - rewrite E in H. rewrite Rminus_0_l, Rabs_Ropp in H. destruct (Req_dec x 0) as [|N]; auto. pose proof (Rabs_pos_lt x N). nra.
  - rewrite E, Rabs_R0, Rminus_0_r, Rmult_0_r in H. destruct (Req_dec x' 0) as [|N]; auto. pose proof (Rabs_pos_lt x' N). lra.
Qed.
(** Normalising a vector within relative errors [k] of a vector of length [n]: the computed entries against the exact ones. *)
Lemma normalize_close : forall v, match fl_normalize rnd v, normalize v with Ok a, Ok b => vrel 18 a b | Err e, Err e' => e = e' | _, _ => False end.
Proof.
  intros v. unfold fl_normalize, normalize. rewrite distance_vnorm. pose proof (distance_rel v) as D. pose proof (rel_zero 8 _ _ ltac:(lra) D) as Z.
  destruct (Req_EM_T (fl_distance rnd v) 0) as [E|E], (Req_EM_T (vnorm v) 0) as [E'|E']; try tauto.
  assert (Q : forall x, rel 18 (rnd (x / fl_distance rnd v)) (x / vnorm v)).
  { intros x. replace 18 with (2 * (0 + 8) + 2) by ring. apply rel_rnd; [lra|]. apply rel_div; auto; try lra. apply rel_0. }
  repeat split; apply Q.
Qed.
Lemma vrel_norm : forall k v w, 0 <= k -> vrel k v w -> rel k (vnorm v) (vnorm w).
Proof.
  intros k v w K (A & B & C). unfold rel in *. rewrite (Rabs_right (vnorm w)) by (apply Rle_ge, vnorm_nonneg).
  assert (D : vnorm (vsub v w) <= k * u * vnorm w) by (apply vnorm_mono; auto; apply Rmult_le_pos; auto).
  pose proof (vnorm_near v w). pose proof (vnorm_near w v). rewrite (vnorm_sym w v) in *. apply Rabs_le. lra.
Qed.
Lemma normalize_again : forall a b, vdot b b = 1 -> vrel 18 a b -> exists c, fl_normalize rnd a = Ok c /\ vrel 92 c b.
Proof.
  intros a b B H. pose proof (vnorm_unit b B) as NB. pose proof (vrel_norm 18 a b ltac:(lra) H) as N. rewrite NB in N.
  pose proof (rel_trans 8 18 _ _ _ ltac:(lra) ltac:(lra) (distance_rel a) N) as D. replace (8 + 18 + 1) with 27 in D by ring.
  unfold fl_normalize. destruct (Req_EM_T (fl_distance rnd a) 0) as [E|E]; [exfalso; apply (rel_zero 27 _ _ ltac:(lra) D) in E; lra|].
  assert (Q : forall x y, rel 18 x y -> rel 92 (rnd (x / fl_distance rnd a)) y).
  { intros x y R. replace 92 with (2 * (18 + 27) + 2) by ring. apply rel_rnd; [lra|]. replace y with (y / 1) by field. apply rel_div; auto; lra. }
  destruct H as (H1 & H2 & H3). eexists. split; [reflexivity|]. repeat split; apply Q; auto.
Qed.
Lemma get_los_close : forall ax, match fl_get_los rnd ax, get_los ax with Ok a, Ok b => vrel 18 a b | Err e, Err e' => e = e' | _, _ => False end.
Proof.
  intros ax. unfold fl_get_los, get_los. destruct ax as [s|i| |v].
  - destruct (xyz_index s) as [i|]; cbn [bind]; auto. destruct (np_index3 i); cbn [bind]; auto. apply normalize_close.
  - destruct (np_index3 i); cbn [bind]; auto. apply normalize_close.
  - apply normalize_close.
  - apply normalize_close.
Qed.

(** ** The angle *)
Lemma angle_close : forall angle (degree : bool), let a := if degree then angle else rnd (rnd (angle * 180) / fl_pi rnd) in
  rel 20 (rnd (rnd (a * fl_pi rnd) / 180)) (radians angle degree).
Proof.
  intros angle degree a. pose proof PI_RGT_0 as PP.
  assert (RP : rel 2 (fl_pi rnd) PI) by (unfold fl_pi; replace 2 with (0 + 2) by ring; apply rel_rnd; [lra|apply rel_0]).
  assert (RA : rel 10 a (radians angle degree * 180 / PI)).
  { unfold a, radians. destruct degree.
    - replace (angle * PI / 180 * 180 / PI) with angle by (field; lra). apply rel_weak with 0; [lra|apply rel_0].
    - replace 10 with (2 * (2 + 2) + 2) by ring. apply rel_rnd; [lra|]. apply rel_div; auto; try lra. replace 2 with (0 + 2) by ring. apply rel_rnd; [lra|apply rel_0]. }
  assert (RM : rel 15 (a * fl_pi rnd) (radians angle degree * 180)).
  { replace (radians angle degree * 180) with (radians angle degree * 180 / PI * PI) by (field; lra). replace 15 with (10 + 2 + 3) by ring. apply rel_mult; auto; lra. }
  assert (RM2 : rel 17 (rnd (a * fl_pi rnd)) (radians angle degree * 180)) by (replace 17 with (15 + 2) by ring; apply rel_rnd; [lra|auto]).
  apply rel_weak with (17 + 2); [lra|]. apply rel_rnd; [lra|]. set (x := rnd (a * fl_pi rnd)) in *. set (y := radians angle degree) in *. unfold rel in *.
  replace (x / 180 - y) with ((x - y * 180) * / 180) by field. rewrite Rabs_mult, (Rabs_right (/ 180)) by lra. rewrite Rabs_mult, (Rabs_right 180) in RM2 by lra. lra.
Qed.

(** ** The entries *)
Lemma abs_mult_le : forall x y a b, Rabs x <= a -> Rabs y <= b -> Rabs (x * y) <= a * b.
Proof. intros. rewrite Rabs_mult. apply Rmult_le_compat; auto using Rabs_pos. Qed.
Lemma entry_close : forall kc c s c' s' vi vj q wi wj r eye, 2 <= kc -> 500 * kc * u <= 1 -> Rabs c <= 1 -> Rabs s <= 1 -> ap kc c' c -> ap kc s' s -> rel 92 vi wi -> rel 92 vj wj -> ap 92 q r ->
  Rabs wi <= 1 -> Rabs wj <= 1 -> Rabs r <= 1 -> Rabs (wi * wj) <= 1 -> Rabs (eye - wi * wj) <= 1 ->
  ap (485 + 2 * kc) (fl_entry rnd c' s' vi vj eye q) (wi * wj + c * (eye - wi * wj) + s * r).
Proof.
  intros kc c s c' s' vi vj q wi wj r eye K KU C S AC AS RI RJ AQ WI WJ WR WP WE. unfold fl_entry. set (p := rnd (vi * vj)).
  assert (KK : forall t, 0 <= t <= 500 -> t * kc * u <= 1) by (intros t Ht; apply Rle_trans with (500 * kc * u); auto; repeat apply Rmult_le_compat_r; lra).
  assert (KS : forall t, 0 <= t <= 400 -> (t + 2 * kc) * u <= 1) by (intros t Ht; assert (t * u <= 400 * u) by (apply Rmult_le_compat_r; lra); pose proof (KK 400 ltac:(lra)); lra).
  assert (P : ap 189 p (wi * wj)).
  { apply rel_ap; [lra|auto|]. replace 189 with ((92 + 92 + 3) + 2) by ring. apply rel_rnd; [lra|]. apply rel_mult; auto; lra. }
  assert (E1 : ap 191 (rnd (eye - p)) (eye - wi * wj)).
  { replace 191 with (189 + 1 + 1) by ring. apply ap_rnd; auto; [lra|]. unfold ap in *. replace (eye - p - (eye - wi * wj)) with (- (p - wi * wj)) by ring. rewrite Rabs_Ropp. auto. }
  assert (E2 : ap (kc + 194) (rnd (c' * rnd (eye - p))) (c * (eye - wi * wj))).
  { replace (kc + 194) with ((kc + 191 + 1) + 1 + 1) by ring. apply ap_rnd; [pose proof (KS 192 ltac:(lra)); assert (0 <= kc * u) by (apply Rmult_le_pos; lra); lra|pose proof (abs_mult_le _ _ _ _ C WE); lra|].
    apply ap_mult; auto; [lra|]. pose proof (KK 191 ltac:(lra)). lra. }
  assert (B2 : Rabs (wi * wj + c * (eye - wi * wj)) <= 2). { eapply Rle_trans; [apply Rabs_triang|]. pose proof (abs_mult_le _ _ _ _ C WE). lra. }
  assert (E3 : ap (kc + 386) (rnd (p + rnd (c' * rnd (eye - p)))) (wi * wj + c * (eye - wi * wj))).
  { replace (kc + 386) with ((189 + (kc + 194)) + 2 + 1) by ring. apply ap_rnd; auto; [pose proof (KS 383 ltac:(lra)); assert (0 <= kc * u) by (apply Rmult_le_pos; lra); lra|]. apply ap_plus; auto. }
  assert (E4 : ap (kc + 95) (rnd (s' * q)) (s * r)).
  { replace (kc + 95) with ((kc + 92 + 1) + 1 + 1) by ring. apply ap_rnd; [pose proof (KS 93 ltac:(lra)); assert (0 <= kc * u) by (apply Rmult_le_pos; lra); lra|pose proof (abs_mult_le _ _ _ _ S WR); lra|].
    apply ap_mult; auto; [lra|]. pose proof (KK 92 ltac:(lra)). lra. }
  replace (485 + 2 * kc) with ((kc + 386 + (kc + 95)) + 3 + 1) by ring. apply ap_rnd.
  - pose proof (KK 500 ltac:(lra)). assert (481 * u <= 250 * kc * u) by (apply Rmult_le_compat_r; lra). assert (2 * kc * u <= 250 * kc * u) by (repeat apply Rmult_le_compat_r; lra). lra.
  - eapply Rle_trans; [apply Rabs_triang|]. pose proof (abs_mult_le _ _ _ _ S WR). lra.
  - apply ap_plus; auto.
Qed.
Definition mdiff (k : R) (a b : mat) : Prop := forall r c, In (r, c) [(row0 a, row0 b); (row1 a, row1 b); (row2 a, row2 b)] -> ap k (vx r) (vx c) /\ ap k (vy r) (vy c) /\ ap k (vz r) (vz c).
Lemma mdiff_near : forall k a b, 0 <= k -> mdiff k a b -> near (6 * k * u) a b.
Proof.
  intros k a b K H v. eapply Rle_trans; [apply vnorm_sum|]. pose proof (vnorm_l1 v) as L1. assert (KU : 0 <= k * u) by (apply Rmult_le_pos; auto).
  assert (Q : forall r c, In (r, c) [(row0 a, row0 b); (row1 a, row1 b); (row2 a, row2 b)] -> Rabs (vdot r v - vdot c v) <= k * u * (2 * vnorm v)).
  { intros r c I. destruct (H r c I) as (A & B & C). unfold ap, vdot in *.
    replace (vx r * vx v + vy r * vy v + vz r * vz v - (vx c * vx v + vy c * vy v + vz c * vz v)) with ((vx r - vx c) * vx v + (vy r - vy c) * vy v + (vz r - vz c) * vz v) by ring.
    eapply Rle_trans; [apply Rabs_triang|]. eapply Rle_trans; [apply Rplus_le_compat_r, Rabs_triang|]. rewrite !Rabs_mult.
    pose proof (Rmult_le_compat_r _ _ _ (Rabs_pos (vx v)) A). pose proof (Rmult_le_compat_r _ _ _ (Rabs_pos (vy v)) B). pose proof (Rmult_le_compat_r _ _ _ (Rabs_pos (vz v)) C).
    pose proof (Rmult_le_compat_l _ _ _ KU L1). lra. }
  unfold mapply, vsub. cbn [vx vy vz]. pose proof (Q _ _ (or_introl eq_refl)). pose proof (Q _ _ (or_intror (or_introl eq_refl))). pose proof (Q _ _ (or_intror (or_intror (or_introl eq_refl)))). lra.
Qed.
Lemma trig_close : forall f g t t' , accurate_fun (2 * u) f g -> (forall a b, Rabs (g a - g b) <= Rabs (a - b)) -> rel 20 t' t -> ap (2 + 20 * Rabs t) (f t') (g t).
Proof.
  intros f g t t' A L R. unfold ap, rel, accurate_fun in *. specialize (A t'). specialize (L t' t). replace (f t' - g t) with ((f t' - g t') + (g t' - g t)) by ring.
  pose proof (Rabs_triang (f t' - g t') (g t' - g t)). lra.
Qed.
(** Both raise, or the computed matrix is within 4000 u (1 + |angle|) of the exact rotation. *)
Lemma matrix_close : forall ax angle (degree : bool), 20000 * u * (1 + Rabs (radians angle degree)) <= 1 ->
  let a := if degree then angle else angle * 180 / PI in let a' := if degree then angle else rnd (rnd (angle * 180) / fl_pi rnd) in
  match bind (fl_get_los rnd ax) (fun v => fl_rotation_matrix rnd fcos fsin (AxVec v) a'), bind (get_los ax) (fun v => rotation_matrix_from_vector_angle (AxVec v) a) with
  | Ok m', Ok m => is_rotation m /\ near (4000 * u * (1 + Rabs (radians angle degree))) m' m
  | Err e, Err e' => e = e'
  | _, _ => False
  end.
Proof.
  intros ax angle degree SM a a'. pose proof PI_RGT_0 as PP. pose proof (get_los_close ax) as GL. destruct (get_los ax) as [w|e] eqn:EW, (fl_get_los rnd ax) as [v|e']; cbn [bind]; try tauto.
  pose proof (get_los_unit ax w EW) as W1.
  rewrite (rotation_matrix_eq (AxVec w) a w) by (cbn [get_los]; apply normalize_of_unit; auto).
  assert (RA : a * PI / 180 = radians angle degree) by (unfold a, radians; destruct degree; [reflexivity|field; lra]). rewrite RA. set (t := radians angle degree) in *.
  destruct (normalize_again v w W1 GL) as (x & EX & VX). unfold fl_rotation_matrix. cbn [fl_get_los]. rewrite EX. cbn [bind].
  pose proof (angle_close angle degree) as AC. cbv zeta in AC. fold a' t in AC. set (t' := rnd (rnd (a' * fl_pi rnd) / 180)) in *.
  pose proof (Rabs_pos t) as T0. assert (B0 : 0 <= 4000 * u * (1 + Rabs t)) by (repeat apply Rmult_le_pos; lra).
  assert (ROT : is_rotation (axis_rot w (cos t) (sin t))) by (apply axis_rot_rotation; auto; pose proof (sin2_cos2 t); unfold Rsqr in *; lra).
  destruct (Req_EM_T t' 0) as [E|E].
  - split; auto. apply (rel_zero 20 _ _ ltac:(lra) AC) in E. rewrite E, cos_0, sin_0, axis_rot_id. apply near_refl. rewrite Rabs_R0. lra.
  - split; auto. set (kc := 2 + 20 * Rabs t).
    apply near_weak with (6 * (485 + 2 * kc) * u).
    { unfold kc. assert (0 <= u * Rabs t) by (apply Rmult_le_pos; lra). lra. }
    apply mdiff_near; [unfold kc; lra|].
    pose proof (trig_close fcos cos t t' ACOS cos_lip AC) as KC. pose proof (trig_close fsin sin t t' ASIN sin_lip AC) as KS. fold kc in KC, KS.
    assert (C1 : Rabs (cos t) <= 1) by (pose proof (COS_bound t); apply Rabs_le; lra). assert (S1 : Rabs (sin t) <= 1) by (pose proof (SIN_bound t); apply Rabs_le; lra).
    assert (K2 : 2 <= kc) by (unfold kc; lra). assert (KU : 500 * kc * u <= 1) by (unfold kc; assert (0 <= u * Rabs t) by (apply Rmult_le_pos; lra); lra).
    pose proof (coord_le w) as (X1 & Y1 & Z1). rewrite (vnorm_unit w W1) in X1, Y1, Z1.
    destruct VX as (RX & RY & RZ). destruct w as [wx wy wz], x as [x y z]. cbn [vx vy vz] in *.
    assert (WW : wx * wx + wy * wy + wz * wz = 1) by (revert W1; vunfold; auto).
    assert (AP : forall p q, Rabs q <= 1 -> rel 92 p q -> ap 92 p q) by (intros; apply rel_ap; auto; lra).
    assert (AN : forall p q, Rabs q <= 1 -> rel 92 p q -> ap 92 (- p) (- q)).
    { intros p q Q1 Q2. pose proof (AP p q Q1 Q2) as Q3. unfold ap in *. replace (- p - - q) with (- (p - q)) by ring. rewrite Rabs_Ropp. auto. }
    assert (A0 : ap 92 0 0) by (unfold ap; rewrite Rminus_0_r, Rabs_R0; lra).
    assert (SQ : forall q, Rabs q <= 1 -> Rabs (q * q) <= 1 /\ Rabs (1 - q * q) <= 1).
    { intros q Q. pose proof (abs_mult_le q q 1 1 Q Q). split; [lra|]. assert (0 <= q * q) by nra. rewrite Rabs_right in H by lra. apply Rabs_le. lra. }
    assert (PR : forall p q, Rabs p <= 1 -> Rabs q <= 1 -> Rabs (p * q) <= 1 /\ Rabs (0 - p * q) <= 1).
    { intros p q P Q. pose proof (abs_mult_le p q 1 1 P Q). rewrite Rminus_0_l, Rabs_Ropp. lra. }
    assert (R0 : Rabs 0 <= 1) by (rewrite Rabs_R0; lra).
    assert (RN : forall q, Rabs q <= 1 -> Rabs (- q) <= 1) by (intros; rewrite Rabs_Ropp; auto).
    unfold axis_rot, outer, cross_matrix, madd, mscale, msub, mid, vadd, vscale, vsub. cbn [row0 row1 row2 vx vy vz].
    intros r c I. cbn [In] in I. destruct I as [I|[I|[I|[] ] ] ]; injection I as <- <-; cbn [vx vy vz];
      (repeat split; apply entry_close; auto; try apply SQ; try apply PR; auto).
Qed.
End Matrix.
