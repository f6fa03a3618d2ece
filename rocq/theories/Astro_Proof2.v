(** Lemmas for C101: the computed distance, sine, right ascension, factors. *)
Require Import Reals Lra Lia ZArith Bool.
From Verif Require Import Base Vec3 Isometry_Proof Sky_Model Sky_Spec Sky_Proof Round_Model Drift_Spec Drift_Proof Astro_Model Astro_Spec Astro_Proof.
Open Scope R_scope.

Section Errors.
Variables (u d : R) (rnd : R -> R).
Hypothesis U : 0 <= u <= 1 / 1000.
Hypothesis A : accurate u rnd.

Lemma rnd_rel : forall x, rel u (rnd x) x. Proof. exact A. Qed.
Lemma rnd_zero : rnd 0 = 0.
Proof. pose proof (A 0) as H. rewrite Rabs_R0, Rmult_0_r in H. pose proof (Rabs_pos (rnd 0 - 0)). destruct (Req_dec (rnd 0) 0) as [|N]; auto. pose proof (Rabs_pos_lt (rnd 0 - 0)). lra. Qed.
Lemma rnd_pos : forall x, 0 <= x -> (1 - u) * x <= rnd x <= (1 + u) * x.
Proof. intros x X. pose proof (A x) as H. rewrite (Rabs_right x) in H by lra. pose proof (Rle_abs (rnd x - x)). pose proof (Rle_abs (- (rnd x - x))) as K. rewrite Rabs_Ropp in K. lra. Qed.

Lemma small : u * u <= u / 1000. Proof. nra. Qed.
Lemma dist_rel : forall p, rel (4 * u) (fl_distance rnd p) (vnorm p).
Proof.
  intros [x y z]. unfold fl_distance, vnorm, vdot. cbn [vx vy vz].
  pose proof (rnd_pos (x * x) ltac:(nra)) as X. pose proof (rnd_pos (y * y) ltac:(nra)) as Y. pose proof (rnd_pos (z * z) ltac:(nra)) as Z.
  assert (X0 : 0 <= x * x) by nra. assert (Y0 : 0 <= y * y) by nra. assert (Z0 : 0 <= z * z) by nra.
  set (a := rnd (x * x)) in *. set (b := rnd (y * y)) in *. set (c := rnd (z * z)) in *. set (q := x * x) in *. set (r := y * y) in *. set (t := z * z) in *.
  assert (0 <= a) by nra. assert (0 <= b) by nra. assert (0 <= c) by nra. pose proof (rnd_pos (a + b) ltac:(lra)) as S. set (s := rnd (a + b)) in *.
  assert (S0 : 0 <= s) by nra. pose proof (rnd_pos (s + c) ltac:(lra)) as W. set (w := rnd (s + c)) in *. set (n := q + r + t).
  assert (L1 : (1 - u) * (1 - u) * (q + r) <= s <= (1 + u) * (1 + u) * (q + r)) by (split; nra).
  assert (L2 : (1 - u) * (1 - u) * n <= s + c <= (1 + u) * (1 + u) * n) by (unfold n; split; nra).
  assert (N0 : 0 <= n) by (unfold n; lra).
  assert (L3 : (1 - u) * ((1 - u) * (1 - u) * n) <= w <= (1 + u) * ((1 + u) * (1 + u) * n)) by (split; nra).
  assert (L4 : (1 - 2 * u) * sqrt n <= sqrt w <= (1 + 2 * u) * sqrt n).
  { replace (1 - 2 * u) with (sqrt ((1 - 2 * u) * (1 - 2 * u))) by (apply sqrt_square; lra). replace (1 + 2 * u) with (sqrt ((1 + 2 * u) * (1 + 2 * u))) by (apply sqrt_square; lra).
    rewrite <- !sqrt_mult by nra. split; apply sqrt_le_1_alt.
    - apply Rle_trans with ((1 - u) * ((1 - u) * (1 - u) * n)); [|lra]. rewrite <- !Rmult_assoc. apply Rmult_le_compat_r; [exact N0|]. nra.
    - apply Rle_trans with ((1 + u) * ((1 + u) * (1 + u) * n)); [lra|]. rewrite <- !Rmult_assoc. apply Rmult_le_compat_r; [exact N0|]. nra. }
  pose proof (sqrt_pos n) as P. pose proof (sqrt_pos w) as P'. pose proof (rnd_pos (sqrt w) P') as F. unfold rel. rewrite (Rabs_right (sqrt n)) by lra. apply Rabs_le. split; nra.
Qed.
Lemma sine_near : forall p, p <> vzero -> exists s, fl_sine rnd p = Some s /\ Rabs (s - vz p / vnorm p) <= 6 * u.
Proof.
  intros p N. pose proof (vnorm_pos p N) as P. destruct (rel_inv (4 * u) (fl_distance rnd p) (vnorm p) ltac:(lra) ltac:(lra) (dist_rel p)) as (D & I).
  unfold fl_sine. destruct (Req_EM_T (fl_distance rnd p) 0) as [E|_]; [contradiction|]. exists (rnd (vz p / fl_distance rnd p)). split; [reflexivity|].
  assert (R : rel (6 * u) (rnd (vz p / fl_distance rnd p)) (vz p / vnorm p)).
  { eapply rel_weak; [|eapply rel_trans; [| |apply rnd_rel|unfold Rdiv; apply rel_mult; exact I] ]; pose proof small; nra. }
  unfold rel in R. assert (Q : Rabs (vz p / vnorm p) <= 1).
  { destruct (coord_le p) as (_ & _ & C). unfold Rdiv. rewrite Rabs_mult, (Rabs_right (/ vnorm p)) by (apply Rle_ge, Rlt_le, Rinv_0_lt_compat; exact P).
    apply Rmult_le_reg_r with (vnorm p); [exact P|]. rewrite Rmult_assoc, Rinv_l by lra. lra. }
  pose proof (Rabs_pos (vz p / vnorm p)). nra.
Qed.

Lemma conv_rel : forall degree, rel (3 * u) (fl_conversion rnd degree) (conversion degree).
Proof.
  intros []; unfold fl_conversion, conversion; [|apply rel_refl; lra]. eapply rel_weak; [|eapply rel_trans; [| |apply rnd_rel|] ].
  4: { replace (fl_pi rnd / 180) with (/ 180 * fl_pi rnd) by field. replace (PI / 180) with (/ 180 * PI) by field. apply rel_mult. apply rnd_rel. }
  all: nra.
Qed.
Lemma times_conv : forall degree x, rel (5 * u) (rnd (x * fl_conversion rnd degree)) (x * conversion degree).
Proof. intros degree x. eapply rel_weak; [|eapply rel_trans; [| |apply rnd_rel|apply rel_mult; apply conv_rel] ]; pose proof small; nra. Qed.
Lemma over_conv : forall degree x, rel (5 * u) (rnd (x / fl_conversion rnd degree)) (x / conversion degree).
Proof.
  intros degree x. pose proof (conversion_pos degree). destruct (rel_inv (3 * u) (fl_conversion rnd degree) (conversion degree) ltac:(lra) ltac:(lra) (conv_rel degree)) as (N & I).
  eapply rel_weak; [|eapply rel_trans; [| |apply rnd_rel|unfold Rdiv; apply rel_mult; exact I] ]; pose proof small; nra.
Qed.

Lemma turn_rel : rel (3 * u) (fl_turn rnd) (2 * PI).
Proof. eapply rel_weak; [|eapply rel_trans; [| |apply rnd_rel|apply rel_mult; apply rnd_rel] ]; pose proof small; nra. Qed.
Lemma abs_split : forall x e, Rabs x <= e -> - e <= x <= e.
Proof. intros x e H. pose proof (Rle_abs x). pose proof (Rle_abs (- x)). rewrite Rabs_Ropp in *. lra. Qed.
Lemma wrap_near : forall a, Rabs a <= 3.5 -> exists k : Z, Rabs (fl_wrap_angle rnd false a - a - IZR k * (2 * PI)) <= 39 * u /\ Rabs (fl_wrap_angle rnd false a) <= 6.8.
Proof.
  intros a H. pose proof PI_above3. pose proof PI_below. unfold fl_wrap_angle. rewrite Rmult_1_r. replace (fl_mod rnd (rnd a) (fl_turn rnd) / 1) with (fl_mod rnd (rnd a) (fl_turn rnd)) by field. pose proof (A a) as A1. set (b := rnd a) in *.
  apply abs_split in H. assert (A1' : Rabs (b - a) <= 3.5 * u) by (pose proof (Rabs_le a 3.5 H); nra). clear A1. apply abs_split in A1'.
  pose proof turn_rel as T. unfold rel in T. rewrite (Rabs_right (2 * PI)) in T by lra. assert (T' : Rabs (fl_turn rnd - 2 * PI) <= 21 * u) by nra. clear T. apply abs_split in T'. set (t := fl_turn rnd) in *.
  assert (E : b - t * IZR (Rtrunc (b / t)) = b).
  { rewrite Rtrunc_small; [ring|]. assert (P : 0 < t) by lra. split; apply Rmult_lt_reg_r with t; try exact P; unfold Rdiv; rewrite Rmult_assoc, Rinv_l by lra; lra. }
  unfold fl_mod. rewrite E. assert (Ft : Rltb t 0 = false) by (apply Rltb_false; lra). rewrite Ft, xorb_false_l.
  assert (G : exists k : Z, Rabs ((if Req_EM_T b 0 then 0 else if Rltb b 0 then rnd (b + t) else b) - a - IZR k * (2 * PI)) <= 32 * u /\ Rabs (if Req_EM_T b 0 then 0 else if Rltb b 0 then rnd (b + t) else b) <= 6.75).
  { destruct (Req_EM_T b 0) as [Z|N].
    - exists 0%Z. rewrite Rabs_R0. split; [apply Rabs_le; lra|lra].
    - destruct (Rltb b 0) eqn:L.
      + apply Rltb_true in L. exists 1%Z. pose proof (rnd_pos (b + t) ltac:(lra)) as Q. rewrite Rmult_1_l. assert (u * (b + t) <= u * 6.71) by (apply Rmult_le_compat_l; lra). split; apply Rabs_le; lra.
      + exists 0%Z. split; apply Rabs_le; lra. }
  destruct G as (k & G1 & G2). exists k. set (r := if Req_EM_T b 0 then 0 else _) in *. pose proof (A r) as Ar. assert (Ar' : Rabs (rnd r - r) <= 6.75 * u) by (assert (u * Rabs r <= u * 6.75) by (apply Rmult_le_compat_l; lra); lra).
  apply abs_split in G1. apply abs_split in G2. apply abs_split in Ar'. split; apply Rabs_le; lra.
Qed.
End Errors.
