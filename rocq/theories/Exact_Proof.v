(** Lemmas on scaled edges: Hadamard's inequality in space and its equality case. *)
Require Import Reals ZArith List Bool Lra Psatz.
From Verif Require Import Base Vec3 Isometry_Model Isometry_Proof Remap_Model Remap_Spec Remap_Proof Remap_Proof2 Remap_Proof3 Remap_Proof4 Box_Spec Exact_Spec.
Open Scope R_scope.

Lemma vnorm_sq2 : forall v, vnorm v ^ 2 = vdot v v.
Proof. intros v. unfold vnorm. apply pow2_sqrt. unfold vdot. nra. Qed.
(** |a|^2 |b|^2 |c|^2 - det^2, when the scaled vectors are not orthogonal. *)
Lemma gram : forall a b c, mdet (M a b c) ^ 2 =
  vdot a a * vdot b b * vdot c c + 2 * vdot a b * vdot b c * vdot a c - vdot a a * vdot b c ^ 2 - vdot b b * vdot a c ^ 2 - vdot c c * vdot a b ^ 2.
Proof. intros [a1 a2 a3] [b1 b2 b3] [c1 c2 c3]. unfold mdet, vdot, vcross. cbn [row0 row1 row2 vx vy vz]. ring. Qed.
Lemma cauchy : forall a b, vdot a b ^ 2 <= vdot a a * vdot b b.
Proof.
  intros [a1 a2 a3] [b1 b2 b3]. unfold vdot. cbn [vx vy vz].
  pose proof (pow2_ge_0 (a1 * b2 - a2 * b1)). pose proof (pow2_ge_0 (a1 * b3 - a3 * b1)). pose proof (pow2_ge_0 (a2 * b3 - a3 * b2)). nra.
Qed.
(** Gram's determinant, for squares of lengths p, q, r and scalar products x, y, z. *)
Lemma hadamard_gap : forall p q r x y z, 0 < p -> 0 < q -> 0 < r -> z ^ 2 <= p * q -> x ^ 2 <= q * r -> y ^ 2 <= p * r ->
  2 * x * y * z <= p * x ^ 2 + q * y ^ 2 + r * z ^ 2 /\ (p * x ^ 2 + q * y ^ 2 + r * z ^ 2 - 2 * x * y * z = 0 -> x = 0 /\ y = 0 /\ z = 0).
Proof.
  intros p q r x y z P Q R Z X Y.
  (* p (p x^2 + q y^2 + r z^2 - 2xyz) = (p x - y z)^2 + (p q - z^2) y^2 + ... *)
  assert (E : p * (p * x ^ 2 + q * y ^ 2 + r * z ^ 2 - 2 * x * y * z) = (p * x - y * z) ^ 2 + (p * q - z ^ 2) * y ^ 2 + p * r * z ^ 2) by ring.
  assert (A : 0 <= (p * x - y * z) ^ 2) by apply pow2_ge_0.
  assert (B : 0 <= (p * q - z ^ 2) * y ^ 2) by (apply Rmult_le_pos; [lra|apply pow2_ge_0]).
  assert (C : 0 <= p * r * z ^ 2) by (apply Rmult_le_pos; [nra|apply pow2_ge_0]).
  split; [assert (0 <= p * (p * x ^ 2 + q * y ^ 2 + r * z ^ 2 - 2 * x * y * z)) by lra; nra|].
  intros H. rewrite H, Rmult_0_r in E.
  assert (z = 0). { assert (p * r * z ^ 2 = 0) by lra. assert (z ^ 2 = 0) by (apply Rmult_eq_reg_l with (p * r); [lra|nra]). nra. } subst z.
  assert (y = 0). { assert ((p * q - 0 ^ 2) * y ^ 2 = 0) by lra. assert (y ^ 2 = 0) by (apply Rmult_eq_reg_l with (p * q); [lra|nra]). nra. } subst y.
  split; [|auto]. assert ((p * x - 0 * 0) ^ 2 = 0) by lra. assert (p * x = 0) by nra. apply Rmult_integral in H1. destruct H1; lra.
Qed.
Lemma nonneg_sq_eq : forall a b, 0 <= a -> 0 <= b -> a ^ 2 = b ^ 2 -> a = b.
Proof. intros a b A B E. apply Rsqr_inj; auto. unfold Rsqr. lra. Qed.
Lemma hadamard : forall a b c, 0 < mdet (M a b c) -> mdet (M a b c) <= vnorm a * vnorm b * vnorm c /\
  (vnorm a * vnorm b * vnorm c = mdet (M a b c) <-> vdot a b = 0 /\ vdot a c = 0 /\ vdot b c = 0).
Proof.
  intros a b c D. set (d := mdet (M a b c)) in *.
  assert (NZ : forall v, v = vzero -> v = a \/ v = b \/ v = c -> False).
  { intros v -> H. unfold d, mdet in D. destruct H as [H|[H|H] ]; rewrite <- H in D; unfold vdot, vcross, vzero in D; cbn in D; lra. }
  assert (POS : forall v, v = a \/ v = b \/ v = c -> 0 < vdot v v).
  { intros v H. assert (v <> vzero) by (intros E; exact (NZ v E H)). assert (0 <= vdot v v) by (unfold vdot; nra). destruct (Req_dec (vdot v v) 0) as [E|E]; [|lra].
    exfalso. apply H0. destruct v as [v1 v2 v3]. unfold vdot in E. cbn in E. unfold vzero. f_equal; nra. }
  pose proof (POS a ltac:(auto)) as Pa. pose proof (POS b ltac:(auto)) as Pb. pose proof (POS c ltac:(auto)) as Pc.
  destruct (hadamard_gap (vdot a a) (vdot b b) (vdot c c) (vdot b c) (vdot a c) (vdot a b) Pa Pb Pc (cauchy _ _) (cauchy _ _) (cauchy _ _)) as [LE EQ].
  pose proof (gram a b c) as G. fold d in G.
  assert (N : 0 <= vnorm a * vnorm b * vnorm c) by (repeat apply Rmult_le_pos; unfold vnorm; apply sqrt_pos).
  assert (S : (vnorm a * vnorm b * vnorm c) ^ 2 = vdot a a * vdot b b * vdot c c) by (rewrite !Rpow_mult_distr, !vnorm_sq2; ring).
  split.
  - apply Rsqr_incr_0_var; auto. unfold Rsqr. nra.
  - split; intros H.
    + rewrite <- H, S in G. destruct (EQ ltac:(lra)) as (A & B & C). auto.
    + destruct H as (A & B & C). apply nonneg_sq_eq; [auto|lra|]. rewrite S, G, A, B, C. ring.
Qed.
Lemma scaled_det : forall s a b c, mdet (M (vmul s a) (vmul s b) (vmul s c)) = vx s * vy s * vz s * mdet (M a b c).
Proof. intros [s1 s2 s3] [a1 a2 a3] [b1 b2 b3] [c1 c2 c3]. unfold mdet, vdot, vcross, vmul. cbn [row0 row1 row2 vx vy vz]. ring. Qed.
(** Orthogonal vectors that stay so when they are scaled: each is along axes of equal sides. *)
Lemma expand : forall e1 e2 e3 v, mdet (M e1 e2 e3) <> 0 -> vdot e1 e2 = 0 -> vdot e1 e3 = 0 -> vdot e2 e3 = 0 -> vdot v e2 = 0 -> vdot v e3 = 0 ->
  v = vscale (vdot v e1 / vdot e1 e1) e1.
Proof.
  intros e1 e2 e3 v D A B C V2 V3.
  assert (N : vdot e1 e1 <> 0). { intros E. apply D. destruct e1 as [x y z]. unfold vdot in E. cbn in E. assert (x = 0) by nra. assert (y = 0) by nra. assert (z = 0) by nra. subst. unfold mdet, vdot, vcross. destruct e2, e3. cbn. ring. }
  set (d := vsub v (vscale (vdot v e1 / vdot e1 e1) e1)).
  assert (Z1 : vdot d e1 = 0). { unfold d. transitivity (vdot v e1 - vdot v e1 / vdot e1 e1 * vdot e1 e1); [destruct v, e1; unfold vdot, vsub, vadd, vopp, vscale; cbn; ring|field; auto]. }
  assert (Z2 : vdot d e2 = 0). { unfold d. transitivity (vdot v e2 - vdot v e1 / vdot e1 e1 * vdot e1 e2); [destruct v, e1, e2; unfold vdot, vsub, vadd, vopp, vscale; cbn; ring|rewrite V2, A; ring]. }
  assert (Z3 : vdot d e3 = 0). { unfold d. transitivity (vdot v e3 - vdot v e1 / vdot e1 e1 * vdot e1 e3); [destruct v, e1, e3; unfold vdot, vsub, vadd, vopp, vscale; cbn; ring|rewrite V3, B; ring]. }
  assert (Z : d = vzero).
  { clearbody d. destruct d as [d1 d2 d3]. destruct e1 as [a1 a2 a3], e2 as [b1 b2 b3], e3 as [c1 c2 c3]. unfold mdet, vdot, vcross in *. cbn [row0 row1 row2 vx vy vz] in *.
    assert (K : forall t, (a1 * (b2 * c3 - b3 * c2) + a2 * (b3 * c1 - b1 * c3) + a3 * (b1 * c2 - b2 * c1)) * t = 0 -> t = 0) by (intros t H; apply Rmult_integral in H; destruct H; [contradiction|auto]).
    unfold vzero. f_equal; apply K.
    - transitivity ((d1 * a1 + d2 * a2 + d3 * a3) * (b2 * c3 - b3 * c2) + (d1 * b1 + d2 * b2 + d3 * b3) * (c2 * a3 - c3 * a2) + (d1 * c1 + d2 * c2 + d3 * c3) * (a2 * b3 - a3 * b2)); [ring|rewrite Z1, Z2, Z3; ring].
    - transitivity ((d1 * a1 + d2 * a2 + d3 * a3) * (b3 * c1 - b1 * c3) + (d1 * b1 + d2 * b2 + d3 * b3) * (c3 * a1 - c1 * a3) + (d1 * c1 + d2 * c2 + d3 * c3) * (a3 * b1 - a1 * b3)); [ring|rewrite Z1, Z2, Z3; ring].
    - transitivity ((d1 * a1 + d2 * a2 + d3 * a3) * (b1 * c2 - b2 * c1) + (d1 * b1 + d2 * b2 + d3 * b3) * (c1 * a2 - c2 * a1) + (d1 * c1 + d2 * c2 + d3 * c3) * (a1 * b2 - a2 * b1)); [ring|rewrite Z1, Z2, Z3; ring]. }
  unfold d in Z. clear - Z. destruct v as [v1 v2 v3]. set (t := vdot _ e1 / vdot e1 e1) in *. clearbody t. destruct e1 as [x y z]. unfold vsub, vadd, vopp, vscale, vzero in *. cbn in *. injection Z as H1 H2 H3. f_equal; lra.
Qed.
Lemma stretched : forall s e t, positive s -> vmul s (vmul s e) = vscale t e -> joins_equal_sides s e.
Proof.
  intros [s1 s2 s3] [x y z] t (P1 & P2 & P3) H. unfold vmul, vscale in H. cbn in *. injection H as H1 H2 H3. unfold joins_equal_sides. cbn.
  assert (K : forall s u, 0 < s -> u <> 0 -> s * (s * u) = t * u -> s ^ 2 = t) by (intros s u S U E; apply Rmult_eq_reg_r with u; [lra|auto]).
  split; [|split]; intros A B; apply nonneg_sq_eq; try lra; (etransitivity; [eapply K; [| |eassumption]; auto|symmetry; eapply K; [| |eassumption]; auto]).
Qed.
Lemma equal_sides : forall s e, joins_equal_sides s e -> exists t, vmul s (vmul s e) = vscale t e.
Proof.
  intros [s1 s2 s3] [x y z] (A & B & C). cbn in *. unfold vmul, vscale. cbn.
  destruct (Req_dec x 0) as [-> |X]; [destruct (Req_dec y 0) as [-> |Y]; [exists (s3 * s3); f_equal; ring|]|].
  - exists (s2 * s2). destruct (Req_dec z 0) as [-> |Z]; [f_equal; ring|rewrite (C Y Z); f_equal; ring].
  - exists (s1 * s1). f_equal; [ring| |].
    + destruct (Req_dec y 0) as [-> |Y]; [ring|rewrite (A X Y); ring].
    + destruct (Req_dec z 0) as [-> |Z]; [ring|rewrite (B X Z); ring].
Qed.
Lemma vdot_vmul : forall s a b, vdot (vmul s a) (vmul s b) = vdot (vmul s (vmul s a)) b.
Proof. intros [s1 s2 s3] [a1 a2 a3] [b1 b2 b3]. unfold vdot, vmul. cbn. ring. Qed.
Lemma orthogonal_scaled : forall s e1 e2 e3, positive s -> mdet (M e1 e2 e3) <> 0 -> vdot e1 e2 = 0 -> vdot e1 e3 = 0 -> vdot e2 e3 = 0 ->
  (vdot (vmul s e1) (vmul s e2) = 0 /\ vdot (vmul s e1) (vmul s e3) = 0 /\ vdot (vmul s e2) (vmul s e3) = 0 <->
   joins_equal_sides s e1 /\ joins_equal_sides s e2 /\ joins_equal_sides s e3).
Proof.
  intros s e1 e2 e3 P D A B C. assert (COM : forall a b, vdot a b = vdot b a) by (intros [a1 a2 a3] [b1 b2 b3]; unfold vdot; cbn; ring). split.
  - intros (H12 & H13 & H23). split; [|split].
    + apply (stretched s e1 (vdot (vmul s (vmul s e1)) e1 / vdot e1 e1) P). apply (expand e1 e2 e3); auto; rewrite <- vdot_vmul; auto.
    + apply (stretched s e2 (vdot (vmul s (vmul s e2)) e2 / vdot e2 e2) P). apply (expand e2 e3 e1); auto; try (rewrite COM; auto; fail); try (rewrite <- vdot_vmul; auto; rewrite COM; auto; fail).
      replace (mdet (M e2 e3 e1)) with (mdet (M e1 e2 e3)) by (destruct e1, e2, e3; unfold mdet, vdot, vcross; cbn; ring). auto.
    + apply (stretched s e3 (vdot (vmul s (vmul s e3)) e3 / vdot e3 e3) P). apply (expand e3 e1 e2); auto; try (rewrite COM; auto; fail); try (rewrite <- vdot_vmul, COM; auto; fail).
      replace (mdet (M e3 e1 e2)) with (mdet (M e1 e2 e3)) by (destruct e1, e2, e3; unfold mdet, vdot, vcross; cbn; ring). auto.
  - assert (K : forall a b, joins_equal_sides s a -> vdot a b = 0 -> vdot (vmul s a) (vmul s b) = 0).
    { intros a b J O. destruct (equal_sides s a J) as [t E]. rewrite vdot_vmul, E. transitivity (t * vdot a b); [destruct a, b; unfold vdot, vscale; cbn; ring|rewrite O; ring]. }
    intros (J1 & J2 & J3). auto.
Qed.
