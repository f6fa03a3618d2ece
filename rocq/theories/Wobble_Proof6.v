(** Proofs: a sheared box in double precision. *)
Require Import Reals ZArith QArith Qreals List Bool Lra Lia SpecFloat.
From Verif Require Import Base Vec3 Remap_Model Remap_Spec Remap_Proof Remap_Proof2 Remap_Proof3 Wobble_Model Wobble_Spec Wobble_Proof Wobble_Proof2 Wobble_Proof3 Wobble_Proof4 Wobble_Proof5 Round_Spec.
Import ListNotations.
Close Scope Q_scope.
Open Scope R_scope.

Lemma keep_sub : forall l k, keep_faces l = Some k -> forall f, In f k -> In f l.
Proof.
  induction l as [|g l IH]; intros k E f I; cbn in E.
  - injection E as <-. destruct I.
  - destruct (test_unit_cube g =? -1)%Z; [discriminate|]. destruct (keep_faces l) as [k'|]; [|discriminate]. injection E as <-.
    destruct (test_unit_cube g =? 0)%Z; [destruct I as [<- | I]; [now left|]|]; right; eapply IH; eauto.
Qed.
Lemma cells_normals : forall e1 e2 e3 n1 n2 n3 c f, In c (cuboid_cells e1 e2 e3 n1 n2 n3) -> In f (c_faces c) ->
  In (pl_n f) [n1; vopp n1; n2; vopp n2; n3; vopp n3].
Proof.
  intros e1 e2 e3 n1 n2 n3 c f I F. unfold cuboid_cells in I. set (l := flat_map _ _) in I.
  assert (J : In c l).
  { destruct l as [|a l']; [|exact I]. destruct I as [<- | []]. destruct F. }
  unfold l in J. apply in_flat_map in J. destruct J as [i [_ J]]. unfold tile_cell in J.
  destruct (keep_faces _) as [[|g k]|] eqn:K; try destruct J as [<- | []]; try destruct J.
  apply (keep_sub _ _ K) in F. cbn in F. repeat (destruct F as [<- | F]; [cbn; tauto|]). destruct F.
Qed.
Lemma prel_unit : forall f g K, prel (upp f) g -> scalar (gp_n f) (gp_n f) = 1 -> 0 < K ->
  K * K * (Q2R (qx (qn g)) * Q2R (qx (qn g)) + Q2R (qy (qn g)) * Q2R (qy (qn g)) + Q2R (qz (qn g)) * Q2R (qz (qn g))) = 1 ->
  f = GPlane (GV (K * Q2R (qx (qn g))) (K * Q2R (qy (qn g))) (K * Q2R (qz (qn g)))) (K * Q2R (qd g)).
Proof.
  intros [[a b c] d] [[x y z] e] K [k [Hk T]] U HK Q. cbn in *.
  assert (T' : forall p, a * Q2R (qx p) + b * Q2R (qy p) + c * Q2R (qz p) + d = k * (Q2R x * Q2R (qx p) + Q2R y * Q2R (qy p) + Q2R z * Q2R (qz p) + Q2R e)).
  { intros p. specialize (T p). unfold plane_test, qtest, qdot in T. cbn in T. rewrite !Q2R_plus, !Q2R_mult in T. unfold rdot in T. cbn in T. lra. }
  pose proof (T' (QV 0 0 0)) as T0. pose proof (T' (QV 1 0 0)) as T1. pose proof (T' (QV 0 1 0)) as T2. pose proof (T' (QV 0 0 1)) as T3. cbn in T0, T1, T2, T3.
  rewrite RMicromega.Q2R_0, ?RMicromega.Q2R_1 in *.
  assert (Ed : d = k * Q2R e) by lra. assert (Ea : a = k * Q2R x) by lra. assert (Eb : b = k * Q2R y) by lra. assert (Ec : c = k * Q2R z) by lra.
  unfold scalar in U; cbn in U. set (N := Q2R x * Q2R x + Q2R y * Q2R y + Q2R z * Q2R z) in *.
  assert (k * k * N = 1) by (subst a b c; unfold N; lra).
  assert (k = K). { assert (N <> 0) by (intros Z0; rewrite Z0 in Q; lra). assert (S : (k - K) * (k + K) * N = 0) by lra.
    apply Rmult_integral in S. destruct S as [S|S]; [|contradiction]. apply Rmult_integral in S. lra. }
  subst. reflexivity.
Qed.
Lemma rel_cons : forall {X Y Z : Type} (h : X -> Y) (r : Y -> Z -> Prop) l z m, Forall2 r (map h l) (z :: m) -> exists k l', l = k :: l' /\ r (h k) z /\ Forall2 r (map h l') m.
Proof. intros X Y Z h r [|k l] z m H; cbn in H; inversion H; subst. exists k, l. auto. Qed.
Lemma rel_nil : forall {X Y Z : Type} (h : X -> Y) (r : Y -> Z -> Prop) l, Forall2 r (map h l) [] -> l = [].
Proof. intros X Y Z h r [|k l] H; [reflexivity|inversion H]. Qed.
Definition root : R := sqrt (1 / 2).
Lemma root_sqr : root * root = 1 / 2. Proof. apply sqrt_sqrt. lra. Qed.
Lemma root_pos : 0 < root. Proof. apply sqrt_lt_R0. lra. Qed.
Definition shear_exact : gcuboid R :=
  let h := root in
  GCuboid (GV 1 1 1) (GV h h 0) (GV (- h) h 0) (GV 0 0 1) (GV 1 1 1)
    [GCell (-1, 0, 0)%Z [GPlane (GV h h 0) (- h); GPlane (GV h (- h) 0) 0]; GCell (0, 0, 0)%Z [GPlane (GV (- h) h 0) 0];
     GCell (0, 1, 0)%Z [GPlane (GV (- h) (- h) 0) h; GPlane (GV h (- h) 0) 0]].
Lemma shear_new : gcuboid_new exact (1, 1, 0)%Z (0, 1, 0)%Z (0, 0, 1)%Z (GV 1 1 1) = Ok shear_exact.
Proof.
  pose proof root_sqr as RS. pose proof root_pos as RP.
  assert (U : unimodular (1, 1, 0)%Z (0, 1, 0)%Z (0, 0, 1)%Z) by reflexivity.
  destruct (new_up (1, 1, 0)%Z (0, 1, 0)%Z (0, 0, 1)%Z (GV 1 1 1) U) as (c & c' & E & E' & (S0 & S1 & S2 & S3 & S4 & S5) & B).
  refine (eq_trans E _). f_equal.
  set (q1 := QV 1 1 0). set (q2 := QV (-1 # 2) (1 # 2) 0). set (q3 := QV 0 0 1).
  assert (Q1 : qr q1 = V 1 1 0) by (unfold qr, q1, Q2R; cbn; f_equal; field).
  assert (Q2 : qr q2 = V (- (1 / 2)) (1 / 2) 0) by (unfold qr, q2, Q2R; cbn; f_equal; field).
  assert (Q3 : qr q3 = V 0 0 1) by (unfold qr, q3, Q2R; cbn; f_equal; field).
  assert (G : gram_schmidt (real (1, 1, 0)%Z) (real (0, 1, 0)%Z) (real (0, 0, 1)%Z) (qr q1) (qr q2) (qr q3)).
  { rewrite Q1, Q2, Q3. split; [reflexivity|]. split; [exists (- (1 / 2)); unfold vadd, vscale; cbn; f_equal; lra|].
    split; [exists 0, 0; unfold vadd, vscale; cbn; f_equal; lra|]. unfold vdot; cbn. repeat split; lra. }
  pose proof (cuboid_ok _ _ _ _ _ _ (vec_of_gvec (GV 1 1 1)) (unimodular_det3 _ _ _ U) G) as K. rewrite E' in K. injection K as ->.
  assert (N1 : vnorm (V 1 1 0) = 2 * root).
  { unfold vnorm, vdot; cbn. replace (1 * 1 + 1 * 1 + 0 * 0) with ((2 * root) * (2 * root)) by lra. apply sqrt_square. lra. }
  assert (N2 : vnorm (V (- (1 / 2)) (1 / 2) 0) = root).
  { unfold vnorm, vdot; cbn. replace (- (1 / 2) * - (1 / 2) + 1 / 2 * (1 / 2) + 0 * 0) with (root * root) by lra. apply sqrt_square. lra. }
  assert (N3 : vnorm (V 0 0 1) = 1) by (unfold vnorm, vdot; cbn; replace (0 * 0 + 0 * 0 + 1 * 1) with 1 by ring; apply sqrt_1).
  assert (M : Forall2 crel (map upc (gu_cells c)) (qcells q1 q2 q3)).
  { refine (eq_ind _ (fun l => Forall2 crel l _) _ _ S5). apply cells_R; rewrite ?Q1, ?Q2, ?Q3, ?N1, ?N2, ?N3; lra. }
  assert (I1 : / (2 * root) = root) by (apply Rmult_eq_reg_r with (2 * root); [rewrite Rinv_l by lra; lra|lra]).
  assert (I2 : / root = 2 * root) by (apply Rmult_eq_reg_r with root; [rewrite Rinv_l by lra; lra|lra]).
  cbn [cuboid_of cu_n1 cu_n2 cu_n3 cu_resize cu_cells] in S1, S2, S3, S4, S5. unfold cells in S5. rewrite Q1, Q2, Q3 in *.
  assert (T1 : nrm (V 1 1 0) = V root root 0) by (unfold nrm; rewrite N1, I1; unfold vscale; cbn; f_equal; lra).
  assert (T2 : nrm (V (- (1 / 2)) (1 / 2) 0) = V (- root) root 0) by (unfold nrm; rewrite N2, I2; unfold vscale; cbn; f_equal; lra).
  assert (T3 : nrm (V 0 0 1) = V 0 0 1) by (unfold nrm; rewrite N3; unfold vscale; cbn; f_equal; lra).
  rewrite T1, T2, T3 in *.
  assert (Un : forall k f, In k (gu_cells c) -> In f (gc_faces k) -> scalar (gp_n f) (gp_n f) = 1).
  { intros k f Ik If. assert (J : In (upc k) (cuboid_cells (V 1 1 0) (V (- (1 / 2)) (1 / 2) 0) (V 0 0 1) (V root root 0) (V (- root) root 0) (V 0 0 1))).
    { refine (eq_ind _ (fun l => In (upc k) l) (in_map upc _ _ Ik) _ (eq_sym S5)). }
    pose proof (cells_normals _ _ _ _ _ _ _ (upp f) J (in_map upp _ _ If)) as H. destruct f as [[x y z] d]. unfold scalar. cbn in *.
    assert (A : forall p q r, V p q r = V x y z -> p * p + q * q + r * r = 1 -> x * x + y * y + z * z = 1) by (intros p q r EQ; injection EQ as -> -> ->; auto).
    repeat (destruct H as [H | H]; [unfold vopp in H; cbn in H; apply A in H; lra|]). destruct H. }
  assert (Z : forall m v, m = vec_of_gvec v -> v = GV (vx m) (vy m) (vz m)) by (intros m [] ->; reflexivity).
  assert (L : forall a b e, a * a + b * b + e * e = 1 -> vnorm (vmul (vec_of_gvec (GV 1 1 1)) (V a b e)) = 1).
  { intros a b e H. unfold vnorm, vdot, vmul; cbn. replace (1 * a * (1 * a) + 1 * b * (1 * b) + 1 * e * (1 * e)) with 1 by lra. apply sqrt_1. }
  rewrite !L in S4 by lra. apply Z in S1, S2, S3, S4. cbn [vx vy vz] in *.
  assert (C : gu_cells c = gu_cells shear_exact).
  { assert (V1 : qcells q1 q2 q3 = [QC (-1, 0, 0)%Z [QP (QV 1 1 0) (-1); QP (QV (1 # 2) (-1 # 2) 0) (0 # 64)]; QC (0, 0, 0)%Z [QP (QV (-1 # 2) (1 # 2) 0) (0 # 4)];
      QC (0, 1, 0)%Z [QP (QV (-1) (-1) 0) 1; QP (QV (1 # 2) (-1 # 2) 0) (0 # 64)]]) by (vm_compute; reflexivity).
    rewrite V1 in M. clear V1. clear - M Un RS RP.
    apply rel_cons in M. destruct M as [[i1 f1] [l1 [E1 [[P1 F1] M]]]]. apply rel_cons in M. destruct M as [[i2 f2] [l2 [E2 [[P2 F2] M]]]].
    apply rel_cons in M. destruct M as [[i3 f3] [l3 [E3 [[P3 F3] M]]]]. apply rel_nil in M. cbn in P1, P2, P3, F1, F2, F3.
    apply rel_cons in F1. destruct F1 as [a1 [b1 [A1 [R1 F1]]]]. apply rel_cons in F1. destruct F1 as [a2 [b2 [A2 [R2 F1]]]]. apply rel_nil in F1.
    apply rel_cons in F2. destruct F2 as [a3 [b3 [A3 [R3 F2]]]]. apply rel_nil in F2.
    apply rel_cons in F3. destruct F3 as [a4 [b4 [A4 [R4 F3]]]]. apply rel_cons in F3. destruct F3 as [a5 [b5 [A5 [R5 F3]]]]. apply rel_nil in F3.
    subst. change (num exact) with R in *. rewrite E1 in *. 
    assert (U1 : scalar (gp_n a1) (gp_n a1) = 1) by (eapply Un; [left; reflexivity|cbn; auto]).
    assert (U2 : scalar (gp_n a2) (gp_n a2) = 1) by (eapply Un; [left; reflexivity|cbn; auto]).
    assert (U3 : scalar (gp_n a3) (gp_n a3) = 1) by (eapply Un; [right; left; reflexivity|cbn; auto]).
    assert (U4 : scalar (gp_n a4) (gp_n a4) = 1) by (eapply Un; [right; right; left; reflexivity|cbn; auto]).
    assert (U5 : scalar (gp_n a5) (gp_n a5) = 1) by (eapply Un; [right; right; left; reflexivity|cbn; auto]).
    apply (prel_unit _ _ root) in R1; [|exact U1|lra|cbn; unfold Q2R; cbn; lra].
    apply (prel_unit _ _ (2 * root)) in R2; [|exact U2|lra|cbn; unfold Q2R; cbn; lra].
    apply (prel_unit _ _ (2 * root)) in R3; [|exact U3|lra|cbn; unfold Q2R; cbn; lra].
    apply (prel_unit _ _ root) in R4; [|exact U4|lra|cbn; unfold Q2R; cbn; lra].
    apply (prel_unit _ _ (2 * root)) in R5; [|exact U5|lra|cbn; unfold Q2R; cbn; lra].
    rewrite R1, R2, R3, R4, R5. unfold shear_exact, Q2R; cbn. repeat (f_equal; try lra). }
  destruct c as [c0 c1 c2 c3 c4 c5]. cbn [gu_boxsize gu_n1 gu_n2 gu_n3 gu_resize gu_cells] in *. unfold shear_exact. subst. reflexivity.
Qed.

(** The numbers stored in double precision. *)
Definition droot : spec_float := S754_finite false 6369051672525772 (-53).
Definition mroot : spec_float := S754_finite true 6369051672525772 (-53).
Definition done_ : spec_float := S754_finite false 4503599627370496 (-52).
Definition dlast : spec_float := S754_finite false 9007199254740991 (-53).
Definition dz : spec_float := S754_zero false.
Definition mz : spec_float := S754_zero true.
Definition shear_double : gcuboid spec_float :=
  GCuboid (GV done_ done_ done_) (GV droot droot dz) (GV mroot droot dz) (GV dz dz done_) (GV dlast dlast done_)
    [GCell (-1, 0, 0)%Z [GPlane (GV droot droot dz) mroot; GPlane (GV droot mroot mz) mz]; GCell (0, 0, 0)%Z [GPlane (GV mroot droot dz) mz];
     GCell (0, 1, 0)%Z [GPlane (GV mroot mroot mz) droot; GPlane (GV droot mroot mz) mz]].
Lemma shear_double_new : gcuboid_new binary64 (1, 1, 0)%Z (0, 1, 0)%Z (0, 0, 1)%Z (GV (of_Z binary64 1) (of_Z binary64 1) (of_Z binary64 1)) = Ok shear_double.
Proof. vm_compute. reflexivity. Qed.
Definition sroot : R := 6369051672525772 / 9007199254740992.
Definition slast : R := 9007199254740991 / 9007199254740992.
Definition shear_stored : gcuboid R :=
  let h := sroot in
  GCuboid (GV 1 1 1) (GV h h 0) (GV (- h) h 0) (GV 0 0 1) (GV slast slast 1)
    [GCell (-1, 0, 0)%Z [GPlane (GV h h 0) (- h); GPlane (GV h (- h) 0) 0]; GCell (0, 0, 0)%Z [GPlane (GV (- h) h 0) 0];
     GCell (0, 1, 0)%Z [GPlane (GV (- h) (- h) 0) h; GPlane (GV h (- h) 0) 0]].
Definition ulp : R := 1 / 4503599627370496.
Lemma root_near : - ulp <= sroot - root <= ulp.
Proof.
  pose proof root_sqr. pose proof root_pos. split.
  - apply Rnot_lt_le. intros L. assert (root > sroot + ulp) by lra. assert (root * root > (sroot + ulp) * (sroot + ulp)) by (apply Rmult_gt_0_lt_compat; unfold sroot, ulp in *; lra).
    unfold sroot, ulp in *. lra.
  - apply Rnot_lt_le. intros L. assert (root < sroot - ulp) by lra. assert (root * root < (sroot - ulp) * (sroot - ulp)) by (apply Rmult_gt_0_lt_compat; unfold sroot, ulp in *; lra).
    unfold sroot, ulp in *. lra.
Qed.
Lemma shear_close : close ulp shear_stored shear_exact.
Proof.
  pose proof root_near as N. assert (B : forall x b, - b <= x <= b -> Rabs x <= b) by (intros; apply Rabs_le; auto).
  assert (O : 0 < ulp) by (unfold ulp; lra). assert (S : - ulp <= slast - 1 <= ulp) by (unfold ulp, slast; lra).
  unfold close, shear_stored, shear_exact, near; cbn [gu_boxsize gu_n1 gu_n2 gu_n3 gu_resize gu_cells gx gy gz].
  split; [reflexivity|]. do 4 (split; [split; [|split]; apply B; lra|]).
  assert (P : forall a b c d a' b' c' d', - ulp <= a - a' <= ulp -> - ulp <= b - b' <= ulp -> - ulp <= c - c' <= ulp -> - ulp <= d - d' <= ulp ->
    close_plane ulp (GPlane (GV a b c) d) (GPlane (GV a' b' c') d')).
  { intros. split; [split; [|split]|]; cbn; apply B; assumption. }
  repeat (apply Forall2_cons || apply Forall2_nil); (split; [reflexivity|]); cbn [gc_faces]; repeat (apply Forall2_cons || apply Forall2_nil); apply P; lra.
Qed.
Lemma shear_holds : cuboid_holds 200 shear_double shear_stored.
Proof.
  assert (D : forall m e r, (Z.abs m < 2 ^ 53)%Z -> (0 <= e <= 1000)%Z -> r = IZR m / 2 ^ Z.to_nat e -> holds 200 (dyadic m e) r)
    by (intros; eapply holds_mono; [apply holds_dyadic; assumption|lia]).
  assert (T53 : 2 ^ Z.to_nat 53 = 9007199254740992) by (rewrite pow_IZR; apply IZR_eq; vm_compute; reflexivity).
  assert (H0 : holds 200 dz 0) by (change dz with (dyadic 0 0); apply D; [lia|lia|cbn; lra]).
  assert (H0' : holds 200 mz 0) by (destruct H0 as (_ & _ & L); split; [reflexivity|split; [reflexivity|exact L]]).
  assert (H1 : holds 200 done_ 1) by (change done_ with (dyadic 1 0); apply D; [lia|lia|cbn; lra]).
  assert (H2 : holds 200 droot sroot) by (replace droot with (dyadic 6369051672525772 53) by (vm_compute; reflexivity); apply D; [lia|lia|rewrite T53; reflexivity]).
  assert (H3 : holds 200 mroot (- sroot)) by (replace mroot with (dyadic (-6369051672525772) 53) by (vm_compute; reflexivity); apply D; [lia|lia|rewrite T53; unfold sroot; lra]).
  assert (H4 : holds 200 dlast slast) by (replace dlast with (dyadic 9007199254740991 53) by (vm_compute; reflexivity); apply D; [lia|lia|rewrite T53; reflexivity]).
  assert (P : forall a b c d a' b' c' d', holds 200 a a' -> holds 200 b b' -> holds 200 c c' -> holds 200 d d' -> plane_holds 200 (GPlane (GV a b c) d) (GPlane (GV a' b' c') d')).
  { intros. split; [split; [assumption|split; assumption]|assumption]. }
  unfold cuboid_holds, shear_double, shear_stored, vec_holds; cbn [gu_boxsize gu_n1 gu_n2 gu_n3 gu_resize gu_cells gx gy gz].
  do 5 (split; [split; [assumption|split; assumption]|]).
  repeat (apply Forall2_cons || apply Forall2_nil); (split; [reflexivity|split; [|cbn [gc_ipos]; lia]]); cbn [gc_faces]; repeat (apply Forall2_cons || apply Forall2_nil); apply P; assumption.
Qed.
Lemma shear_sizes : forall h r, 0 <= h <= 1 -> 0 <= r <= 1 -> stored 1 1 1 (GCuboid (GV 1 1 1) (GV h h 0) (GV (- h) h 0) (GV 0 0 1) (GV r r 1)
    [GCell (-1, 0, 0)%Z [GPlane (GV h h 0) (- h); GPlane (GV h (- h) 0) 0]; GCell (0, 0, 0)%Z [GPlane (GV (- h) h 0) 0];
     GCell (0, 1, 0)%Z [GPlane (GV (- h) (- h) 0) h; GPlane (GV h (- h) 0) 0]]).
Proof.
  intros h r H Hr. assert (B : forall x b, - b <= x <= b -> Rabs x <= b) by (intros; apply Rabs_le; auto).
  unfold stored, within; cbn [gu_cells gu_n1 gu_n2 gu_n3 gu_resize gx gy gz]. split; [|repeat split; apply B; lra].
  intros k f [<- | [<- | [<- | []]]]; cbn [gc_faces In]; intros I; repeat destruct I as [<- | I]; try contradiction; cbn [gp_n gp_d gx gy gz]; repeat split; apply B; lra.
Qed.
Lemma shear_found : forall f x, vec_holds 0 f x -> in_box (V 1 1 1) (vec_of_gvec x) ->
  / 10 ^ 13 < Rabs (gx x - gy x) -> gx x - gy x < 1 - / 10 ^ 13 -> / 10 ^ 13 < Rabs (gx x + gy x - 1) ->
  exists z y w, gtransform1 exact shear_exact x = Ok w /\ gtransform1 binary64 shear_double f = Ok z /\ values z (vec_of_gvec y) /\ near (/ 10 ^ 13) y w.
Proof.
  intros f x F B D1 D2 D3. set (e13 := / 10 ^ 13) in *.
  assert (E13 : e13 = 1 / 10000000000000) by (unfold e13; rewrite pow_IZR; change (10 ^ Z.of_nat 13)%Z with 10000000000000%Z; lra).
  assert (B' : forall x b, - b <= x <= b -> Rabs x <= b) by (intros; apply Rabs_le; auto).
  pose proof root_near as RN. pose proof root_pos as RP. pose proof root_sqr as RS.
  assert (R7 : 7 / 10 <= root <= 1) by (unfold sroot, ulp in RN; lra).
  assert (EU : unit_roundoff = 1 / 9007199254740992) by (unfold unit_roundoff; rewrite pow_IZR; change (2 ^ Z.of_nat 53)%Z with 9007199254740992%Z; lra).
  assert (EE : 0 <= powerRZ 2 (-1075) <= 1 / 9007199254740992).
  { rewrite pow2. split; [apply Flocq.Core.Raux.bpow_ge_0|]. eapply Rle_trans; [apply Flocq.Core.Raux.bpow_le with (e2 := (-53)%Z); lia|]. cbn. lra. }
  assert (M : 0 <= margin unit_roundoff (powerRZ 2 (-1075)) 3 1 1 2 <= 200 / 9007199254740992).
  { split; [apply margin_pos; lra|]. unfold margin. cbn [INR]. rewrite EU. lra. }
  destruct x as [a b c]. destruct B as ((A1 & A2) & (A3 & A4) & (A5 & A6)). cbn [vec_of_gvec vx vy vz gx gy gz] in *.
  assert (Fr : fraction shear_exact (GV a b c) = GV a b c) by (unfold fraction; cbn; f_equal; field).
  set (m := margin unit_roundoff (powerRZ 2 (-1075)) 3 1 1 2) in *.
  assert (T : m + (3 * 2 + 1) * ulp < 7 / 10 * e13) by (unfold ulp; lra).
  assert (H : forall t, e13 < t -> m + (3 * 2 + 1) * ulp < root * t).
  { intros t Ht. eapply Rlt_le_trans; [exact T|]. apply Rmult_le_compat; lra. }
  assert (W : exists q t, walk (m + (3 * 2 + 1) * ulp) 2 (gu_cells shear_exact) (fraction shear_exact (GV a b c)) q t).
  { rewrite Fr. unfold shear_exact; cbn [gu_cells].
    destruct (Rlt_le_dec a b) as [L|L].
    - rewrite Rabs_left in D1 by lra. pose proof (H (b - a) ltac:(lra)) as H1. eexists _, _.
      apply walk_out; [repeat split; apply B'; cbn; lra| |].
      { eexists. split; [right; left; reflexivity|]. unfold height, scalar; cbn. lra. }
      eapply walk_in; [repeat split; apply B'; cbn; lra| |].
      { intros g [<- | []]. unfold height, scalar; cbn. lra. }
      apply walk_out; [repeat split; apply B'; cbn; lra| |].
      { eexists. split; [right; left; reflexivity|]. unfold height, scalar; cbn. lra. }
      apply walk_end. repeat split; apply B'; cbn; lra.
    - rewrite Rabs_right in D1 by lra. pose proof (H (a - b) D1) as H1. pose proof (H (1 - (a - b)) ltac:(lra)) as H2.
      destruct (Rlt_le_dec (a + b) 1) as [K|K].
      + rewrite Rabs_left in D3 by lra. pose proof (H (1 - (a + b)) ltac:(lra)) as H3. eexists _, _.
        apply walk_out; [repeat split; apply B'; cbn; lra| |].
        { eexists. split; [left; reflexivity|]. unfold height, scalar; cbn. lra. }
        apply walk_out; [repeat split; apply B'; cbn; lra| |].
        { eexists. split; [left; reflexivity|]. unfold height, scalar; cbn. lra. }
        eapply walk_in; [repeat split; apply B'; cbn; lra| |].
        { intros g [<- | [<- | []]]; unfold height, scalar; cbn; lra. }
        apply walk_end. repeat split; apply B'; cbn; lra.
      + rewrite Rabs_right in D3 by lra. pose proof (H (a + b - 1) D3) as H3. eexists _, _.
        eapply walk_in; [repeat split; apply B'; cbn; lra| |].
        { intros g [<- | [<- | []]]; unfold height, scalar; cbn; lra. }
        eapply walk_in; [repeat split; apply B'; cbn; lra| |].
        { intros g [<- | []]; unfold height, scalar; cbn; lra. }
        apply walk_out; [repeat split; apply B'; cbn; lra| |].
        { eexists. split; [right; left; reflexivity|]. unfold height, scalar; cbn. lra. }
        apply walk_end. repeat split; apply B'; cbn; lra. }
  destruct W as (q & t & W).
  assert (P : positive (vec_of_gvec (GV 1 1 1))) by (unfold positive; cbn; lra).
  assert (F' : vec_holds 200 f (GV a b c)) by (eapply vec_mono; [exact F|lia]).
  assert (B2 : 1 <= 2 <= powerRZ 2 53) by (split; [lra|]; rewrite pow2; change 2 with (Flocq.Core.Raux.bpow Flocq.Core.Zaux.radix2 1) at 1; apply Flocq.Core.Raux.bpow_le; lia).
  destruct (stored_found (1, 1, 0)%Z (0, 1, 0)%Z (0, 0, 1)%Z (GV 1 1 1) shear_exact ulp shear_stored shear_double f (GV a b c) 1 1 1 2 q t
    ltac:(reflexivity) P shear_new ltac:(repeat split; cbn; assumption) ltac:(unfold ulp; lra) shear_close shear_holds F' ltac:(cbn; lia)
    ltac:(apply shear_sizes; lra) ltac:(apply shear_sizes; unfold sroot, slast; lra) ltac:(lra) B2 W) as (z & y & w & E1 & E2 & V & N).
  exists z, y, w. split; [exact E1|]. split; [exact E2|]. split; [exact V|].
  eapply near_mono; [exact N|]. change (margin unit_roundoff (powerRZ 2 (-1075)) (length (gu_cells shear_exact)) 1 1 2) with m. unfold ulp. lra.
Qed.
