(** Proofs for Wobble_Thm.v: double precision, and examples. *)
Require Import Reals ZArith QArith List Bool Lra Lia SpecFloat.
From Verif Require Import Base Vec3 Remap_Model Remap_Spec Remap_Proof Remap_Proof2 Remap_Proof3 Wobble_Model Wobble_Spec Wobble_Proof Wobble_Proof2.
Import ListNotations.
Close Scope Q_scope.
Open Scope R_scope.

Lemma far_from_faces : forall eps eta rnd c x n d s b q t, rounds eps eta rnd -> fine eps eta (length (gu_cells c)) -> stored n d s c -> 0 <= d -> 1 <= b ->
  walk (margin eps eta (length (gu_cells c)) n d b) b (gu_cells c) (fraction c x) q t ->
  if t then gtransform1 exact c x = Ok (image c q) /\
    exists y, gtransform1 (rounded rnd) c x = Ok y /\ near (s * margin eps eta (length (gu_cells c)) n d b + eta) y (image c q)
  else gtransform1 exact c x = Err CuboidError /\ gtransform1 (rounded rnd) c x = Err CuboidError.
Proof.
  intros eps eta rnd c x n d s b q t Hr Hf Hs Hd Hb W.
  assert (Hn : 0 <= n) by (destruct Hs as (_ & (H & _) & _); eapply Rle_trans; [apply Rabs_pos | exact H]).
  assert (M0 : 0 <= margin eps eta (length (gu_cells c)) n d b) by (destruct Hf as (F1 & F2 & _); apply margin_pos; lra).
  pose proof (transform_exact _ _ _ _ _ _ M0 W) as T. destruct t; split; auto.
  - eapply transform_walk; eauto. - eapply transform_walk_lost; eauto.
Qed.

(** m / 2^e as a double. *)
Definition dyadic (m e : Z) : spec_float := binary_normalize 53 1024 m (- e) false.

Lemma far_case : let c := GCuboid (GV 1 1 1) (GV (7 / 10) (7 / 10) 0) (GV (- (7 / 10)) (7 / 10) 0) (GV 0 0 1) (GV 1 1 1)
    [GCell (-1, 0, 0)%Z [GPlane (GV (7 / 10) (- (7 / 10)) 0) 0; GPlane (GV (7 / 10) (7 / 10) 0) (- (7 / 10))]; GCell (0, 0, 0)%Z [GPlane (GV (- (7 / 10)) (7 / 10) 0) 0]] in
  let rnd := fun x => x * (1 + 1 / 10000) in
  rounds (1 / 10000) 0 rnd /\ fine (1 / 10000) 0 (length (gu_cells c)) /\ stored 1 1 1 c /\
  walk (margin (1 / 10000) 0 (length (gu_cells c)) 1 1 2) 2 (gu_cells c) (fraction c (GV (9 / 10) (4 / 10) (1 / 2))) (GV (- (1 / 10)) (4 / 10) (1 / 2)) true.
Proof.
  cbn zeta. assert (B : forall x b, - b <= x <= b -> Rabs x <= b) by (intros; apply Rabs_le; auto).
  split; [|split; [|split]].
  - intros x. replace (x * (1 + 1 / 10000) - x) with (1 / 10000 * x) by ring. rewrite Rabs_mult, (Rabs_right (1 / 10000)) by lra. lra.
  - unfold fine; cbn. lra.
  - unfold stored, within; cbn [gu_cells gu_n1 gu_n2 gu_n3 gu_resize gx gy gz].
    split; [|repeat split; apply B; lra].
    intros k f [<- | [<- | []]]; cbn [gc_faces In]; intros I; repeat destruct I as [<- | I]; try contradiction; cbn [gp_n gp_d gx gy gz]; repeat split; apply B; lra.
  - cbn [gu_cells length]. unfold margin. cbn [INR].
    replace (fraction _ _) with (GV (9 / 10) (4 / 10) (1 / 2)) by (unfold fraction; cbn; f_equal; field).
    assert (W0 : forall m, within m (GV (- (1 / 10)) (4 / 10) (1 / 2)) <-> 1 / 10 <= m /\ 4 / 10 <= m /\ 1 / 2 <= m).
    { intros m. unfold within; cbn [gx gy gz]. rewrite Rabs_left, !Rabs_right by lra. split; intros (? & ? & ?); repeat split; lra. }
    apply walk_in with (t := true).
    + unfold within; cbn [gx gy gz]; repeat split; apply B; lra.
    + intros f [<- | [<- | []]]; unfold height, scalar; cbn [gp_n gp_d gx gy gz]; lra.
    + cbn [moved gc_ipos gx gy gz]. replace (9 / 10 + IZR (-1)) with (- (1 / 10)) by lra. rewrite !Rplus_0_r.
      apply walk_in with (t := false).
      * apply W0; lra.
      * intros f [<- | []]; unfold height, scalar; cbn [gp_n gp_d gx gy gz]; lra.
      * cbn [moved gc_ipos gx gy gz]. rewrite !Rplus_0_r. apply walk_end. apply W0; lra.
Qed.

Lemma values_dyadic : forall m1 e1 m2 e2 m3 e3 x y z, value (dyadic m1 e1) = Some x -> value (dyadic m2 e2) = Some y -> value (dyadic m3 e3) = Some z ->
  values (GV (dyadic m1 e1) (dyadic m2 e2) (dyadic m3 e3)) (V x y z).
Proof. intros. repeat split; auto. Qed.
Lemma powerRZ_neg : forall p, powerRZ 2 (Zneg p) = / IZR (2 ^ Zpos p).
Proof.
  intros p. unfold powerRZ. f_equal. rewrite <- (Z2Nat.id (Zpos p)) by lia. rewrite <- pow_IZR. reflexivity.
Qed.
Lemma value_3_8 : value (dyadic 3 3) = Some (3 / 8).
Proof.
  replace (dyadic 3 3) with (S754_finite false 6755399441055744 (-54)) by (vm_compute; reflexivity). cbn [value]. rewrite powerRZ_neg.
  f_equal. change (2 ^ 54)%Z with 18014398509481984%Z. field.
Qed.
Lemma value_5_8 : value (dyadic 5 3) = Some (5 / 8).
Proof.
  replace (dyadic 5 3) with (S754_finite false 5629499534213120 (-53)) by (vm_compute; reflexivity). cbn [value]. rewrite powerRZ_neg.
  f_equal. change (2 ^ 53)%Z with 9007199254740992%Z. field.
Qed.
Lemma value_3_64 : value (dyadic 3 6) = Some (3 / 64).
Proof.
  replace (dyadic 3 6) with (S754_finite false 6755399441055744 (-57)) by (vm_compute; reflexivity). cbn [value]. rewrite powerRZ_neg.
  f_equal. change (2 ^ 57)%Z with 144115188075855872%Z. field.
Qed.
Lemma value_27_64 : value (dyadic 27 6) = Some (27 / 64).
Proof.
  replace (dyadic 27 6) with (S754_finite false 7599824371187712 (-54)) by (vm_compute; reflexivity). cbn [value]. rewrite powerRZ_neg.
  f_equal. change (2 ^ 54)%Z with 18014398509481984%Z. field.
Qed.
Lemma lost_tests : exists c x, unimodular (0, 1, 1)%Z (1, 0, 1)%Z (0, 1, 0)%Z /\
  gcuboid_new binary64 (0, 1, 1)%Z (1, 0, 1)%Z (0, 1, 0)%Z (GV (of_Z binary64 1) (of_Z binary64 1) (of_Z binary64 1)) = Ok c /\
  values x (V (3 / 8) (3 / 64) (27 / 64)) /\ in_box (V 1 1 1) (V (3 / 8) (3 / 64) (27 / 64)) /\
  gtransform1 binary64 c x = Err CuboidError.
Proof.
  destruct (gcuboid_new binary64 (0, 1, 1)%Z (1, 0, 1)%Z (0, 1, 0)%Z (GV (of_Z binary64 1) (of_Z binary64 1) (of_Z binary64 1))) as [c|] eqn:E; [|vm_compute in E; discriminate].
  exists c, (GV (dyadic 3 3) (dyadic 3 6) (dyadic 27 6)). split; [reflexivity|]. split; [reflexivity|]. split.
  - apply values_dyadic; [apply value_3_8 | apply value_3_64 | apply value_27_64].
  - split; [unfold in_box; cbn; lra|]. vm_compute in E. injection E as <-. vm_compute. reflexivity.
Qed.
Lemma found_tests : exists c y, gcuboid_new binary64 (0, 1, 1)%Z (1, 0, 1)%Z (0, 1, 0)%Z (GV (of_Z binary64 1) (of_Z binary64 1) (of_Z binary64 1)) = Ok c /\
  gtransform1 binary64 c (GV (dyadic 3 3) (dyadic 3 6) (dyadic 26 6)) = Ok y.
Proof.
  destruct (gcuboid_new binary64 (0, 1, 1)%Z (1, 0, 1)%Z (0, 1, 0)%Z (GV (of_Z binary64 1) (of_Z binary64 1) (of_Z binary64 1))) as [c|] eqn:E; [|vm_compute in E; discriminate].
  eexists _, _. split; [reflexivity|]. vm_compute in E. injection E as <-. vm_compute. reflexivity.
Qed.
Lemma lost_grid : exists c x, unimodular (2, 1, 1)%Z (1, 1, 0)%Z (0, 0, 1)%Z /\
  gcuboid_new binary64 (2, 1, 1)%Z (1, 1, 0)%Z (0, 0, 1)%Z (GV (of_Z binary64 1) (of_Z binary64 1) (of_Z binary64 1)) = Ok c /\
  values x (V 0 (3 / 8) (5 / 8)) /\ in_box (V 1 1 1) (V 0 (3 / 8) (5 / 8)) /\
  gtransform1 binary64 c x = Err CuboidError.
Proof.
  destruct (gcuboid_new binary64 (2, 1, 1)%Z (1, 1, 0)%Z (0, 0, 1)%Z (GV (of_Z binary64 1) (of_Z binary64 1) (of_Z binary64 1))) as [c|] eqn:E; [|vm_compute in E; discriminate].
  exists c, (GV (dyadic 0 0) (dyadic 3 3) (dyadic 5 3)). split; [reflexivity|]. split; [reflexivity|]. split.
  - apply values_dyadic; [reflexivity | apply value_3_8 | apply value_5_8].
  - split; [unfold in_box; cbn; lra|]. vm_compute in E. injection E as <-. vm_compute. reflexivity.
Qed.

(** Axes in another order: exact numbers in the cuboid. *)
Lemma found_case : exists (c : gcuboid R), gcuboid_new exact (0, 1, 0)%Z (0, 0, 1)%Z (1, 0, 0)%Z (GV 1000 1000 1000) = Ok c /\
  fine (1 / 10000) (1 / 10000) (length (gu_cells c)) /\ stored 1 0 1000 c /\
  forall x, in_box (V 1000 1000 1000) (vec_of_gvec x) ->
    walk (margin (1 / 10000) (1 / 10000) (length (gu_cells c)) 1 0 1) 1 (gu_cells c) (fraction c x) (fraction c x) true.
Proof.
  assert (U : unimodular (0, 1, 0)%Z (0, 0, 1)%Z (1, 0, 0)%Z) by reflexivity.
  destruct (new_up (0, 1, 0)%Z (0, 0, 1)%Z (1, 0, 0)%Z (GV 1000 1000 1000) U) as (c & c' & E & E' & (S0 & S1 & S2 & S3 & S4 & S5) & B). exists c. split; auto.
  set (q1 := QV 0 1 0). set (q2 := QV 0 0 1). set (q3 := QV 1 0 0).
  assert (Q1 : qr q1 = V 0 1 0) by (unfold qr, q1, Q2R; cbn; f_equal; field).
  assert (Q2 : qr q2 = V 0 0 1) by (unfold qr, q2, Q2R; cbn; f_equal; field).
  assert (Q3 : qr q3 = V 1 0 0) by (unfold qr, q3, Q2R; cbn; f_equal; field).
  assert (G : gram_schmidt (real (0, 1, 0)%Z) (real (0, 0, 1)%Z) (real (1, 0, 0)%Z) (qr q1) (qr q2) (qr q3)).
  { rewrite Q1, Q2, Q3. split; [reflexivity|]. split; [exists 0; unfold vadd, vscale; cbn; f_equal; ring|].
    split; [exists 0, 0; unfold vadd, vscale; cbn; f_equal; ring|]. unfold vdot; cbn. repeat split; ring. }
  pose proof (cuboid_ok _ _ _ _ _ _ (vec_of_gvec (GV 1000 1000 1000)) (unimodular_det3 _ _ _ U) G) as K. rewrite E' in K. injection K as ->.
  assert (N1 : vnorm (V 0 1 0) = 1) by (unfold vnorm, vdot; cbn; replace (0 * 0 + 1 * 1 + 0 * 0) with 1 by ring; apply sqrt_1).
  assert (N2 : vnorm (V 0 0 1) = 1) by (unfold vnorm, vdot; cbn; replace (0 * 0 + 0 * 0 + 1 * 1) with 1 by ring; apply sqrt_1).
  assert (N3 : vnorm (V 1 0 0) = 1) by (unfold vnorm, vdot; cbn; replace (1 * 1 + 0 * 0 + 0 * 0) with 1 by ring; apply sqrt_1).
  assert (M : Forall2 crel (map upc (gu_cells c)) (qcells q1 q2 q3)).
  { refine (eq_ind _ (fun l => Forall2 crel l _) _ _ S5). apply cells_R; rewrite ?Q1, ?Q2, ?Q3, ?N1, ?N2, ?N3; lra. }
  replace (qcells q1 q2 q3) with [QC (0, 0, 0)%Z []] in M by (vm_compute; reflexivity).
  destruct (gu_cells c) as [|[i l] [|]] eqn:C; cbn [map] in M; [inversion M | | inversion M as [|? ? ? ? _ M']; inversion M'].
  assert (I : i = (0, 0, 0)%Z /\ l = []).
  { inversion M as [|? ? ? ? (M1 & M2) _]; subst. cbn in M1, M2. inversion M2 as [H | ]. split; auto. destruct l; auto; discriminate. }
  destruct I as (-> & ->). cbn [cuboid_of cu_n1 cu_n2 cu_n3 cu_resize] in S1, S2, S3, S4.
  assert (T : forall a b e, vnorm (V a b e) = 1 -> nrm (V a b e) = V a b e) by (intros a b e H; unfold nrm; rewrite H; unfold vscale; cbn; f_equal; field).
  rewrite Q1, Q2, Q3, !T in * by auto.
  assert (Z : forall m v, vec_of_gvec v = m -> v = GV (vx m) (vy m) (vz m)) by (intros m [] <-; reflexivity).
  symmetry in S1, S2, S3, S4. apply Z in S1, S2, S3, S4. cbn [vx vy vz] in *.
  assert (L : forall e, vnorm e = 1 -> vnorm (vmul (vec_of_gvec (GV 1000 1000 1000)) e) = 1000).
  { intros e H. change (vec_of_gvec (GV 1000 1000 1000)) with (V 1000 1000 1000). rewrite isotropic_norm, H by lra. ring. }
  rewrite !L in S4 by auto.
  split; [unfold fine; cbn [length INR]; lra|].
  split.
  - unfold stored. rewrite C. split; [intros k f [<- | []] []|].
    change (num exact) with R in *. rewrite S1, S2, S3, S4. unfold within; cbn [gx gy gz]. rewrite Rabs_R0, Rabs_R1, (Rabs_right 1000) by lra. repeat split; lra.
  - intros x (X1 & X2 & X3). cbn [vec_of_gvec vx vy vz] in *. unfold margin; cbn [length].
    assert (W : within 1 (fraction c x)).
    { unfold fraction. change (num exact) with R in *. rewrite B. unfold within; cbn [gx gy gz]. repeat split; apply Rabs_le; lra. }
    apply walk_in with (t := false); auto; [intros f []|]. cbn [gc_ipos].
    assert (Mz : moved (fraction c x) (0, 0, 0)%Z = fraction c x) by apply moved_zero. rewrite Mz. apply walk_end. exact W.
Qed.
