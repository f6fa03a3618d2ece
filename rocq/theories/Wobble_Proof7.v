(** Proofs: the sheared box loses no position in double precision. *)
Require Import Reals ZArith List Bool Lra Lia SpecFloat.
From Flocq Require Import Core.
From Verif Require Import Base Vec3 Box_Model Remap_Model Remap_Spec Wobble_Model Wobble_Spec Wobble_Proof Wobble_Proof2 Wobble_Proof3 Wobble_Proof4 Wobble_Proof5 Wobble_Proof6 Round_Spec.
Import ListNotations.
Open Scope R_scope.

Lemma double_opp : forall x, double (- x) = - double x. Proof. intros. apply round_NE_opp. Qed.
Lemma double_0 : double 0 = 0. Proof. apply round_0. typeclasses eauto. Qed.
(** Rounding to nearest is odd, so opposite faces never both turn a position down. *)
Lemma test_opp : forall a b c d p, gtest (rounded double) (GPlane (GV (- a) (- b) (- c)) (- d)) p = - gtest (rounded double) (GPlane (GV a b c) d) p.
Proof.
  intros a b c d p. unfold gtest, gdot; cbn [gx gy gz gp_n gp_d aadd amul of_Z rounded]. rewrite !Ropp_mult_distr_l_reverse, !double_opp.
  replace (0 + - double (a * gx p)) with (- (0 + double (a * gx p))) by ring. rewrite double_opp.
  rewrite <- Ropp_plus_distr, double_opp, <- Ropp_plus_distr, double_opp, <- Ropp_plus_distr, double_opp. reflexivity.
Qed.
Lemma opposite : forall a b d p, Rleb 0 (gtest (rounded double) (GPlane (GV a b 0) d) p) = false ->
  Rleb 0 (gtest (rounded double) (GPlane (GV (- a) (- b) 0) (- d)) p) = true.
Proof.
  intros a b d p H. replace (GV (- a) (- b) 0) with (GV (- a) (- b) (- 0)) by (f_equal; ring). rewrite test_opp.
  unfold Rleb in *. destruct (Rle_dec 0 (gtest (rounded double) (GPlane (GV a b 0) d) p)) as [L|L]; [discriminate|].
  destruct (Rle_dec 0 (- gtest (rounded double) (GPlane (GV a b 0) d) p)) as [K|K]; [reflexivity|]. exfalso. apply K. apply Rnot_le_lt in L. apply Rlt_le. apply Ropp_0_gt_lt_contravar. exact L.
Qed.
Lemma taken : forall (cells : list (gcell R)) p, fst (gfold (rounded double) cells (true, p)) = true.
Proof. intros cells. induction cells as [|c l IH]; intros p; [reflexivity|]. rewrite (gfold_cons (rounded double)). destruct (gisin (rounded double) c p); apply IH. Qed.
Lemma shear_loop : forall p, fst (gfold (rounded double) (gu_cells shear_stored) (false, p)) = true.
Proof.
  intros p.
  change (gu_cells shear_stored) with [nth 0 (gu_cells shear_stored) (GCell (0, 0, 0)%Z []); nth 1 (gu_cells shear_stored) (GCell (0, 0, 0)%Z []); nth 2 (gu_cells shear_stored) (GCell (0, 0, 0)%Z [])].
  set (c1 := nth 0 _ _). set (c2 := nth 1 _ _). set (c3 := nth 2 _ _). rewrite (gfold_cons (rounded double)).
  destruct (gisin (rounded double) c1 p) eqn:I1; [apply taken|]. rewrite (gfold_cons (rounded double)). destruct (gisin (rounded double) c2 p) eqn:I2; [apply taken|].
  rewrite (gfold_cons (rounded double)). destruct (gisin (rounded double) c3 p) eqn:I3; [apply taken|]. exfalso.
  unfold c1, c2, c3, shear_stored in *; cbn [nth gu_cells] in *.
  unfold gisin in *; cbn [gc_faces forallb] in *. change (aleb (rounded double)) with Rleb in *. change (of_Z (rounded double) 0) with 0 in *.
  rewrite andb_true_r in *.
  set (A := Rleb 0 (gtest (rounded double) (GPlane (GV sroot (- sroot) 0) 0) p)) in *.
  assert (HA : A = true).
  { pose proof (opposite _ _ _ _ I2) as O. rewrite !Ropp_involutive, Ropp_0 in O. exact O. }
  rewrite HA, andb_true_r in I1, I3. pose proof (opposite _ _ _ _ I3) as O. rewrite !Ropp_involutive in O. congruence.
Qed.
Lemma shear_never : forall f x, vec_holds 53 f x -> exists z y, gtransform1 binary64 shear_double f = Ok z /\ values z (vec_of_gvec y).
Proof.
  intros f x F. assert (Fr : fraction shear_stored x = x) by (destruct x; unfold fraction; cbn; f_equal; field).
  pose proof (transform_holds 200 53 shear_double shear_stored f x ltac:(lia) ltac:(lia) ltac:(cbn; lia) shear_holds (vec_mono 53 200 _ _ F ltac:(lia))
    ltac:(cbn; lra) ltac:(cbn; lra) ltac:(cbn; lra)) as T. rewrite Fr in T.
  specialize (T ltac:(destruct F as ((_ & _ & ?) & (_ & _ & ?) & (_ & _ & ?)); split; [|split]; assumption)).
  destruct (gtransform1 (rounded double) shear_stored x) as [y|e] eqn:E.
  - destruct T as (z & Ez & (_ & V1 & _) & (_ & V2 & _) & (_ & V3 & _)). exists z, y. split; [exact Ez|]. split; [exact V1|split; [exact V2|exact V3]].
  - exfalso. pose proof (shear_loop (gdiv (rounded double) x (gu_boxsize shear_stored))) as L. unfold gtransform1 in E.
    change (gloop (rounded double) (gu_cells shear_stored) (gdiv (rounded double) x (gu_boxsize shear_stored)))
      with (gfold (rounded double) (gu_cells shear_stored) (false, gdiv (rounded double) x (gu_boxsize shear_stored))) in E.
    destruct (gfold _ _ _) as [m p]. cbn in L. subst m. discriminate.
Qed.
Lemma map_result_all : forall {X Y : Type} (g : X -> result Y) l, (forall x, In x l -> exists y, g x = Ok y) -> exists k, map_result g l = Ok k.
Proof.
  intros X Y g l. induction l as [|a l IH]; intros H; [exists []; reflexivity|].
  destruct (H a (or_introl eq_refl)) as [y E]. destruct IH as [k K]; [intros x I; apply H; right; exact I|]. exists (y :: k). cbn. rewrite E. cbn. rewrite K. reflexivity.
Qed.
Lemma shear_all : forall l, (forall f, In f l -> exists x, vec_holds 53 f x) -> exists k, gtransform binary64 shear_double l = Ok k.
Proof.
  intros l H. unfold gtransform. apply map_result_all. intros f I. destruct (H f I) as [x F]. destruct (shear_never f x F) as (z & _ & E & _). exists z. exact E.
Qed.
Lemma opposite_any : forall rnd, (forall x, rnd (- x) = - rnd x) -> forall a b c d p,
  gtest (rounded rnd) (GPlane (GV (- a) (- b) (- c)) (- d)) p = - gtest (rounded rnd) (GPlane (GV a b c) d) p /\
  (gisin (rounded rnd) (GCell (0, 0, 0)%Z [GPlane (GV a b c) d]) p = true \/ gisin (rounded rnd) (GCell (0, 0, 0)%Z [GPlane (GV (- a) (- b) (- c)) (- d)]) p = true).
Proof.
  intros rnd O a b c d p.
  assert (E : gtest (rounded rnd) (GPlane (GV (- a) (- b) (- c)) (- d)) p = - gtest (rounded rnd) (GPlane (GV a b c) d) p).
  { unfold gtest, gdot; cbn [gx gy gz gp_n gp_d aadd amul of_Z rounded]. rewrite !Ropp_mult_distr_l_reverse, !O.
    replace (0 + - rnd (a * gx p)) with (- (0 + rnd (a * gx p))) by ring. rewrite O.
    rewrite <- Ropp_plus_distr, O, <- Ropp_plus_distr, O, <- Ropp_plus_distr, O. reflexivity. }
  split; [exact E|]. unfold gisin; cbn [gc_faces forallb]. rewrite !andb_true_r. change (aleb (rounded rnd)) with Rleb. change (of_Z (rounded rnd) 0) with 0. rewrite E.
  unfold Rleb. destruct (Rle_dec 0 (gtest (rounded rnd) (GPlane (GV a b c) d) p)) as [L|L]; [now left|right].
  destruct (Rle_dec 0 (- gtest (rounded rnd) (GPlane (GV a b c) d) p)) as [K|K]; [reflexivity|]. exfalso. apply K. apply Rnot_le_lt in L. apply Rlt_le. apply Ropp_0_gt_lt_contravar. exact L.
Qed.
