(** Exact conditions, continued: default normalisation of tabulated masks, isometries that share their translation. *)
Require Import Reals Lra Lia String List Bool Arith.
From Verif Require Import Base Vec3 Mask_Model Mask_Spec Mask_Proof Mask_Thm Isometry_Model Isometry_Spec Isometry_Proof Exact_Proof2 Exact_Spec2 Exact_Proof3.
Import ListNotations.
Open Scope R_scope.

(** The default normalisation makes some redshift of the range certain if and only if the largest density over the range is that of a tabulated redshift of the range. *)
Theorem C28_default_exactly : forall zs nbar range m, tabulated_new zs nbar range None = Ok m ->
  ((exists z, range_lo zs range <= z <= range_hi zs range /\ tabulated_prob m z = Ok 1) <->
   exists z b, In (z, b) (combine zs nbar) /\ range_lo zs range <= z <= range_hi zs range /\
     (forall z' b', In (z', b') (combine zs nbar) -> range_lo zs range <= z' <= range_hi zs range -> b' <= b) /\
     lin zs nbar (range_lo zs range) <= b /\ lin zs nbar (range_hi zs range) <= b).
Proof.
  intros zs nbar range m H. split; [|intros C; apply C28_default_maximum_partial with nbar; auto].
  intros (z & Rz & P). apply tabulated_new_inv in H. cbn zeta in H. destruct H as (n & E & W & _ & _ & D).
  assert (Pz : tabulated_prob m z = Ok (tprob m n z)) by (rewrite <- well_prob by auto; f_equal; rewrite E; reflexivity).
  rewrite P in Pz. injection Pz as Pz. destruct (top_knot m n z W D (eq_sym Pz)) as (a & b & Ra & I & B). pose proof (default_norm_pos m n W D) as Pn.
  exists a, b. rewrite E in I, Ra. cbn [t_lo t_hi t_z t_nbar] in I, Ra. split; auto. split; auto. split.
  - intros z' b' I' R'. assert (n * b' <= 1) by (apply (default_norm_knot m n z' b' W D); rewrite E; auto). nra.
  - destruct D as (_ & D). cbn zeta in D. destruct D as [Nz Dn]. set (top := Rmax _ _) in *. assert (b = top) by (rewrite Dn in B; apply (Rmult_eq_reg_l (1 / top)); [rewrite B; field; auto|intros Z; rewrite Z in B; lra]).
    subst b. assert (L : lin (t_z m) (t_nbar m) (t_lo m) <= top /\ lin (t_z m) (t_nbar m) (t_hi m) <= top) by (unfold top; split; [eapply Rle_trans; [apply Rmax_r|apply Rmax_l]|apply Rmax_r]).
    clearbody top. rewrite E in L. exact L.
Qed.
Print Assumptions C28_default_exactly.
(** Rising table cut in the middle of a cell: not reached. The whole table: reached. *)
Example C28_exact_case : (exists m, tabulated_new [0; 1; 2] [1; 1; 3] (Some (0, 3 / 2)) None = Ok m) /\ (exists m, tabulated_new [0; 1; 2] [1; 4; 2] None None = Ok m).
Proof. split; eexists; [apply cut_mask|apply hill_mask]. Qed.

(** For all histories: a call on one object changes another one if and only if it writes into the translation and the arrays of both were made by the same call, so that one is a copy [0 + other] of the other, or both are copies; then both have the new translation and each keeps its rotation. *)
Theorem C54_exactly : forall cs c i s, target c <> i -> view (run cs) i = Some s ->
  view (exec (run cs) c) i =
    match in_place c, view (exec (run cs) c) (target c) with
    | true, Some moved => if Nat.eqb (creator cs i) (creator cs (target c)) then Some (Iso (rot s) (tra moved)) else Some s
    | _, _ => Some s
    end.
Proof.
  intros cs c i s N V. pose proof (tracked_all cs) as T. set (st := run cs) in *.
  assert (F : forall j s', j <> i -> view (bind_fresh st j s') i = Some s) by (intros; rewrite (fresh_other st _ _ j i s' T); auto).
  assert (W : forall j m, j <> i -> view (write_rot st j m) i = Some s) by (intros; rewrite write_rot_view; auto).
  destruct c; cbn [exec in_place target] in *.
  - auto.
  - unfold do_dot. destruct (view st i0); auto. destruct (String.eqb frame "origin"); auto.
  - destruct (view st i0); auto. destruct (iso_rotation i1 angle axis degree frame) as [s' [[]|]]; auto.
  - destruct (view st i0) as [s0|] eqn:E; [|rewrite E; auto]. destruct (tra_other st _ _ i0 i (tra (fst (iso_translation s0 shift axis frame))) s T ltac:(congruence) V) as (H1 & s' & H2 & H3). rewrite H1, H2, H3. reflexivity.
  - destruct (view st i0); auto. destruct (String.eqb frame "origin"); auto.
  - destruct (view st i0) as [s0|] eqn:E; [|rewrite E; auto]. destruct (tra_other st _ _ i0 i (tra (fst (iso_reset_translate s0))) s T ltac:(congruence) V) as (H1 & s' & H2 & H3). rewrite H1, H2, H3. reflexivity.
  - destruct (views st js); auto.
  - destruct (views st [i0; j]); auto.
  - destruct (views st [i0; j]); auto.
  - destruct (env st i0) as [o|] eqn:E; auto. unfold view in *. cbn. unfold upd. destruct (Nat.eqb_spec i k); [congruence|]. exact V.
Qed.
Print Assumptions C54_exactly.
(** Two copies of one object share their translation; after a rotation, which makes new arrays, the first does not any more. *)
Example C54_exact_case : forall m, let cs := [CNew 0; CRadd0 1 0; CRadd0 2 1; CDot 1 m "origin"] in creator cs 0%nat = creator cs 2%nat /\ creator cs 1%nat <> creator cs 0%nat /\ view (run cs) 0%nat = Some iso_new.
Proof. intros m. cbn. split; [reflexivity|]. split; [lia|reflexivity]. Qed.
