Require Import Reals Lra Lia ZArith List Bool String Sorted Permutation.
From Verif Require Import Base Vec3 Isometry_Model Isometry_Spec Isometry_Proof Sky_Model Sky_Spec Sky_Proof
  Cutsky_Model Cutsky_Spec Cutsky_Proof Box_Model Box_Spec Box_Proof Box_Proof2 Box_Proof3 Box_Proof4.
Import ListNotations.
Open Scope R_scope.

(* ---------- rotation by turns ---------- *)
Lemma quarter4 : forall a p, quarter a (quarter a (quarter a (quarter a p))) = p.
Proof. intros a [x y z]. destruct a; unfold quarter; cbn [vx vy vz]; f_equal; ring. Qed.
Lemma iter_add : forall {A} (f : A -> A) m n p, Nat.iter (m + n) f p = Nat.iter m f (Nat.iter n f p).
Proof. intros A f m n p. induction m; cbn; auto. unfold Nat.iter in *. congruence. Qed.
Lemma iter_mod4 : forall a m p, Nat.iter m (quarter a) p = Nat.iter (m mod 4) (quarter a) p.
Proof.
  intros a m p. induction m as [m IH] using lt_wf_ind. destruct (Nat.lt_ge_cases m 4) as [H|H].
  - rewrite Nat.mod_small by auto. auto.
  - replace (Nat.iter m (quarter a) p) with (Nat.iter (m - 4 + 4) (quarter a) p) by (f_equal; lia). rewrite iter_add.
    assert (E : forall q, Nat.iter 4 (quarter a) q = q) by (intros; apply quarter4).
    rewrite E, IH by lia. f_equal. replace (m mod 4)%nat with ((m - 4 + 1 * 4) mod 4)%nat by (f_equal; lia). rewrite Nat.mod_add; auto.
Qed.
Lemma quarters_add : forall a k l p, quarters a k (quarters a l p) = quarters a (k + l) p.
Proof.
  intros a k l p. unfold quarters. rewrite <- iter_add, iter_mod4. f_equal.
  pose proof (Z.mod_pos_bound k 4 ltac:(lia)). pose proof (Z.mod_pos_bound l 4 ltac:(lia)). pose proof (Z.mod_pos_bound (k + l) 4 ltac:(lia)).
  apply Nat2Z.inj. rewrite Nat2Z.inj_mod, Nat2Z.inj_add, !Z2Nat.id by lia. rewrite <- Zplus_mod. reflexivity.
Qed.
Lemma quarters_full : forall a k p, (k mod 4 = 0)%Z -> quarters a k p = p.
Proof. intros a k p H. unfold quarters. rewrite H. reflexivity. Qed.

(* default axis *)
Definition tall_box : boxcat := BoxCat (pcat_new [] "Position" "Velocity" [] []) (V 1 1 4) (V 0 0 0).
Lemma vnorm_111 : vnorm (V 1 1 1) = sqrt 3.
Proof. unfold vnorm. f_equal. vunfold. ring. Qed.
Lemma rotate_none : exists c', rotate tall_box 1 AxNone = Ok c' /\ volume (boxsize c') = 2.
Proof.
  assert (S3 : sqrt 3 * sqrt 3 = 3) by (apply sqrt_sqrt; lra). assert (P3 : 0 < sqrt 3) by (apply sqrt_lt_R0; lra).
  assert (NZ : V 1 1 1 <> vzero) by (intros H; apply (f_equal vx) in H; cbn in H; lra).
  assert (G : get_los AxNone = Ok (vscale (/ sqrt 3) (V 1 1 1))).
  { cbn. rewrite normalize_ok by auto. rewrite vnorm_111. reflexivity. }
  unfold rotate. rewrite (iso_rotation_rad _ _ _ _ _ G). cbn [iso_ok bind rot tra iso_new tall_box bc_cat].
  match goal with |- context [transform_vectors ?s ?c] => destruct (tv_ok s c) as [c' E] end; [intros ? ? []|].
  unfold iso_new, rot, tra in *. cbn [tall_box bc_cat] in E. rewrite E. cbn [bind]. eexists; split; [reflexivity|]. cbn [boxsize tall_box].
  rewrite transform_linear. replace (1 * PI / 2) with (PI / 2) by field. rewrite cos_PI2, sin_PI2.
  set (u := / sqrt 3). assert (U : u * u = 1 / 3) by (unfold u; rewrite <- Rinv_mult; rewrite S3; lra).
  assert (U3 : u = sqrt 3 / 3). { unfold u. apply (Rmult_eq_reg_l (sqrt 3)); [|lra]. rewrite Rinv_r by lra. lra. }
  assert (E1 : mapply (axis_rot (vscale u (V 1 1 1)) 0 1) (V 1 1 4) = V (2 + sqrt 3) (2 - sqrt 3) 2).
  { unfold axis_rot, outer, cross_matrix. vunfold. f_equal; ring_simplify; rewrite ?U3; ring_simplify; rewrite ?pow2_sqrt by lra; nra. }
  rewrite E1. unfold vabs, volume; cbn [vx vy vz]. rewrite !Rabs_right by nra. nra.
Qed.

(* ---------- success and failure of isometry_for_cutsky ---------- *)
Lemma usable_ok : forall L center b em im, 0 < b -> usable L b em im -> exists l, cut_centers L center b em im = Ok l /\ 0 <= margin im.
Proof.
  intros L center b em im B [(-> & -> & H)|(e & m & -> & -> & E & M & F)].
  - destruct (cut_centers_none_ok L center b B H) as [l El]. exists l. cbn. split; auto; lra.
  - destruct (cut_centers_some_ok L center b e m B E M F) as (l & El & _). exists l. cbn. auto.
Qed.
Lemma centers_fit : forall L center b em im l, 0 < b -> cut_centers L center b em im = Ok l -> l <> [] -> fits L b (margin em) (margin im) (List.length l).
Proof.
  intros L center b em im l B H NE. destruct (cut_centers_place _ _ _ _ _ _ B H) as (e & m & n & -> & E & M & E0 & M0 & F & _).
  rewrite place_length. assert (N : n <> 0%nat) by (intros ->; apply NE; reflexivity). specialize (F N). unfold fits.
  assert (1 <= INR n) by (change 1 with (INR 1); apply le_INR; lia). nra.
Qed.

Lemma ifc_usable : forall c dr rr de em im b o no, cutsky_to_box dr rr de = Ok (b, o) -> 0 < vx b -> 0 < vy b -> 0 < vz b ->
  usable (vx (boxsize c)) (vx b) (mg0 em) (mg0 im) -> usable (vy (boxsize c)) (vy b) (mg1 em) (mg1 im) -> usable (vz (boxsize c)) (vz b) (mg2 em) (mg2 im) ->
  let fit n0 n1 n2 := fits (vx (boxsize c)) (vx b) (margin (mg0 em)) (margin (mg0 im)) n0 /\
     fits (vy (boxsize c)) (vy b) (margin (mg1 em)) (margin (mg1 im)) n1 /\ fits (vz (boxsize c)) (vz b) (margin (mg2 em)) (margin (mg2 im)) n2 in
  (forall n, no = Some n -> (2 <= n)%nat -> (exists n0 n1 n2, fit n0 n1 n2 /\ (n <= n0 * n1 * n2)%nat) ->
     exists l, isometry_for_cutsky c dr rr de em im no = Ok (IsoList l)) /\
  (forall n, no = Some n -> (2 <= n)%nat -> (forall n0 n1 n2, fit n0 n1 n2 -> (n0 * n1 * n2 < n)%nat) ->
     isometry_for_cutsky c dr rr de em im no = Err ValueError) /\
  (no = None -> exists l, isometry_for_cutsky c dr rr de em im no = Ok (IsoList l)).
Proof.
  intros c dr rr de em im b o no E Bx By Bz U0 U1 U2 fit.
  destruct (usable_ok _ (vx (boxcenter c)) _ _ _ Bx U0) as (l0 & C0 & M0). destruct (usable_ok _ (vy (boxcenter c)) _ _ _ By U1) as (l1 & C1 & M1).
  destruct (usable_ok _ (vz (boxcenter c)) _ _ _ Bz U2) as (l2 & C2 & M2).
  assert (OK : forall k, exists l, map_result (fun x => centre_then x o) (firstn k (product3 l0 l1 l2)) = Ok l).
  { intros k. destruct (map_result_all (fun x => centre_then x o) (fun _ _ => True) (firstn k (product3 l0 l1 l2))) as (m & Em & _); eauto.
    intros x _. destruct (centre_then_ok x o) as (s & Es & _). eauto. }
  split; [|split].
  - intros n -> Hn (n0 & n1 & n2 & (F0 & F1 & F2) & Hle).
    pose proof (cut_centers_max _ _ _ _ _ _ _ Bx M0 C0 F0). pose proof (cut_centers_max _ _ _ _ _ _ _ By M1 C1 F1). pose proof (cut_centers_max _ _ _ _ _ _ _ Bz M2 C2 F2).
    assert (P : (n0 * n1 * n2 <= List.length l0 * List.length l1 * List.length l2)%nat) by (repeat apply Nat.mul_le_mono; auto).
    unfold isometry_for_cutsky. rewrite E. cbn [bind]. destruct n as [|[|n]]; [lia|lia|]. rewrite C0, C1, C2. cbn [bind]. cbn zeta.
    destruct (Nat.ltb_spec (List.length l0 * List.length l1 * List.length l2) (S (S n))); [lia|]. cbn [bind].
    destruct (OK (S (S n))) as [l El]. rewrite El. cbn [bind]. eauto.
  - intros n -> Hn Hlt. unfold isometry_for_cutsky. rewrite E. cbn [bind]. destruct n as [|[|n]]; [lia|lia|]. rewrite C0, C1, C2. cbn [bind]. cbn zeta.
    destruct (Nat.ltb_spec (List.length l0 * List.length l1 * List.length l2) (S (S n))) as [K|K]; [reflexivity|]. exfalso.
    assert (N0 : l0 <> []) by (intros ->; cbn in K; lia). assert (N1 : l1 <> []) by (intros ->; cbn in K; lia). assert (N2 : l2 <> []) by (intros ->; cbn in K; lia).
    specialize (Hlt _ _ _ (conj (centers_fit _ _ _ _ _ _ Bx C0 N0) (conj (centers_fit _ _ _ _ _ _ By C1 N1) (centers_fit _ _ _ _ _ _ Bz C2 N2)))). lia.
  - intros ->. unfold isometry_for_cutsky. rewrite E. cbn [bind]. rewrite C0, C1, C2. cbn [bind]. cbn zeta.
    destruct (OK (List.length l0 * List.length l1 * List.length l2)%nat) as [l El]. rewrite El. cbn [bind]. eauto.
Qed.

Definition cube10 : boxcat := BoxCat (pcat_new [] "Position" "Velocity" [] []) (V 10 10 10) (V 0 0 0).
Definition slab20 : boxcat := BoxCat (pcat_new [] "Position" "Velocity" [] []) (V 10 20 20) (V 0 0 0).
Definition all_margin (m : option R) : margins := Margins m m m.
Lemma ifc_one_margin : exists b o, cutsky_to_box (0, 3) (0, 180) (-90, 90) = Ok (b, o) /\
  fits 10 (vx b) (1 / 2) 0 1 /\ fits 10 (vy b) (1 / 2) 0 1 /\ fits 10 (vz b) (1 / 2) 0 1 /\
  isometry_for_cutsky cube10 (0, 3) (0, 180) (-90, 90) (all_margin (Some (1 / 2))) (all_margin None) None = Err AssertionError.
Proof.
  destruct (ctb_ok (0, 3) (0, 180) (-90, 90)) as (s & E & _). exists (ctb_boxsize (0, 3) (0, 180) (-90, 90)), s.
  split; auto. rewrite ctb_half. unfold fits; cbn [vx vy vz INR]. split; [lra|]. split; [lra|]. split; [lra|].
  apply ifc_err. apply cut_one_margin.
Qed.
Lemma ifc_zero_external : exists b o, cutsky_to_box (0, 6) (0, 180) (-90, 90) = Ok (b, o) /\
  fits 10 (vx b) 0 1 1 /\ fits 20 (vy b) 0 1 1 /\ fits 20 (vz b) 0 1 1 /\
  isometry_for_cutsky slab20 (0, 6) (0, 180) (-90, 90) (all_margin (Some 0)) (all_margin (Some 1)) None = Err ZeroDivision.
Proof.
  destruct (ctb_ok (0, 6) (0, 180) (-90, 90)) as (s & E & _). exists (ctb_boxsize (0, 6) (0, 180) (-90, 90)), s.
  split; auto. rewrite ctb_half. unfold fits; cbn [vx vy vz INR]. split; [lra|]. split; [lra|]. split; [lra|].
  apply ifc_err. apply cut_zero_external.
Qed.
