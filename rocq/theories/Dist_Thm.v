(** C60: conversion from distance to redshift. *)
Require Import Reals Lra Lia ZArith List Bool.
From Verif Require Import Base Mask_Model Mask_Proof Mask_Proof3 Sample_Model Smear_Model Smear_Spec Smear_Proof Smear_Thm Density_Proof Dist_Model Dist_Spec.
Import ListNotations.
Open Scope R_scope.

Lemma ok_inj : forall {A} (a b : A), Ok a = Ok b -> a = b.
Proof. intros A a b H. congruence. Qed.
Lemma ln10 : 0 < ln 10.
Proof. rewrite <- ln_1. apply ln_increasing; lra. Qed.
Lemma ln1e8 : ln 100000000 = 8 * ln 10.
Proof. replace 100000000 with (10 ^ 8) by ring. rewrite <- (Rpower_pow 8 10) by lra. unfold Rpower. rewrite ln_exp. cbn [INR]. ring. Qed.
Lemma pow10 : Rpower 10 (-8) = / 100000000.
Proof.
  replace (-8) with (Ropp 8) by lra. rewrite Rpower_Ropp. f_equal. replace 8 with (INR 8) by (cbn; ring). rewrite Rpower_pow by lra. ring.
Qed.
Lemma grid_value : forall zmax nz i, 0 < zmax -> (i < nz)%nat -> nth i (logspace (-8) (log10 zmax) nz) 0 = / 100000000 * ratio zmax nz ^ i.
Proof.
  intros zmax nz i P H. unfold logspace. rewrite nth_indep with (d' := Rpower 10 0) by (rewrite map_length, linspace_length; auto).
  rewrite map_nth, linspace_nth by auto. rewrite <- pow10. unfold ratio. rewrite <- Rpower_pow by apply exp_pos. rewrite Rpower_mult.
  rewrite Rpower_plus. f_equal. unfold Rpower. f_equal. unfold log10. rewrite ln_mult by lra. rewrite ln1e8. pose proof ln10. unfold Rdiv. generalize (/ INR (nz - 1)). intros v. field. lra.
Qed.
Lemma ratio_pos : forall zmax nz, 0 < ratio zmax nz.
Proof. intros. apply exp_pos. Qed.
Lemma ratio_big : forall zmax nz, / 100000000 < zmax -> (2 <= nz)%nat -> 1 < ratio zmax nz.
Proof.
  intros zmax nz H N. unfold ratio. rewrite <- (Rpower_O (zmax * 100000000)) by lra. apply Rpower_lt; [lra|]. apply Rinv_0_lt_compat. apply lt_0_INR. lia.
Qed.
Lemma ratio_small : forall zmax nz, 0 < zmax <= / 100000000 -> (2 <= nz)%nat -> ratio zmax nz <= 1.
Proof.
  intros zmax nz H N. unfold ratio. rewrite <- exp_0. unfold Rpower. assert (L : ln (zmax * 100000000) <= 0).
  { rewrite <- ln_1. destruct (Req_dec (zmax * 100000000) 1) as [-> | D]; [lra|]. left. apply ln_increasing; lra. }
  assert (P : 0 < / INR (nz - 1)) by (apply Rinv_0_lt_compat; apply lt_0_INR; lia).
  destruct (Req_dec (/ INR (nz - 1) * ln (zmax * 100000000)) 0) as [-> |D]; [lra|]. left. apply exp_increasing. nra.
Qed.
Lemma grid_last : forall zmax nz, 0 < zmax -> (2 <= nz)%nat -> / 100000000 * ratio zmax nz ^ (nz - 1) = zmax.
Proof.
  intros zmax nz P N. unfold ratio. rewrite <- Rpower_pow by apply exp_pos. rewrite Rpower_mult, Rinv_l by (apply not_0_INR; lia). rewrite Rpower_1 by lra. field.
Qed.

Section Grid.
Variables (sp : nat -> list R -> list R -> result (R -> R)) (distance : R -> R) (zmax : R) (nz k : nat) (o : d2z).
Hypothesis SP : scipy_spline sp.
Hypothesis OK : distance_to_redshift sp distance zmax nz k = Ok o.

Definition zs := 0 :: logspace (-8) (log10 zmax) nz.
Lemma inv_ok : 0 < zmax /\ d_zgrid o = zs /\ d_rgrid o = map distance zs /\ exists f, sp k (map distance zs) zs = Ok f /\
  d_interp o = (fun t => if Rltb t (hd 0 (map distance zs)) || Rltb (last (map distance zs) 0) t then Err ValueError else Ok (f t)).
Proof.
  unfold distance_to_redshift in OK. destruct (Rltb 0 zmax) eqn:E; [|discriminate]. apply Rltb_true in E. cbv zeta in OK. fold zs in OK.
  unfold raising_spline in OK. destruct (sp k (map distance zs) zs) as [f|] eqn:F; [|discriminate]. cbn [bind] in OK. injection OK as <-. cbn. eauto 6.
Qed.
Lemma zs_length : length zs = S nz.
Proof. unfold zs, logspace. cbn [length]. rewrite map_length, linspace_length. auto. Qed.
Lemma zs_nth : forall i, 0 < zmax -> (i < nz)%nat -> nth (S i) zs 0 = / 100000000 * ratio zmax nz ^ i.
Proof. intros. apply grid_value; auto. Qed.
Lemma zs_tab : forall z, 0 < zmax -> tabulated zmax nz z -> exists i, (i <= nz)%nat /\ nth i zs 0 = z.
Proof.
  intros z P [-> |(i & H & ->)].
  - exists 0%nat. split; [lia|reflexivity].
  - exists (S i). split; [lia|]. apply zs_nth; auto.
Qed.
Lemma zs_tab' : forall z, 0 < zmax -> In z zs -> tabulated zmax nz z.
Proof.
  intros z P I. apply (In_nth _ _ 0) in I. destruct I as (i & H & <-). rewrite zs_length in H. destruct i as [|i]; [left; reflexivity|].
  right. exists i. split; [lia|]. apply zs_nth; auto; lia.
Qed.
Lemma rs_nth : forall i, (i <= nz)%nat -> nth i (map distance zs) 0 = distance (nth i zs 0).
Proof. intros i H. rewrite nth_indep with (d' := distance 0) by (rewrite map_length, zs_length; lia). apply map_nth. Qed.
Lemma rs_last : last (map distance zs) 0 = distance (nth nz zs 0).
Proof. rewrite last_nth, map_length, zs_length. replace (S nz - 1)%nat with nz by lia. apply rs_nth. lia. Qed.
Lemma rs_hd : hd 0 (map distance zs) = distance 0.
Proof. reflexivity. Qed.
End Grid.

Theorem C60_table : forall sp distance zmax nz k o, distance_to_redshift sp distance zmax nz k = Ok o -> forall z, In z (d_zgrid o) <-> tabulated zmax nz z.
Proof.
  intros sp distance zmax nz k o H z. destruct (inv_ok _ _ _ _ _ _ H) as (P & -> & _). split; [apply zs_tab'; auto|].
  intros T. apply zs_tab in T; auto. destruct T as (i & L & <-). apply nth_In. rewrite zs_length. lia.
Qed.
Print Assumptions C60_table.

Theorem C60_nodes : forall sp distance zmax nz k o z, scipy_spline sp -> distance_to_redshift sp distance zmax nz k = Ok o -> tabulated zmax nz z ->
  d2z_call o (distance z) = Ok z.
Proof.
  intros sp distance zmax nz k o z (S1 & _) H T. destruct (inv_ok _ _ _ _ _ _ H) as (P & _ & _ & f & F & E). apply S1 in F. destruct F as (_ & _ & L & RI & N).
  apply zs_tab in T; auto. destruct T as (i & I & <-). unfold d2z_call. rewrite E. rewrite map_length, zs_length in *.
  assert (LE : forall a b, (a <= b <= nz)%nat -> distance (nth a (zs zmax nz) 0) <= distance (nth b (zs zmax nz) 0)).
  { intros a b B. rewrite <- !(rs_nth distance) by lia. destruct (Nat.eq_dec a b) as [-> |D]; [lra|]. left. apply RI. rewrite map_length, zs_length. lia. }
  rewrite rs_hd, rs_last. pose proof (LE 0%nat i ltac:(lia)) as A1. pose proof (LE i nz ltac:(lia)) as A2. change (nth 0 (zs zmax nz) 0) with 0 in A1.
  apply Rltb_false in A1. apply Rltb_false in A2. rewrite A1, A2. cbn [orb]. f_equal. rewrite <- (rs_nth distance) by auto. apply N. lia.
Qed.
Print Assumptions C60_nodes.

Lemma zs_rising : forall zmax nz, / 100000000 < zmax -> (2 <= nz)%nat -> rising (zs zmax nz).
Proof.
  intros zmax nz Z N i j H. rewrite zs_length in H. destruct j as [|j]; [lia|]. rewrite (zs_nth _ _ j) by (lra || lia). pose proof (ratio_big _ _ Z N) as R1.
  destruct i as [|i].
  - change (nth 0 (zs zmax nz) 0) with 0. pose proof (pow_lt (ratio zmax nz) j (ratio_pos _ _)). nra.
  - rewrite zs_nth by (lra || lia). pose proof (Rlt_pow (ratio zmax nz) i j R1 ltac:(lia)). lra.
Qed.
Lemma zs_nonneg : forall zmax nz i, 0 < zmax -> (i <= nz)%nat -> 0 <= nth i (zs zmax nz) 0.
Proof.
  intros zmax nz [|i] P H; [cbn; lra|]. rewrite zs_nth by (auto; lia). pose proof (pow_lt (ratio zmax nz) i (ratio_pos _ _)). nra.
Qed.
Lemma zs_end : forall zmax nz, 0 < zmax -> (2 <= nz)%nat -> nth nz (zs zmax nz) 0 = zmax.
Proof. intros zmax nz P N. replace nz with (S (nz - 1)) at 1 by lia. rewrite zs_nth by (auto; lia). apply grid_last; auto. Qed.

(** There is a converter for every increasing distance function... *)
Theorem C60_constructed : forall sp distance zmax nz k, scipy_spline sp -> grows distance -> / 100000000 < zmax -> (2 <= nz)%nat -> (1 <= k <= 5)%nat -> (k <= nz)%nat ->
  exists o, distance_to_redshift sp distance zmax nz k = Ok o.
Proof.
  intros sp distance zmax nz k (_ & S2 & _) G Z N K KN. unfold distance_to_redshift. assert (P : 0 < zmax) by lra. rewrite (proj2 (Rltb_true 0 zmax) P). cbv zeta. fold (zs zmax nz).
  unfold raising_spline. destruct (S2 k (map distance (zs zmax nz)) (zs zmax nz) K) as [f ->].
  - rewrite map_length, zs_length. lia.
  - apply map_length.
  - intros i j H. rewrite map_length, zs_length in H. rewrite !rs_nth by lia. apply G. split; [apply zs_nonneg; auto; lia|]. apply zs_rising; auto. rewrite zs_length. lia.
  - cbn [bind]. eauto.
Qed.
Print Assumptions C60_constructed.

(** ... and there is none for a table that does not increase, or is too short for the order. *)
Theorem C60_refused : forall sp distance zmax nz k, scipy_spline sp -> (forall a b, 0 <= a <= b -> distance a <= distance b) ->
  (zmax <= / 100000000 /\ (2 <= nz)%nat) \/ (nz < k)%nat \/ ~ (1 <= k <= 5)%nat -> exists e, distance_to_redshift sp distance zmax nz k = Err e.
Proof.
  intros sp distance zmax nz k (S1 & _) G H. destruct (distance_to_redshift sp distance zmax nz k) as [o|e] eqn:E; [|eauto]. exfalso.
  destruct (inv_ok _ _ _ _ _ _ E) as (P & _ & _ & f & F & _). apply S1 in F. destruct F as (K & L & _ & RI & _). rewrite map_length, zs_length in L.
  destruct H as [[Z N]|[H|H]]; [|lia|auto]. specialize (RI 1%nat 2%nat). rewrite map_length, zs_length, !rs_nth, !zs_nth in RI by (auto; lia). specialize (RI ltac:(lia)).
  pose proof (ratio_small zmax nz ltac:(lra) N). pose proof (ratio_pos zmax nz). apply (Rlt_not_le _ _ RI). apply G. cbn [pow]. split; nra.
Qed.
Print Assumptions C60_refused.

(** Distances outside of the table are refused, distances inside are not. *)
Theorem C60_outside : forall sp distance zmax nz k o d, scipy_spline sp -> (2 <= nz)%nat -> distance_to_redshift sp distance zmax nz k = Ok o ->
  (d < distance 0 \/ distance zmax < d -> d2z_call o d = Err ValueError) /\ (distance 0 <= d <= distance zmax -> exists z, d2z_call o d = Ok z).
Proof.
  intros sp distance zmax nz k o d _ N H. destruct (inv_ok _ _ _ _ _ _ H) as (P & _ & _ & f & _ & E). unfold d2z_call. rewrite E, rs_hd, rs_last, zs_end by auto. split.
  - intros [D|D]; apply Rltb_true in D; rewrite D; [reflexivity|]. rewrite orb_true_r. reflexivity.
  - intros [A1 A2]. apply Rltb_false in A1. apply Rltb_false in A2. rewrite A1, A2. cbn. eauto.
Qed.
Print Assumptions C60_outside.

(** Linear interpolation: the cell of a value. *)
Lemma lin_cell : forall x y t, sorted x -> length x = length y -> (2 <= length x)%nat -> hd 0 x <= t <= last x 0 ->
  exists i, (S i < length x)%nat /\ nth i x 0 <= t <= nth (S i) x 0 /\
    lin x y t = nth i y 0 + (nth (S i) y 0 - nth i y 0) * ((t - nth i x 0) / (nth (S i) x 0 - nth i x 0)).
Proof.
  induction x as [|x0 [|x1 x] IH]; intros y t S0 L L2 T; cbn [length] in L2; try lia. destruct y as [|y0 [|y1 y]]; try discriminate.
  rewrite lin_step. cbn [hd] in T. assert (F : Rltb t x0 = false) by (apply Rltb_false; lra). rewrite F. destruct (Rleb t x1) eqn:E.
  - apply Rleb_true in E. exists 0%nat. cbn [length nth]. split; [lia|]. split; [lra|reflexivity].
  - apply Rleb_false in E. apply sorted_cons in S0. destruct S0 as [O S0]. destruct x as [|x2 x]; [cbn [last] in T; lra|].
    destruct (IH (y1 :: y) t S0) as (i & I1 & I2 & I3); [cbn in *; lia|cbn [length]; lia|split; [cbn; lra|apply T]|].
    exists (S i). split; [cbn [length] in *; lia|]. split; [exact I2|exact I3].
Qed.
Lemma rising_sorted : forall x, rising x -> sorted x.
Proof.
  induction x as [|a [|b x] IH]; intros H; [reflexivity|reflexivity|]. apply sorted_cons. split; [apply (H 0%nat 1%nat); cbn; lia|].
  apply IH. intros i j I. apply (H (S i) (S j)). cbn [length] in *. lia.
Qed.
Lemma sorted_rising : forall x, sorted x -> rising x.
Proof.
  induction x as [|a x IH]; intros H i j I; [cbn in I; lia|]. destruct j as [|j]; [lia|]. destruct i as [|i].
  - cbn [nth]. apply (sorted_head x); auto. apply nth_In. cbn in I. lia.
  - cbn [nth]. apply IH; [|cbn in I; lia]. destruct x as [|b x]; [reflexivity|]. apply sorted_cons in H. apply H.
Qed.

(** With linear interpolation, distances of redshifts are converted back to within the spacing of the table. *)
Theorem C60_linear : forall sp distance zmax nz o z, scipy_spline sp -> grows distance -> (2 <= nz)%nat -> distance_to_redshift sp distance zmax nz 1 = Ok o -> 0 <= z <= zmax ->
  exists r, d2z_call o (distance z) = Ok r /\ 0 <= r <= zmax /\
    (z <= / 100000000 -> Rabs (r - z) <= / 100000000) /\ (/ 100000000 <= z -> Rabs (r - z) <= (ratio zmax nz - 1) * z).
Proof.
  intros sp distance zmax nz o z SP G N H Z. pose proof SP as (S1 & _ & S3 & _). destruct (inv_ok _ _ _ _ _ _ H) as (P & _ & _ & f & F & E). pose proof F as F'. apply S1 in F'.
  destruct F' as (_ & _ & _ & RI & _). rewrite S3 in F. apply spline_inv in F. destruct F as (S0 & L & L2 & ->).
  assert (Z8 : / 100000000 < zmax). { destruct (Rlt_dec (/ 100000000) zmax) as [|NZ]; auto. destruct (C60_refused sp distance zmax nz 1 SP) as [e E2].
    - intros a b [A1 A2]. destruct (Req_dec a b) as [-> |]; [lra|]. left. apply G. lra.
    - left. split; [lra|auto].
    - congruence. }
  assert (MONO : forall a b, 0 <= a <= b -> distance a <= distance b). { intros a b [A1 A2]. destruct (Req_dec a b) as [-> |]; [lra|]. left. apply G. lra. }
  assert (RANGE : distance 0 <= distance z <= distance zmax) by (split; apply MONO; lra).
  unfold d2z_call. rewrite E, rs_hd, rs_last, zs_end by auto. destruct RANGE as [A1 A2]. pose proof A1 as B1. pose proof A2 as B2. apply Rltb_false in B1. apply Rltb_false in B2. rewrite B1, B2. cbn [orb].
  eexists. split; [reflexivity|]. destruct (lin_cell _ _ (distance z) S0 L L2) as (i & I1 & I2 & ->). { rewrite rs_hd, rs_last, zs_end by auto. lra. }
  rewrite map_length, zs_length in I1. rewrite !rs_nth in I2 by lia. rewrite !rs_nth by lia.
  pose proof (zs_rising zmax nz Z8 N) as ZR. pose proof (ZR i (S i) ltac:(rewrite zs_length; lia)) as ZI. pose proof (zs_nonneg zmax nz i P ltac:(lia)) as Z0.
  pose proof (G _ _ (conj Z0 ZI)) as DI. pose proof (frac_range _ _ (distance z) DI I2) as FR.
  set (w := (distance z - distance (nth i (zs zmax nz) 0)) / (distance (nth (S i) (zs zmax nz) 0) - distance (nth i (zs zmax nz) 0))) in *.
  assert (ZI1 : nth i (zs zmax nz) 0 <= z). { destruct (Rle_dec (nth i (zs zmax nz) 0) z); auto. exfalso. pose proof (G z (nth i (zs zmax nz) 0)). lra. }
  assert (ZI2 : z <= nth (S i) (zs zmax nz) 0). { destruct (Rle_dec z (nth (S i) (zs zmax nz) 0)); auto. exfalso. pose proof (G (nth (S i) (zs zmax nz) 0) z). lra. }
  pose proof (segment_between (nth i (zs zmax nz) 0) (nth (S i) (zs zmax nz) 0) w _ _ FR (conj (Rle_refl _) (Rlt_le _ _ ZI)) (conj (Rlt_le _ _ ZI) (Rle_refl _))) as SB.
  set (r := nth i (zs zmax nz) 0 + (nth (S i) (zs zmax nz) 0 - nth i (zs zmax nz) 0) * w) in *.
  assert (ZE : nth (S i) (zs zmax nz) 0 <= zmax). { rewrite <- (zs_end zmax nz) at 2 by auto. destruct (Nat.eq_dec (S i) nz) as [-> |]; [lra|]. left. apply ZR. rewrite zs_length. lia. }
  split; [lra|]. assert (AB : Rabs (r - z) <= nth (S i) (zs zmax nz) 0 - nth i (zs zmax nz) 0) by (apply Rabs_le; lra). split.
  - intros Z1. destruct i as [|i].
    + rewrite (zs_nth _ _ 0) in AB by (auto; lia). change (nth 0 (zs zmax nz) 0) with 0 in AB. cbn [pow] in AB. lra.
    + assert (EQ : z = / 100000000 /\ i = 0%nat).
      { destruct i as [|i]; [rewrite (zs_nth _ _ 0) in ZI1 by (auto; lia); cbn [pow] in ZI1; split; auto; lra|]. exfalso.
        pose proof (ZR 1%nat (S (S i)) ltac:(rewrite zs_length; lia)) as Q. rewrite (zs_nth _ _ 0) in Q by (auto; lia). cbn [pow] in Q. lra. }
      destruct EQ as [-> ->]. pose proof (C60_nodes sp distance zmax nz 1 o (/ 100000000) SP H) as ND. assert (T : tabulated zmax nz (/ 100000000)). { right. exists 0%nat. cbn. split; [lia|ring]. }
      assert (W : w = 0). { unfold w. rewrite (zs_nth _ _ 0) by (auto; lia). cbn [pow]. rewrite Rmult_1_r. unfold Rdiv. ring. }
      unfold r. rewrite W, (zs_nth _ _ 0) by (auto; lia). cbn [pow]. rewrite !Rmult_1_r, Rmult_0_r, Rplus_0_r. rewrite Rminus_diag_eq by reflexivity. rewrite Rabs_R0. lra.
  - intros Z1. destruct i as [|i].
    + rewrite (zs_nth _ _ 0) in ZI2 by (auto; lia). cbn [pow] in ZI2. assert (EQ : z = / 100000000) by lra.
      assert (W : w = 1). { unfold w. rewrite (zs_nth _ _ 0) by (auto; lia). cbn [pow]. rewrite Rmult_1_r, <- EQ. change (nth 0 (zs zmax nz) 0) with 0. unfold Rdiv. apply Rinv_r. pose proof (G 0 z). lra. }
      unfold r. rewrite W, (zs_nth _ _ 0) by (auto; lia). change (nth 0 (zs zmax nz) 0) with 0. cbn [pow]. replace (0 + (/ 100000000 * 1 - 0) * 1 - z) with 0 by lra. rewrite Rabs_R0.
      pose proof (ratio_big _ _ Z8 N). nra.
    + apply Rle_trans with (1 := AB). rewrite !zs_nth by (auto; lia). rewrite zs_nth in ZI1 by (auto; lia). cbn [pow]. pose proof (ratio_big _ _ Z8 N).
      replace (/ 100000000 * (ratio zmax nz * ratio zmax nz ^ i) - / 100000000 * ratio zmax nz ^ i) with ((ratio zmax nz - 1) * (/ 100000000 * ratio zmax nz ^ i)) by ring.
      apply Rmult_le_compat_l; lra.
Qed.
Print Assumptions C60_linear.

Lemma lin_strict : forall x y t u, sorted x -> sorted y -> length x = length y -> hd 0 x <= t -> t < u -> u <= last x 0 -> lin x y t < lin x y u.
Proof.
  induction x as [|x0 [|x1 x] IH]; intros y t u SX SY L T TU U; cbn [hd last] in *; [lra|lra|]. destruct y as [|y0 [|y1 y]]; try discriminate.
  rewrite !lin_step. assert (F : Rltb t x0 = false) by (apply Rltb_false; lra). rewrite F. assert (F2 : Rltb u x0 = false) by (apply Rltb_false; lra). rewrite F2.
  apply sorted_cons in SX. destruct SX as [OX SX]. apply sorted_cons in SY. destruct SY as [OY SY]. assert (PI1 : 0 < / (x1 - x0)) by (apply Rinv_0_lt_compat; lra).
  assert (PE : (x1 - x0) * / (x1 - x0) = 1) by (apply Rinv_r; lra). unfold Rdiv.
  destruct (Rleb t x1) eqn:E1; destruct (Rleb u x1) eqn:E2.
  - apply Rplus_lt_compat_l. apply Rmult_lt_compat_l; [lra|]. apply Rmult_lt_compat_r; lra.
  - apply Rleb_true in E1. apply Rleb_false in E2. assert (A1 : y0 + (y1 - y0) * ((t - x0) * / (x1 - x0)) <= y1) by (assert ((t - x0) * / (x1 - x0) <= 1) by nra; nra).
    destruct x as [|x2 x]; [cbn [last] in U; lra|]. assert (A2 : lin (x1 :: x2 :: x) (y1 :: y) x1 = y1). { apply lin_knot; auto; [cbn [length]; lia|left; reflexivity]. }
    apply Rle_lt_trans with (1 := A1). apply Rle_lt_trans with (lin (x1 :: x2 :: x) (y1 :: y) x1); [right; symmetry; exact A2|]. apply IH; auto; cbn [hd]; lra.
  - apply Rleb_true in E2. apply Rleb_false in E1. lra.
  - apply Rleb_false in E1. destruct x as [|x2 x]; [cbn [last] in U; lra|]. apply IH; auto; cbn [hd]; lra.
Qed.

(** Farther objects have larger redshifts. *)
Theorem C60_increasing : forall sp distance zmax nz o d d' z z', scipy_spline sp -> grows distance -> (2 <= nz)%nat -> distance_to_redshift sp distance zmax nz 1 = Ok o ->
  d < d' -> d2z_call o d = Ok z -> d2z_call o d' = Ok z' -> z < z'.
Proof.
  intros sp distance zmax nz o d d' z z' SP G N H D C1 C2. pose proof SP as (_ & _ & S3 & _). destruct (inv_ok _ _ _ _ _ _ H) as (P & _ & _ & f & F & E).
  rewrite S3 in F. apply spline_inv in F. destruct F as (S0 & L & L2 & ->). unfold d2z_call in *. rewrite E in C1, C2.
  destruct (Rltb d _) eqn:E1 in C1; [discriminate|]. destruct (Rltb _ d) eqn:E2 in C1; [discriminate|]. destruct (Rltb d' _) eqn:E3 in C2; [discriminate|]. destruct (Rltb _ d') eqn:E4 in C2; [discriminate|].
  cbn [orb] in C1, C2. apply ok_inj in C1. apply ok_inj in C2. rewrite <- C1, <- C2. apply Rltb_false in E1. apply Rltb_false in E4. apply lin_strict; auto.
  apply rising_sorted. apply zs_rising; auto. destruct (Rlt_dec (/ 100000000) zmax) as [|NZ]; auto. destruct (C60_refused sp distance zmax nz 1 SP) as [e E5].
  - intros a b [A1 A2]. destruct (Req_dec a b) as [-> |]; [lra|]. left. apply G. lra.
  - left. split; [lra|auto].
  - congruence.
Qed.
Print Assumptions C60_increasing.

(** An increasing function with values 0, 1, 2, 3 at redshifts 0, 1e-8, 1e-4, 1. *)
Definition steep (z : R) : R := if Rle_dec z (/ 100000000) then z * 100000000 else 3 + log10 z / 4.
Lemma log10_pow : forall x, log10 (Rpower 10 x) = x.
Proof. intros. unfold log10, Rpower. rewrite ln_exp. field. pose proof ln10. lra. Qed.
Lemma log10_lt : forall a b, 0 < a < b -> log10 a < log10 b.
Proof. intros a b [A1 A2]. unfold log10. apply Rmult_lt_compat_r; [apply Rinv_0_lt_compat; apply ln10|]. apply ln_increasing; auto. Qed.
Lemma log10_small : log10 (/ 100000000) = -8.
Proof. rewrite <- pow10. apply log10_pow. Qed.
Lemma steep_grows : grows steep.
Proof.
  intros a b [A1 A2]. unfold steep. destruct (Rle_dec a _) as [C|C]; destruct (Rle_dec b _) as [D|D]; try lra.
  - assert (X : -8 < log10 b) by (rewrite <- log10_small; apply log10_lt; lra). lra.
  - pose proof (log10_lt a b). lra.
Qed.
Lemma pow4 : Rpower 10 (-4) = / 10000.
Proof. replace (-4) with (Ropp 4) by lra. rewrite Rpower_Ropp. f_equal. replace 4 with (INR 4) by (cbn; ring). rewrite Rpower_pow by lra. ring. Qed.
Lemma zs_steep : zs 1 3 = [0; / 100000000; / 10000; 1].
Proof.
  unfold zs, logspace, linspace. cbn [seq map Nat.sub]. assert (L1 : log10 1 = 0) by (unfold log10; rewrite ln_1; unfold Rdiv; ring). rewrite L1. cbn [INR].
  f_equal. f_equal; [|f_equal; [|f_equal]].
  - replace (-8 + (0 - -8) * (0 / (1 + 1))) with (-8) by field. apply pow10.
  - replace (-8 + (0 - -8) * (1 / (1 + 1))) with (-4) by field. apply pow4.
  - replace (-8 + (0 - -8) * ((1 + 1) / (1 + 1))) with 0 by field. apply Rpower_O. lra.
Qed.
Lemma rs_steep : map steep (zs 1 3) = [0; 1; 2; 3].
Proof.
  rewrite zs_steep. cbn [map]. unfold steep. destruct (Rle_dec 0 _); [|lra]. destruct (Rle_dec (/ 100000000) (/ 100000000)); [|lra]. destruct (Rle_dec (/ 10000) _); [lra|]. destruct (Rle_dec 1 _); [lra|].
  f_equal; [ring|]. f_equal; [field|]. f_equal; [rewrite <- pow4, log10_pow; field|]. f_equal. unfold log10. rewrite ln_1. unfold Rdiv. ring.
Qed.

(** With cubic splines, the default, redshifts can be negative, and need not increase with distance. *)
Theorem C60_cubic_refuted : forall sp, scipy_spline sp -> exists distance zmax nz o z, grows distance /\ distance_to_redshift sp distance zmax nz 3 = Ok o /\
  d2z_call o (distance 0) = Ok 0 /\ distance 0 < 3 / 2 <= distance zmax /\ d2z_call o (3 / 2) = Ok z /\ z < 0.
Proof.
  intros sp SP. destruct (C60_constructed sp steep 1 3 3 SP steep_grows ltac:(lra) ltac:(lia) ltac:(lia) ltac:(lia)) as [o OK].
  destruct (inv_ok _ _ _ _ _ _ OK) as (_ & _ & _ & f & F & E). exists steep, 1, 3%nat, o, (f (3 / 2)). split; [apply steep_grows|]. split; auto. split.
  { apply (C60_nodes sp steep 1 3 3); auto. left; auto. }
  assert (V0 : steep 0 = 0) by (unfold steep; destruct (Rle_dec 0 _); lra). assert (V1 : steep 1 = 3). { unfold steep. destruct (Rle_dec 1 _); [lra|]. unfold log10. rewrite ln_1. unfold Rdiv. ring. }
  rewrite V0, V1. split; [lra|]. split.
  - unfold d2z_call. rewrite E, rs_steep. cbn [hd last]. destruct (Rltb (3 / 2) 0) eqn:C1; [apply Rltb_true in C1; lra|]. destruct (Rltb 3 (3 / 2)) eqn:C2; [apply Rltb_true in C2; lra|]. reflexivity.
  - destruct SP as (_ & _ & _ & S4). rewrite rs_steep, zs_steep in F. rewrite (S4 _ _ _ _ _ _ _ _ _ (3 / 2) F). unfold cubic. lra.
Qed.
Print Assumptions C60_cubic_refuted.

(** A table of a single redshift stops at 1e-8, whatever zmax. *)
Theorem C60_single_refuted : forall sp distance zmax, scipy_spline sp -> grows distance -> / 100000000 < zmax ->
  exists o, distance_to_redshift sp distance zmax 1 1 = Ok o /\ d2z_call o (distance zmax) = Err ValueError.
Proof.
  intros sp distance zmax SP G Z. pose proof SP as (_ & S2 & _). destruct (distance_to_redshift sp distance zmax 1 1) as [o|e] eqn:OK.
  - exists o. split; auto. destruct (inv_ok _ _ _ _ _ _ OK) as (P & _ & _ & f & _ & E). unfold d2z_call. rewrite E, rs_last, (zs_nth _ _ 0) by (auto; lia). cbn [pow]. rewrite Rmult_1_r.
    pose proof (G (/ 100000000) zmax ltac:(lra)) as L. apply Rltb_true in L. rewrite L, orb_true_r. reflexivity.
  - exfalso. unfold distance_to_redshift in OK. destruct (Rltb 0 zmax) eqn:E; [|apply Rltb_false in E; lra]. cbv zeta in OK. fold (zs zmax 1) in OK. unfold raising_spline in OK.
    destruct (S2 1%nat (map distance (zs zmax 1)) (zs zmax 1)) as [f F]; [lia|rewrite map_length, zs_length; lia|apply map_length| |rewrite F in OK; discriminate].
    intros i j H. rewrite map_length, zs_length in H. assert (i = 0%nat /\ j = 1%nat) as [-> ->] by lia. rewrite !rs_nth by lia. apply G. rewrite (zs_nth _ _ 0) by (lra || lia). cbn. lra.
Qed.
Print Assumptions C60_single_refuted.

(** There are functions that satisfy the contract of splines. *)
Definition any_spline (k : nat) (x y : list R) : result (R -> R) :=
  if Nat.eqb k 3 then some_spline x y else if Nat.leb 1 k && Nat.leb k 5 && Nat.ltb k (length x) then lin_spline x y else Err ValueError.
Lemma any_spline_scipy : scipy_spline any_spline.
Proof.
  destruct some_spline_cubic as (K1 & K2 & K3). split; [|split; [|split]].
  - intros k x y f H. unfold any_spline in H. destruct (Nat.eqb k 3) eqn:E.
    + apply Nat.eqb_eq in E. subst k. apply K1 in H. destruct H as (A1 & A2 & A3 & A4). split; [lia|]. split; [lia|]. auto.
    + destruct (Nat.leb 1 k && Nat.leb k 5 && Nat.ltb k (length x)) eqn:B; [|discriminate]. apply andb_prop in B. destruct B as [B B3]. apply andb_prop in B. destruct B as [B1 B2].
      apply Nat.leb_le in B1. apply Nat.leb_le in B2. apply Nat.ltb_lt in B3. apply spline_inv in H. destruct H as (S0 & L & L2 & ->). split; [lia|]. split; [auto|]. split; [auto|].
      split; [apply sorted_rising; auto|]. intros i I. apply lin_knot; auto. rewrite <- combine_nth by auto. apply nth_In. rewrite combine_length. lia.
  - intros k x y K KL L RI. unfold any_spline. destruct (Nat.eqb k 3) eqn:E.
    + apply Nat.eqb_eq in E. subst k. apply K2; auto.
    + replace (Nat.leb 1 k && Nat.leb k 5 && Nat.ltb k (length x)) with true. exists (lin x y). apply spline_ok; [apply rising_sorted; auto|auto|lia].
      symmetry. rewrite !andb_true_iff. repeat split; [apply Nat.leb_le; lia|apply Nat.leb_le; lia|apply Nat.ltb_lt; auto].
  - intros x y. unfold any_spline. cbn [Nat.eqb Nat.leb andb]. destruct (Nat.ltb 1 (length x)) eqn:E; auto. apply Nat.ltb_ge in E. unfold lin_spline.
    destruct (Nat.leb 2 (length x)) eqn:B; [apply Nat.leb_le in B; lia|]. rewrite andb_false_r. reflexivity.
  - intros a b c d p q r s f t H. apply K3. auto.
Qed.

(** The hypotheses hold for a distance proportional to redshift, with a spline of order 1. *)
Example C60_case : exists o, scipy_spline any_spline /\ distance_to_redshift any_spline (fun z => 3000 * z) 100 2048 1 = Ok o /\ grows (fun z => 3000 * z) /\
  d2z_call o (3000 * 100) = Ok 100 /\ tabulated 100 2048 100.
Proof.
  pose proof any_spline_scipy as SP. assert (G : grows (fun z => 3000 * z)) by (intros a b H; lra).
  destruct (C60_constructed any_spline _ 100 2048 1 SP G ltac:(lra) ltac:(lia) ltac:(lia) ltac:(lia)) as [o OK].
  assert (T : tabulated 100 2048 100). { right. exists 2047%nat. split; [lia|]. symmetry. apply (grid_last 100 2048); [lra|lia]. }
  exists o. split; auto. split; auto. split; auto. split; auto. apply (C60_nodes _ _ _ _ _ _ _ SP OK T).
Qed.
