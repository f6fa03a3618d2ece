(** Property C35, continued: exactly the ranges of right ascension for which random cut-skies are made whatever the random numbers. *)
Require Import Reals Lra Lia ZArith List Bool.
From Verif Require Import Base Vec3 Sky_Model Sky_Proof Mask_Model Mask_Spec Mask_Proof4 Sample_Model Sample_Spec Sample_Proof Random_Model Random_Spec.
From Verif Require Import Isometry_Proof Mask_Thm Sample_Thm Density_Proof Random_Thm.
Import ListNotations.
Open Scope R_scope.

(** ** Specification *)
(** Ranges written upwards whose end, brought to one turn, is not above their start and not 0, such as (-60, 40): candidates after
    right ascension 0 are drawn and never kept. *)
Definition broken_range (lo hi : R) : Prop := lo < hi /\ exists j k : Z, 0 < hi - 360 * IZR j <= lo - 360 * IZR k /\ lo - 360 * IZR k < 360.

(** ** Proofs *)
Lemma sky_kept : forall lo hi d0 d1 t v u, -90 <= d0 < d1 -> d1 <= 90 -> unit_number t -> unit_number v -> unit_number u -> ~ broken_range lo hi ->
  kept (fun a => uniform_angular_prob 1 (Some (lo, hi)) (Some (d0, d1)) (fst a) (snd a)) (angular_candidate (angular_rarange (Some (lo, hi))) (d0, d1) t v, u).
Proof.
  intros lo hi d0 d1 t v u D0 D1 T V U NB. unfold kept. cbn [fst snd].
  pose proof (C31_angular_candidates lo hi d0 d1 t v D0 D1 T V) as C.
  assert (K : ra_test (angular_rarange (Some (lo, hi))) (fst (angular_candidate (angular_rarange (Some (lo, hi))) (d0, d1) t v)) = true).
  { unfold angular_candidate. cbn [fst snd]. unfold angular_rarange. destruct (wrap360 lo) as (a & Ea & Ra). destruct (wrap360 hi) as (b & Eb & Rb). rewrite Ea, Eb.
    set (p := lo + 360 * IZR a) in *. set (q := hi + 360 * IZR b) in *. unfold unit_number in T.
    destruct (Rltb lo hi) eqn:L; [apply Rltb_true in L|apply Rltb_false in L]; cbn [andb].
    - destruct (Rleb q p) eqn:Q; [apply Rleb_true in Q|apply Rleb_false in Q]; cbn [fst snd].
      + assert (q = 0).
        { destruct (Req_dec q 0) as [|NZ]; auto. exfalso. apply NB. split; auto. exists (- b)%Z, (- a)%Z. rewrite !opp_IZR. unfold p, q in *. lra. }
        rewrite (proj2 (Rltb_false _ _)) by lra. apply ra_test_true. left. split; [lra|]. unfold uniform.
        assert (E : 0 <= (q + 360 - p) * t < q + 360 - p) by nra. rewrite Rmod_id by lra. lra.
      + rewrite (proj2 (Rltb_false _ _)) by lra. apply ra_test_true. left. split; [lra|]. unfold uniform. assert (E : 0 <= (q - p) * t < q - p) by nra. rewrite Rmod_id by lra. lra.
    - cbn [fst snd]. apply ra_test_true. destruct (Rltb q p) eqn:Q; [apply Rltb_true in Q|apply Rltb_false in Q].
      + right. split; [auto|]. unfold uniform. set (x := (q - (p - 360)) * t). assert (E : 0 <= x < q - (p - 360)) by (unfold x; nra).
        destruct (Rle_lt_dec 0 (p - 360 + x)) as [G|G].
        * right. rewrite Rmod_id by lra. lra.
        * left. replace (p - 360 + x) with ((p + x) + IZR (-1) * 360) by lra. rewrite Rmod_shift by lra. rewrite Rmod_id by lra. lra.
      + left. split; [lra|]. unfold uniform. assert (E : 0 <= (q - p) * t <= q - p) by nra. assert (X : 0 <= (q - p) * t < 360) by nra. rewrite Rmod_id by lra. lra. }
  destruct (angular_candidate _ _ t v) as [ra dec]. destruct C as (C0 & _ & C2 & _). cbn [fst snd] in *.
  unfold uniform_angular_prob. rewrite wrap_id by (unfold turn; lra).
  assert (MR : mask_ranges (angular_rarange (Some (lo, hi))) (angular_decrange (Some (d0, d1))) ra dec = true) by (apply mask_ranges_split; cbn [angular_decrange fst snd]; auto).
  rewrite MR. unfold Rclip. rewrite Rmax_left, Rmin_left by lra. unfold unit_number in U. lra.
Qed.

(** The number of objects: the one asked for, or the integer nearest to density times area. *)
Definition objects (csize : option Z) (nbar : option R) (area : R) (n : Z) : Prop :=
  csize = Some n \/ csize = None /\ exists d, nbar = Some d /\ 0 <= d * area /\ n = Rfloor (d * area + 1 / 2).
Lemma objects_size : forall csize nbar area n, objects csize nbar area n -> collective_size csize nbar area = Ok n.
Proof.
  intros csize nbar area n [-> |(-> & d & -> & P & ->)]; [reflexivity|]. cbn. unfold Rtrunc. destruct (Rlt_dec _ 0); [lra|]. replace (d * area + 0.5) with (d * area + 1 / 2) by lra. reflexivity.
Qed.
Lemma someone : forall sizes, (0 < total sizes)%nat -> exists r, (r < length sizes)%nat /\ (0 < nth r sizes 0)%nat.
Proof.
  induction sizes as [|x l IH]; intros Q; cbn in Q; [lia|]. destruct x; [|exists 0%nat; cbn; lia]. destruct IH as [r [A B]]; [exact Q|]. exists (S r). cbn; split; [lia|auto].
Qed.
(** A catalog is made for one object or more, whatever the random numbers and the number of processes, exactly when the range of
    right ascension is not broken. *)
Theorem C35_cutsky_exactly : forall split inverse ddraws lo hi d0 d1 n fuel drange csize nbar,
  splits split -> -90 <= d0 < d1 -> d1 <= 90 -> distance_stream ddraws -> enough ddraws (split (Z.to_nat n)) ->
  (forall r0 r1, drange = Some (r0, r1) -> 0 <= r0 < r1 /\ forall x, 0 <= x <= r1 -> inverse x = x) ->
  objects csize nbar (radecbox_area (lo, hi) (d0, d1)) n -> (1 <= n)%Z -> (Z.to_nat n <= fuel)%nat ->
  ((forall adraws, angle_stream adraws -> enough adraws (split (Z.to_nat n)) ->
      exists out, random_cutsky split inverse adraws ddraws fuel (lo, hi) (d0, d1) drange csize nbar = Ok out) <-> ~ broken_range lo hi).
Proof.
  intros split inverse ddraws lo hi d0 d1 n fuel drange csize nbar SPLIT D0 D1 DS ED DR OB N F.
  assert (T : total (split (Z.to_nat n)) = Z.to_nat n) by apply SPLIT. unfold random_cutsky. cbv zeta. rewrite (objects_size _ _ _ _ OB). cbn [bind].
  replace (n <? 0)%Z with false by (symmetry; apply Z.ltb_ge; lia). set (sizes := split (Z.to_nat n)) in *.
  destruct (someone sizes) as (r & Hr & Pr); [lia|]. split.
  - intros H B. destruct B as (L & j & k & (B1 & B2) & B3). set (q := hi - 360 * IZR j) in *. set (p := lo - 360 * IZR k) in *.
    set (t := (360 - p + q / 2) / (360 - p + q)).
    assert (Tt : 0 <= t < 1).
    { unfold t. split; [apply Rmult_le_pos; [lra|apply Rlt_le, Rinv_0_lt_compat; lra]|]. apply Rmult_lt_reg_r with (360 - p + q); [lra|]. unfold Rdiv. rewrite Rmult_assoc, Rinv_l by lra. lra. }
    destruct (H (fun _ r => repeat (t, 1 / 2, 1 / 2) (nth r sizes 0%nat))) as [out E].
    + intros k' r' a b c I. apply repeat_spec in I. injection I as -> -> ->. unfold unit_number. lra.
    + intros k' r' _. apply repeat_length.
    + revert E. unfold sample_angles. rewrite C31_empty_mask_refuted; [discriminate|lia|].
      intros k' r' a u I K. apply in_map_iff in I. destruct I as [[[t' v'] u'] [E I]]. apply repeat_spec in I. injection I as -> -> ->. apply pair_equal_spec in E. destruct E as [<- <-].
      unfold kept in K. cbn [snd] in K. revert K. unfold uniform_angular_prob. destruct (mask_ranges _ _ _ _) eqn:MR; [intros _|lra]. apply mask_ranges_split in MR. destruct MR as [MR _]. revert MR.
      unfold angular_candidate. cbn [fst snd]. unfold angular_rarange. destruct (wrap360 lo) as (a & Ea & Ra). destruct (wrap360 hi) as (b & Eb & Rb). rewrite Ea, Eb.
      assert (A0 : (a + k = 0)%Z) by (apply small_zero; rewrite plus_IZR; unfold p, q in *; lra). assert (B0 : (b + j = 0)%Z) by (apply small_zero; rewrite plus_IZR; unfold p, q in *; lra).
      apply (f_equal IZR) in A0, B0. rewrite plus_IZR in A0, B0.
      replace (lo + 360 * IZR a) with p by (unfold p; lra). replace (hi + 360 * IZR b) with q by (unfold q; lra).
      rewrite (proj2 (Rltb_true _ _)) by exact L. rewrite (proj2 (Rleb_true q p)) by exact B2. cbn [andb fst snd]. rewrite (proj2 (Rltb_false _ _)) by lra.
      unfold uniform. replace (p + (q + 360 - p) * t) with (q / 2 + IZR 1 * 360) by (unfold t; field; lra). rewrite Rmod_shift, Rmod_id by lra.
      rewrite wrap_id by (unfold turn; lra). rewrite ra_test_true. lra.
  - intros NB adraws AS EA.
    assert (A : exists angles, sample_angles adraws fuel (lo, hi) (d0, d1) sizes = Ok angles).
    { apply C31_ends; [|lia]. intros k. pose proof (EA k r Hr) as L. destruct (adraws k r) as [|[[t v] u] l] eqn:Q; [cbn in L; lia|].
      destruct (AS k r t v u) as (Ht & Hv & Hu); [rewrite Q; left; auto|].
      exists r, (angular_candidate (angular_rarange (Some (lo, hi))) (angular_decrange (Some (d0, d1))) t v), u. split; auto. split; [rewrite Q; left; reflexivity|]. apply sky_kept; auto. }
    destruct A as [angles ->]. cbn [bind].
    assert (D : exists dist, match drange with None => Ok (map (map (fun _ => 1)) angles) | Some drange => sample_distances inverse ddraws fuel drange sizes end = Ok dist).
    { destruct drange as [[r0 r1]|]; [|eexists; reflexivity]. destruct (DR r0 r1 eq_refl) as [R INV]. apply C31_ends; [|lia].
      intros k. pose proof (ED k r Hr) as L. destruct (ddraws k r) as [|[t u] l] eqn:Q; [cbn in L; lia|].
      destruct (DS k r t u) as (Ht & Hu); [rewrite Q; left; auto|].
      destruct (C31_radial_candidates (fun z => z) r0 r1 t R Ht) as [C _].
      exists r, (inverse (radial_candidate (fun z => z) r0 r1 t)), u. split; auto. split; [rewrite Q; left; reflexivity|]. rewrite INV by lra. unfold kept. cbn [fst snd].
      unfold uniform_radial_prob, in_zrange. cbn [fst snd]. rewrite (proj2 (Rleb_true _ _) (proj1 C)), (proj2 (Rleb_true _ _) (proj2 C)). cbn [andb].
      unfold Rclip. rewrite Rmax_left, Rmin_left by lra. destruct Hu. lra. }
    destruct D as [dist ->]. cbn [bind]. eauto.
Qed.
Print Assumptions C35_cutsky_exactly.
Example C35_exact_case : ~ broken_range 300 40 /\ ~ broken_range 0 360 /\ ~ broken_range 10 50 /\ broken_range (-60) 40 /\ broken_range 300 400 /\
  objects (Some 3%Z) None (radecbox_area (300, 40) (-10, 10)) 3 /\ (1 <= 3)%Z.
Proof.
  assert (I : forall z : Z, IZR z <= -1 \/ IZR z = 0 \/ 1 <= IZR z) by (intros z; assert (C : (z <= -1 \/ z = 0 \/ 1 <= z)%Z) by lia; destruct C as [C|[->|C] ]; [left; apply (IZR_le z (-1)); auto|auto|right; right; apply (IZR_le 1 z); auto]).
  split; [intros [H _]; lra|]. split.
  { intros (_ & j & k & (A & B) & C). destruct (I k) as [K|[K|K] ]; lra. }
  split; [intros (_ & j & k & (A & B) & C); destruct (I k) as [K|[K|K] ], (I j) as [J|[J|J] ]; lra|].
  split; [split; [lra|]; exists 0%Z, (-1)%Z; lra|]. split; [split; [lra|]; exists 1%Z, 0%Z; lra|]. split; [left; reflexivity|lia].
Qed.
