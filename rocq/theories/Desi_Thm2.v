(** Property C100, continued: random numbers, and the data and randoms of a region side by side. *)
Require Import Reals Lra Lia ZArith String Ascii List Sorted Bool FunctionalExtensionality.
From Verif Require Import Base Vec3 Isometry_Model Sky_Model Sky_Proof Cutsky_Model Cutsky_Spec Cutsky_Proof Cutsky_Thm Box_Model Box_Spec Box_Proof Box_Proof2 Mask_Spec Mask_Model Mask_Proof4 Mask_Thm Sample_Model Sample_Spec Sample_Thm Random_Model Random_Spec Random_Thm Spline_Model Spline_Spec FA_Model Foot_Model Region_Model Script_Model Script_Thm SV3_Model Rosette_Model Rosette_Spec Rosette_Thm Arch_Proof Desi_Model Desi_Spec Desi_Proof Desi_Proof2 Desi_Proof3 Desi_Proof4.
Import ListNotations.
Open Scope R_scope.

(** ** Random numbers *)
(** The same settings with other random numbers. *)
Definition redraw (i : settings) (smear : BinNums.Z -> list R -> list R) (mask : BinNums.Z -> nat -> R) (angles : BinNums.Z -> nat -> nat -> list (R * R * R)) (redshifts : BinNums.Z -> nat -> nat -> list (R * R)) : settings :=
  Settings (i_outdir i) (i_release i) (i_program i) (i_npasses i) (i_fmt i) (i_generate i) (i_zmin i) (i_zmax i) (i_table i) (i_box i) (i_lattice i) (i_distance i) (i_d2z i) (i_factor i) (i_make i) (i_fuel i) (i_rounds i)
    (i_desi i) (i_regressis i) smear mask angles redshifts (i_split i) (i_share i).
(** A region uses the numbers of four seeds only, that follow from its place in the list of regions. *)
Theorem C100_independent : forall call i smear mask angles redshifts regions box region k, last_index region regions = Some k ->
  (forall z, smear (92 + k)%Z z = i_smear i (92 + k)%Z z) -> (forall j, mask (79 + k)%Z j = i_mask i (79 + k)%Z j) ->
  (forall a r, angles (792 + k)%Z a r = i_angles i (792 + k)%Z a r) -> (forall a r, redshifts (276 * (792 + k))%Z a r = i_redshifts i (276 * (792 + k))%Z a r) ->
  region_step call (redraw i smear mask angles redshifts) regions box region = region_step call i regions box region.
Proof.
  intros call i smear mask angles redshifts regions box region k L H1 H2 H3 H4. unfold region_step, seed_of. rewrite L. cbn [bind].
  assert (E1 : smear (79 + k + 13)%Z = i_smear i (79 + k + 13)%Z) by (replace (79 + k + 13)%Z with (92 + k)%Z by lia; apply functional_extensionality; exact H1).
  assert (E2 : mask (79 + k)%Z = i_mask i (79 + k)%Z) by (apply functional_extensionality; exact H2).
  assert (E3 : angles (792 + k)%Z = i_angles i (792 + k)%Z) by (apply functional_extensionality; intros a; apply functional_extensionality; apply H3).
  assert (E4 : redshifts ((792 + k) * 276)%Z = i_redshifts i ((792 + k) * 276)%Z) by (replace ((792 + k) * 276)%Z with (276 * (792 + k))%Z by lia; apply functional_extensionality; intros a; apply functional_extensionality; apply H4).
  assert (C : forall center, region_cutsky call (redraw i smear mask angles redshifts) box center (79 + k)%Z = region_cutsky call i box center (79 + k)%Z) by (intros center; unfold region_cutsky; cbn [redraw i_distance i_zmin i_zmax i_factor i_d2z i_make i_fuel i_table i_smear i_mask]; rewrite E1, E2; reflexivity).
  assert (D : forall center n, region_randoms (redraw i smear mask angles redshifts) box region center (792 + k)%Z n = region_randoms i box region center (792 + k)%Z n).
  { intros center n. unfold region_randoms. cbn [redraw i_distance i_zmin i_zmax i_make i_fuel i_table i_split i_rounds i_angles i_redshifts]. rewrite E3, E4. reflexivity. }
  unfold seed_mock, seed_randoms. destruct (photometric_region_center region) as [center|]; [|reflexivity]. cbn [io_ret io_bind]. rewrite C. destruct (region_cutsky call i box center (79 + k)) as [cutsky|]; [|reflexivity]. cbn [io_bind]. rewrite D. reflexivity.
Qed.
Print Assumptions C100_independent.
(** Every draw has its own seed: errors of redshifts (a), mask of n(z) (b), directions (c) and redshifts (d) of randoms, for up to 13 regions. *)
Definition seeds (k : BinNums.Z) : list BinNums.Z := [92 + k; 79 + k; 792 + k; 276 * (792 + k)]%Z.
Theorem C100_seeds : forall regions : list string, (List.length regions <= 13)%nat -> NoDup (flat_map (fun k => seeds (Z.of_nat k)) (seq 0 (List.length regions))).
Proof.
  intros regions L. generalize dependent (List.length regions). intros n L.
  do 14 (destruct n as [|n]; [cbn; repeat (constructor; [cbn; intuition discriminate|]); constructor|]). lia.
Qed.
Print Assumptions C100_seeds.
(** But objects of the box are drawn with the seed of the randoms of the first region. *)
Theorem C100_box_seed_refuted : In seed_objects (seeds 0) /\ last_index "N" desi_regions = Some 0%Z /\ forall n, (n <= 13)%nat -> ~ In seed_field (flat_map (fun k => seeds (Z.of_nat k)) (seq 0 n)).
Proof.
  split; [right; right; left; reflexivity|]. split; [reflexivity|]. intros n L I. apply in_flat_map in I. destruct I as (k & Ik & I). unfold seed_field, seeds in I. destruct I as [I|[I|[I|[I|[] ] ] ] ]; lia.
Qed.
Print Assumptions C100_box_seed_refuted.

(** ** Data and randoms *)
(** Sampling directions from an ordered range across the origin of right ascension: the part above it is left empty. *)
Lemma gap : forall split inverse adraws ddraws fuel c a d0 d1 drange size nbar out, (forall k r t v u, In (t, v, u) (adraws k r) -> 0 <= t < 1 /\ 0 <= v < 1 /\ 0 < u < 1) ->
  0 <= c < a -> a <= 90 -> random_cutsky split inverse adraws ddraws fuel (c - a, c + a) (d0, d1) drange size nbar = Ok out -> forall o, In o (concat out) -> 360 + c - a <= o_ra o < 360.
Proof.
  intros split inverse adraws ddraws fuel c h d0 d1 drange csize nbar out AS Hc Hh H o I. unfold random_cutsky in H.
  destruct (collective_size csize nbar _) as [m|] eqn:E; [|discriminate]. cbn [bind] in H. destruct (m <? 0)%Z eqn:M; [discriminate|].
  destruct (sample_angles _ _ _ _ _) as [angles|] eqn:EA; [|discriminate]. cbn [bind] in H.
  set (dist_of := match drange with Some _ => _ | None => _ end) in H. destruct dist_of as [dist|] eqn:ED; [|discriminate]. cbn [bind] in H. injection H as HO.
  apply in_concat in I. destruct I as [l [Il Io]]. rewrite <- HO in Il. apply zip_In in Il. destruct Il as (la & ld & -> & Iad).
  apply zip_In in Io. destruct Io as (a & d & -> & Ixy). cbn [o_ra].
  unfold sample_angles in EA. destruct (C31_kept _ _ _ _ _ _ EA la a (in_combine_l _ _ _ _ Iad) (in_combine_l _ _ _ _ Ixy)) as (k & r & u & _ & J & K).
  apply in_map_iff in J. destruct J as [[[t v] u'] [Q J]]. apply pair_equal_spec in Q. destruct Q as [Q <-]. destruct (AS _ _ _ _ _ J) as (T & V & U).
  unfold kept in K. cbn [fst snd] in K. unfold uniform_angular_prob in K.
  assert (RG : 0 <= fst a < 360). { rewrite <- Q. unfold angular_candidate. cbn [fst snd]. apply Rmod_range. lra. }
  assert (W : wrap_angle true (fst a) = fst a).
  { destruct (wrap360 (fst a)) as (i & Ei & Ri). rewrite Ei. assert (i = 0%Z) by (apply small_zero; lra). subst i. lra. }
  rewrite W in K. destruct (mask_ranges _ _ (fst a) (snd a)) eqn:MR; [|lra]. split; [|lra].
  unfold mask_ranges in MR. apply andb_prop in MR. destruct MR as [MR _]. revert MR. unfold angular_rarange.
  destruct (wrap360 (c - h)) as (i & -> & Ri). destruct (wrap360 (c + h)) as (j & -> & Rj).
  assert (j = 0%Z) by (apply small_zero; lra). subst j.
  assert (I1 : IZR (i - 1) = IZR i - 1) by apply minus_IZR. assert (I0 : (i - 1)%Z = 0%Z) by (apply small_zero; lra). rewrite I0 in I1.
  decide_R. cbn [andb fst snd]. decide_R. intros MR. apply andb_prop in MR. destruct MR as [MR _]. apply Rleb_true in MR. lra.
Qed.
(** Around DS, at right ascension 6.4, when the limits are wider than that: no random is at a right ascension between 0 and 360 - (a - 6.4), where most of the data are. *)
Theorem C100_gap_refuted : forall inside i box n region ra dec seed many ts a e, ready i box n -> sky_area (i_desi i) inside -> splines (i_make i) -> splits (i_split i) ->
  (forall k r t v u, In (t, v, u) (i_angles i seed k r) -> 0 <= t < 1 /\ 0 <= v < 1 /\ 0 < u < 1) -> limits i box a e -> 0 <= ra < a ->
  region_randoms i box region (ra, dec) seed many = Ok ts -> forall x, In x (nums "RA" (gather ts)) -> 360 - (a - ra) <= x < 360.
Proof.
  intros inside i box n region ra dec seed many ts a e Rd A Sp Sl As [dr Li] Ha H x I. destruct (randoms_drawn inside i box n region ra dec seed many ts Rd A Sp Sl H) as (a' & e' & out & z & [dr' Li'] & Er & _ & Eg & _ & _).
  pose proof Rd as (_ & _ & X & Y & Z & _). destruct (btc_any _ _ _ _ _ _ X Y Z Li) as (m & a1 & e1 & _ & Q & _ & Ra & _). injection Q as _ <-.
  rewrite Li in Li'. injection Li' as _ _ <- _ _. rewrite Eg in I. unfold nums, random_table in I. cbn in I. apply in_map_iff in I. destruct I as (p & <- & I). apply filter_In in I. destruct I as [I _]. apply in_map_iff in I. destruct I as (o & <- & I).
  pose proof (gap _ _ _ _ _ _ _ _ _ _ _ _ _ As Ha (proj2 Ra) Er o I). cbn [direction fst]. lra.
Qed.
Print Assumptions C100_gap_refuted.

(** When no object passes the cut on n(z), the run stops, after the file of data. *)
Theorem C100_empty_refuted : forall i box region center seed, splits (i_split i) -> exists e, region_randoms i box region center seed 0 = Err e.
Proof.
  intros i box region center seed Sl. unfold region_randoms. rewrite ten_times. destruct (box_to_cutsky _ _ _) as [ [ [dr rr] de]|e]; [|exists e; reflexivity]. cbn [bind]. change (Z.of_nat (10 * 0)) with 0%Z.
  rewrite C35_nothing_refuted by exact Sl. exists ValueError. reflexivity.
Qed.
Print Assumptions C100_empty_refuted.

(** Data leave the limits in which randoms are drawn: away from the equator, at every distance of the range, there is a place in the box that is seen outside of them. *)
Theorem C100_cover_refuted : forall size center dmin dmax m a e ra dec dist, 0 < vx size < dmax -> 0 <= vy size -> 0 <= vz size -> box_to_cutsky size dmax dmin = Ok ((m, dmax), (- a, a), (- e, e)) ->
  0 < a < 90 -> 0 <= e -> -90 < dec < 90 -> dec <> 0 -> m <= dist <= dmax -> 0 < dist ->
  exists p, contained size center p /\ forall ra' dec', seen ra dec 0 dmax size center p = sky_point dist ra' dec' -> -90 <= dec' <= 90 -> ~ on_arc (ra - a) (ra + a) ra'.
Proof.
  intros size center dmin dmax m a e ra dec dist X Y Z B Ha He Hd Nd D Dp. pose proof PI_RGT_0 as P.
  pose proof (C18_observer_outside_partial size dmax dmin _ _ _ ltac:(lra) ltac:(lra) Y Z B dist a 0 ltac:(cbn; lra) ltac:(cbn; lra) ltac:(cbn; lra) ltac:(right; reflexivity)) as In_.
  unfold in_box_at, sky_point in In_. cbn [vx vy vz] in In_. rewrite Rmult_0_l, cos_0, sin_0, !Rmult_1_r, Rmult_0_r in In_. fold Rosette_Spec.deg in In_.
  set (t := a * Rosette_Spec.deg) in *. exists (vadd center (V (dist * cos t - (dmax - vx size / 2)) (dist * sin t) 0)). split.
  - destruct In_ as (I1 & I2 & I3). destruct center as [c1 c2 c3], size as [s1 s2 s3]. unfold contained. cbn in *. pose proof (Rle_abs (dist * sin t)). pose proof (Rle_abs (- (dist * sin t))) as Q. rewrite Rabs_Ropp in Q. repeat split; apply Rabs_le; lra.
  - intros ra' dec' E Hd' Arc. rewrite seen_straight in E. cbv zeta in E.
    assert (Ev : vadd (V (dmax - vx size / 2) 0 0) (vsub (vadd center (V (dist * cos t - (dmax - vx size / 2)) (dist * sin t) 0)) center) = V (dist * cos t) (dist * sin t) 0) by (destruct center; vunfold; vsplit; ring).
    rewrite Ev in E. cbn [vx vy vz] in E. unfold outward, sky_point, east, north in E. fold Rosette_Spec.deg in E. clear Ev In_.
    set (r := ra * Rosette_Spec.deg) in *. set (s := dec * Rosette_Spec.deg) in *. set (r' := ra' * Rosette_Spec.deg) in *. set (s' := dec' * Rosette_Spec.deg) in *.
    unfold vadd, vscale in E. cbn [vx vy vz] in E. injection E as E1 E2 _.
    assert (Dg : Rosette_Spec.deg = PI / 180) by reflexivity.
    assert (Tr : 0 < t < PI / 2) by (unfold t; rewrite Dg; split; nra).
    assert (Sr : - (PI / 2) < s < PI / 2) by (unfold s; rewrite Dg; split; nra).
    assert (C : 0 < cos s < 1).
    { split; [apply cos_gt_0; lra|]. assert (s <> 0) by (unfold s; rewrite Dg; intros Q; apply Nd; apply Rmult_integral in Q; destruct Q; lra). destruct (Rlt_dec s 0).
      - rewrite <- cos_neg, <- cos_0. apply cos_decreasing_1; lra.
      - rewrite <- cos_0. apply cos_decreasing_1; lra. }
    assert (Arc' : exists k : BinNums.Z, - a <= ra' + 360 * IZR k - ra <= a).
    { destruct Arc as [ [_ (k & K)]|[L _] ]; [exists k; lra|lra]. }
    destruct Arc' as (k & K). set (w := r' + IZR k * (2 * PI) - r).
    assert (Wr : - t <= w <= t) by (unfold w, r', r, t; rewrite Dg; split; nra).
    assert (Ec : cos r' = cos (w + r)) by (unfold w; replace (r' + IZR k * (2 * PI) - r + r) with (r' + IZR k * (2 * PI)) by ring; symmetry; apply cos_period_Z).
    assert (Es : sin r' = sin (w + r)) by (unfold w; replace (r' + IZR k * (2 * PI) - r + r) with (r' + IZR k * (2 * PI)) by ring; symmetry; apply sin_period_Z).
    rewrite Ec, Es in *. rewrite cos_plus in E1. rewrite sin_plus in E2. pose proof (sin2_cos2 r) as U. unfold Rsqr in U.
    assert (Lin : forall A B C D cr sr : R, sr * sr + cr * cr = 1 -> C * cr + D * - sr = A * cr - B * sr -> C * sr + D * cr = B * cr + A * sr -> A = C /\ B = D).
    { clear. intros A B C D cr sr U H1 H2. split.
      - replace A with (A * (sr * sr + cr * cr)) by (rewrite U; ring). replace C with (C * (sr * sr + cr * cr)) by (rewrite U; ring). replace (A * (sr * sr + cr * cr)) with ((A * cr - B * sr) * cr + (B * cr + A * sr) * sr) by ring. rewrite <- H1, <- H2. ring.
      - replace B with (B * (sr * sr + cr * cr)) by (rewrite U; ring). replace D with (D * (sr * sr + cr * cr)) by (rewrite U; ring). replace (B * (sr * sr + cr * cr)) with ((B * cr + A * sr) * cr - (A * cr - B * sr) * sr) by ring. rewrite <- H1, <- H2. ring. }
    destruct (Lin (dist * (cos s' * cos w)) (dist * (cos s' * sin w)) (dist * (cos t * cos s)) (dist * sin t) (cos r) (sin r) U) as [F1 F2]; [lra|lra|]. apply Rmult_eq_reg_l in F1; [|lra]. apply Rmult_eq_reg_l in F2; [|lra].
    assert (St : 0 < sin t) by (apply sin_gt_0; lra). assert (Ct : 0 < cos t) by (apply cos_gt_0; lra).
    assert (Cs' : 0 <= cos s') by (apply cos_ge_0; unfold s'; rewrite Dg; nra).
    assert (Sw : 0 < sin w) by nra.
    assert (W0 : 0 < w) by (destruct (Rlt_dec 0 w); auto; exfalso; assert (0 <= sin (- w)) by (apply sin_ge_0; lra); rewrite sin_neg in *; lra).
    assert (S1 : 0 <= sin (t - w)) by (apply sin_ge_0; lra). rewrite sin_minus in S1.
    assert (Cw : 0 < cos s') by nra. assert (S2 : 0 <= cos s' * (sin t * cos w - cos t * sin w)) by (apply Rmult_le_pos; lra).
    replace (cos s' * (sin t * cos w - cos t * sin w)) with (sin t * (cos s' * cos w) - cos t * (cos s' * sin w)) in S2 by ring. rewrite F1, F2 in S2. assert (0 < sin t * cos t) by (apply Rmult_lt_0_compat; auto). nra.
Qed.
Print Assumptions C100_cover_refuted.
