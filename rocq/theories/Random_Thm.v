(** Property C35: random catalogs have the requested number of objects, all in the requested region. *)
Require Import Reals Lra Lia ZArith List Bool.
From Verif Require Import Base Vec3 Sky_Model Sky_Proof Mask_Model Mask_Spec Mask_Proof4 Sample_Model Sample_Spec Sample_Proof Random_Model Random_Spec.
From Verif Require Import Isometry_Proof Mask_Thm Sample_Thm Density_Proof.
Import ListNotations.
Open Scope R_scope.

Lemma size_nearest : forall nbar measure n, 0 <= nbar * measure -> collective_size None (Some nbar) measure = Ok n -> (0 <= n)%Z /\ nearest n (nbar * measure).
Proof.
  intros nbar measure n P H. cbn in H. injection H as <-. unfold Rtrunc. destruct (Rlt_dec _ 0); [lra|]. destruct (Rfloor_spec (nbar * measure + 0.5)) as [A B].
  split; [|unfold nearest; apply Rabs_le; lra]. assert (Q : IZR (-1) < IZR (Rfloor (nbar * measure + 0.5))) by lra. apply lt_IZR in Q. lia.
Qed.

(** Boxes: the number of objects is the one asked for, or a nearest integer to density times volume. *)
Theorem C35_box_number : forall rng size center csize nbar ps, box_stream rng -> random_box rng size center csize nbar = Ok ps ->
  (forall n, csize = Some n -> Z.of_nat (length ps) = n) /\
  (forall d, csize = None -> nbar = Some d -> 0 <= d * (vx size * vy size * vz size) -> nearest (Z.of_nat (length ps)) (d * (vx size * vy size * vz size))).
Proof.
  intros rng size center csize nbar ps S H. unfold random_box in H. destruct (collective_size csize nbar _) as [n|] eqn:E; [|discriminate]. cbn [bind] in H.
  destruct (n <? 0)%Z eqn:N; [discriminate|]. apply Z.ltb_ge in N. injection H as <-. rewrite map_length, (proj1 (S _)), Z2Nat.id by auto. split.
  - intros m ->. cbn in E. congruence.
  - intros d -> -> P. apply (size_nearest _ _ _ P E).
Qed.
(** Every position lies in the box; each coordinate is uniform: it is below [x] when its random number is below the fraction of the
    side below [x]. *)
Theorem C35_box_positions : forall rng size center csize nbar ps, 0 < vx size -> 0 < vy size -> 0 < vz size -> box_stream rng ->
  random_box rng size center csize nbar = Ok ps ->
  Forall (inside_box size center) ps /\
  forall i, (i < length ps)%nat -> forall f, In f [vx; vy; vz] -> forall x,
    f (nth i ps vzero) < x <-> f (nth i (rng (length ps)) vzero) < (x - (f center - f size / 2)) / f size.
Proof.
  intros rng size center csize nbar ps Px Py Pz S H. unfold random_box in H. destruct (collective_size csize nbar _) as [n|] eqn:E; [|discriminate]. cbn [bind] in H.
  destruct (n <? 0)%Z; [discriminate|]. injection H as <-. destruct (S (Z.to_nat n)) as [L F]. split.
  - rewrite Forall_forall in *. intros p I. apply in_map_iff in I. destruct I as [t [<- I]]. specialize (F t I). destruct F as ((X0 & X1) & (Y0 & Y1) & (Z0 & Z1)).
    unfold inside_box, box_position, uniform. cbn [vx vy vz vadd]. repeat split; nra.
  - intros i Hi f I x. rewrite map_length in *. rewrite L.
    rewrite nth_indep with (d' := box_position size center vzero) by (rewrite map_length; auto). rewrite map_nth. set (t := nth i _ vzero).
    assert (Q : forall a s c, 0 < s -> (s * uniform (-0.5) 0.5 a + c < x <-> a < (x - (c - s / 2)) / s)).
    { intros a s c Ps. unfold uniform. assert (Z : (x - (c - s / 2)) / s * s = x - (c - s / 2)) by (field; lra). split; intros C.
      - apply Rmult_lt_reg_r with s; [auto|]. rewrite Z. lra.
      - apply (Rmult_lt_compat_r s) in C; [|auto]. rewrite Z in C. lra. }
    destruct I as [<-|[<-|[<-|[]]]]; unfold box_position; cbn [vx vy vz vadd]; apply Q; auto.
Qed.
Print Assumptions C35_box_number.
Print Assumptions C35_box_positions.

Lemma zip_nth : forall {A B C} (f : A -> B -> C) a b i da db dc, (i < length a)%nat -> (i < length b)%nat -> nth i (zip_with f a b) dc = f (nth i a da) (nth i b db).
Proof.
  intros A B C f. induction a as [|x a IH]; destruct b as [|y b]; intros i da db dc Ha Hb; cbn [length] in *; try lia. destruct i; [reflexivity|].
  change (nth i (zip_with f a b) dc = f (nth i a da) (nth i b db)). apply IH; lia.
Qed.
Lemma zip_In : forall {A B C} (f : A -> B -> C) a b c, In c (zip_with f a b) -> exists x y, c = f x y /\ In (x, y) (combine a b).
Proof. intros A B C f a b c I. unfold zip_with in I. apply in_map_iff in I. destruct I as [[x y] [<- I]]. eauto. Qed.
Lemma zip_lengths : forall {A B C} (f : A -> B -> C) a b, map (@length A) a = map (@length B) b -> map (@length C) (zip_with (zip_with f) a b) = map (@length A) a.
Proof.
  intros A B C f. induction a as [|x a IH]; destruct b as [|y b]; intros H; try discriminate; auto. injection H as H1 H2.
  change (length (zip_with f x y) :: map (@length C) (zip_with (zip_with f) a b) = length x :: map (@length A) a). rewrite IH by auto. f_equal.
  rewrite zip_with_length. lia.
Qed.
Lemma total_map : forall {A} (l : list (list A)), total (map (@length A) l) = length (concat l).
Proof. induction l; auto. cbn. rewrite app_length. unfold total in IHl. lia. Qed.

Section Sky.
Variables (split : nat -> list nat) (inverse : R -> R) (adraws : nat -> nat -> list (R * R * R)) (ddraws : nat -> nat -> list (R * R)).
Variables (lo hi d0 d1 : R).
Hypothesis SPLIT : splits split.
Hypothesis DEC : -90 <= d0 < d1 /\ d1 <= 90.
Hypothesis AS : angle_stream adraws.
Hypothesis DS : distance_stream ddraws.

Lemma angles_ok : forall fuel sizes out l a, sample_angles adraws fuel (lo, hi) (d0, d1) sizes = Ok out -> In l out -> In a l ->
  0 <= fst a < 360 /\ on_arc lo hi (fst a) /\ d0 <= snd a <= d1.
Proof.
  intros fuel sizes out l a H Il Ia. unfold sample_angles in H. destruct (C31_kept _ _ _ _ _ _ H l a Il Ia) as (k & r & u & _ & I & _).
  apply in_map_iff in I. destruct I as [[[t v] u'] [E I]]. apply pair_equal_spec in E. destruct E as [E <-]. destruct (AS _ _ _ _ _ I) as (T & V & U).
  pose proof (C31_angular_candidates lo hi d0 d1 t v ltac:(lra) ltac:(lra) T V) as C. change (angular_decrange (Some (d0, d1))) with (d0, d1) in E. rewrite E in C. destruct a as [ra dec]. cbn [fst snd]. tauto.
Qed.
Lemma distances_ok : forall r0 r1 fuel sizes out l a, 0 <= r0 < r1 -> (forall x, 0 <= x <= r1 -> inverse x = x) ->
  sample_distances inverse ddraws fuel (r0, r1) sizes = Ok out -> In l out -> In a l -> r0 <= a <= r1.
Proof.
  intros r0 r1 fuel sizes out l a R INV H Il Ia. unfold sample_distances in H. destruct (C31_kept _ _ _ _ _ _ H l a Il Ia) as (k & r & u & _ & I & _).
  apply in_map_iff in I. destruct I as [[t u'] [E I]]. apply pair_equal_spec in E. destruct E as [E <-]. destruct (DS _ _ _ _ I) as (T & U). cbn [fst snd] in E.
  destruct (C31_radial_candidates (fun z => z) r0 r1 t R T) as [C _]. rewrite INV in E by lra. subst a. auto.
Qed.

(** Cut-skies, for every stream of random numbers and every number of processes: as many objects as asked for, or a nearest integer to
    density times area; right ascension, declination and distance in the requested ranges; positions that match them. *)
Theorem C35_cutsky : forall fuel drange csize nbar out,
  (forall r0 r1, drange = Some (r0, r1) -> 0 <= r0 < r1 /\ forall x, 0 <= x <= r1 -> inverse x = x) ->
  random_cutsky split inverse adraws ddraws fuel (lo, hi) (d0, d1) drange csize nbar = Ok out ->
  let n := Z.of_nat (length (concat out)) in let area := radecbox_area (lo, hi) (d0, d1) in
  map (@length object) out = split (length (concat out)) /\
  (forall m, csize = Some m -> n = m) /\
  (forall d, csize = None -> nbar = Some d -> 0 <= d * area -> nearest n (d * area)) /\
  forall o, In o (concat out) ->
    0 <= o_ra o < 360 /\ on_arc lo hi (o_ra o) /\ d0 <= o_dec o <= d1 /\
    match drange with Some (r0, r1) => r0 <= o_dist o <= r1 | None => o_dist o = 1 end /\
    o_pos o = V (o_dist o * (cos (o_dec o * (PI / 180)) * cos (o_ra o * (PI / 180)))) (o_dist o * (cos (o_dec o * (PI / 180)) * sin (o_ra o * (PI / 180))))
                (o_dist o * sin (o_dec o * (PI / 180))).
Proof.
  intros fuel drange csize nbar out DR H n area. unfold random_cutsky in H. fold area in H.
  destruct (collective_size csize nbar area) as [m|] eqn:E; [|discriminate]. cbn [bind] in H. destruct (m <? 0)%Z eqn:M; [discriminate|]. apply Z.ltb_ge in M.
  destruct (sample_angles _ _ _ _ _) as [angles|] eqn:EA; [|discriminate]. cbn [bind] in H.
  set (dist_of := match drange with Some _ => _ | None => _ end) in H. destruct dist_of as [dist|] eqn:ED; [|discriminate]. cbn [bind] in H. unfold dist_of in ED. clear dist_of.
  assert (LA : map (@length _) angles = split (Z.to_nat m)) by (unfold sample_angles in EA; apply C31_sizes in EA; auto).
  assert (LD : map (@length _) dist = split (Z.to_nat m)).
  { destruct drange as [[r0 r1]|]; [unfold sample_distances in ED; apply C31_sizes in ED; auto|]. injection ED as <-. rewrite map_map, <- LA. apply map_ext. intros l. apply map_length. }
  injection H as HO.
  assert (LO : map (@length _) out = split (Z.to_nat m)) by (rewrite <- HO, zip_lengths by congruence; auto).
  assert (N : length (concat out) = Z.to_nat m) by (rewrite <- total_map, LO; apply SPLIT).
  split; [rewrite N; auto|]. unfold n. rewrite N, Z2Nat.id by auto. split; [intros k ->; cbn in E; congruence|]. split.
  { intros d -> -> P. apply (size_nearest _ _ _ P E). }
  intros o I. apply in_concat in I. destruct I as [l [Il Io]]. rewrite <- HO in Il. apply zip_In in Il. destruct Il as (la & ld & -> & Iad).
  apply zip_In in Io. destruct Io as (a & d & -> & Ixy). cbn [o_ra o_dec o_dist o_pos].
  destruct (angles_ok _ _ _ la a EA (in_combine_l _ _ _ _ Iad) (in_combine_l _ _ _ _ Ixy)) as (A & B & C). repeat (split; [assumption|]). split.
  - pose proof (in_combine_r _ _ _ _ Iad) as Jd. pose proof (in_combine_r _ _ _ _ Ixy) as Jx. destruct drange as [[r0 r1]|].
    + destruct (DR r0 r1 eq_refl) as [R INV]. apply (distances_ok _ _ _ _ _ _ _ R INV ED Jd Jx).
    + injection ED as <-. apply in_map_iff in Jd. destruct Jd as [l' [<- _]]. apply in_map_iff in Jx. destruct Jx as [? [<- _]]. auto.
  - reflexivity.
Qed.

End Sky.
Print Assumptions C35_cutsky.

(** A range written downwards, such as (300, 40), has a negative area: asking for a density is an error. *)
Theorem C35_density_crossing_refuted : forall split inverse adraws ddraws fuel drange,
  random_cutsky split inverse adraws ddraws fuel (300, 40) (-10, 10) drange None (Some 1) = Err ValueError.
Proof.
  intros. unfold random_cutsky, collective_size. cbn [bind]. set (area := radecbox_area _ _).
  assert (A : area <= -260 * 20 * cos (10 * PI / 180) ).
  { unfold area, radecbox_area, rad2deg, deg2rad. cbn [fst snd]. pose proof PI_RGT_0 as P.
    replace (-10 * PI / 180) with (- (10 * PI / 180)) by field. rewrite sin_neg. set (x := 10 * PI / 180).
    assert (X : 0 < x < PI / 2) by (unfold x; lra).
    assert (S : x * cos x <= sin x).
    { destruct (MVT_cor2 sin cos 0 x) as (c & E & C); [lra|intros; apply derivable_pt_lim_sin|]. rewrite sin_0 in E. assert (cos x <= cos c) by (apply cos_decr_1; lra). nra. }
    replace ((sin x * 180 / PI - - sin x * 180 / PI) * (40 - 300)) with (- (260 * 360 / PI) * sin x) by (field; lra).
    replace (-260 * 20 * cos x) with (- (260 * 360 / PI) * (x * cos x)) by (unfold x; field; lra).
    apply Rmult_le_compat_neg_l; auto. assert (0 < 260 * 360 / PI) by (apply Rdiv_lt_0_compat; lra). lra. }
  assert (C : 1 / 2 <= cos (10 * PI / 180)). { rewrite <- cos_PI3. pose proof PI_RGT_0. apply cos_decr_1; lra. }
  unfold Rtrunc. destruct (Rlt_dec (1 * area + 0.5) 0) as [L|]; [|lra].
  replace (Rceil (1 * area + 0.5) <? 0)%Z with true; auto. symmetry. apply Z.ltb_lt. apply lt_IZR. destruct (Rceil_spec (1 * area + 0.5)). lra.
Qed.
Print Assumptions C35_density_crossing_refuted.
(** No object at all, csize = 0, is an error too. *)
Theorem C35_nothing_refuted : forall split inverse adraws ddraws fuel rarange decrange drange nbar, splits split ->
  random_cutsky split inverse adraws ddraws fuel rarange decrange drange (Some 0%Z) nbar = Err ValueError.
Proof.
  intros. unfold random_cutsky, collective_size. cbn [bind]. change (0 <? 0)%Z with false. cbv iota. unfold sample_angles. rewrite C31_nothing_refuted; auto.
Qed.
Print Assumptions C35_nothing_refuted.
(** An ordered range across the origin of right ascension, such as (-60, 40), is not filled: unless the random number of the mask is
    exactly 0, all objects have right ascensions of 300 degrees and more. *)
Theorem C35_gap_refuted : forall split inverse adraws ddraws fuel d0 d1 drange csize nbar out,
  (forall k r t v u, In (t, v, u) (adraws k r) -> 0 <= t < 1 /\ 0 <= v < 1 /\ 0 < u < 1) ->
  random_cutsky split inverse adraws ddraws fuel (-60, 40) (d0, d1) drange csize nbar = Ok out -> forall o, In o (concat out) -> 300 <= o_ra o < 360.
Proof.
  intros split inverse adraws ddraws fuel d0 d1 drange csize nbar out AS H o I. unfold random_cutsky in H.
  destruct (collective_size csize nbar _) as [m|] eqn:E; [|discriminate]. cbn [bind] in H. destruct (m <? 0)%Z eqn:M; [discriminate|].
  destruct (sample_angles _ _ _ _ _) as [angles|] eqn:EA; [|discriminate]. cbn [bind] in H.
  set (dist_of := match drange with Some _ => _ | None => _ end) in H. destruct dist_of as [dist|] eqn:ED; [|discriminate]. cbn [bind] in H. injection H as HO.
  apply in_concat in I. destruct I as [l [Il Io]]. rewrite <- HO in Il. apply zip_In in Il. destruct Il as (la & ld & -> & Iad).
  apply zip_In in Io. destruct Io as (a & d & -> & Ixy). cbn [o_ra].
  unfold sample_angles in EA. destruct (C31_kept _ _ _ _ _ _ EA la a (in_combine_l _ _ _ _ Iad) (in_combine_l _ _ _ _ Ixy)) as (k & r & u & _ & J & K).
  apply in_map_iff in J. destruct J as [[[t v] u'] [Q J]]. apply pair_equal_spec in Q. destruct Q as [Q <-]. destruct (AS _ _ _ _ _ J) as (T & V & U).
  unfold kept in K. cbn [fst snd] in K. unfold uniform_angular_prob in K.
  assert (RG : 0 <= fst a < 360). { rewrite <- Q. unfold angular_candidate. cbn [fst snd]. apply Rmod_range. lra. }
  assert (W : wrap_angle true (fst a) = fst a).
  { destruct (wrap360 (fst a)) as (i & Ei & Ri). rewrite Ei. assert (i = 0%Z) by (apply small_zero; lra). subst i. lra. }
  rewrite W in K. destruct (mask_ranges _ _ (fst a) (snd a)) eqn:MR; [|lra]. split; [|lra].
  unfold mask_ranges in MR. apply andb_prop in MR. destruct MR as [MR _]. revert MR. unfold angular_rarange.
  destruct (wrap360 (-60)) as (i & -> & Ri). destruct (wrap360 40) as (j & -> & Rj).
  assert (j = 0%Z) by (apply small_zero; lra). subst j.
  assert (I1 : IZR (i - 1) = IZR i - 1) by apply minus_IZR. assert (I0 : (i - 1)%Z = 0%Z) by (apply small_zero; lra). rewrite I0 in I1.
  decide_R. cbn [andb fst snd]. decide_R. intros MR. apply andb_prop in MR. destruct MR as [MR _]. apply Rleb_true in MR. lra.
Qed.
Print Assumptions C35_gap_refuted.

(** Hypotheses are met: one process, a fixed stream, a quarter of the sky. *)
Example C35_case : box_stream (fun n => repeat (V 0 (1 / 2) (1 / 4)) n) /\ splits (fun n => [n]) /\ plain_range 0 90 /\ angle_stream (fun _ _ => repeat (0, 1 / 2, 1 / 4) 3) /\
  distance_stream (fun _ _ => repeat (0, 1 / 2) 3) /\ enough (fun _ _ => repeat (0, 1 / 2) 3) [3%nat] /\ enough (fun _ _ => repeat (0, 1 / 2, 1 / 4) 3) [3%nat].
Proof.
  split; [intros n; split; [apply repeat_length|]; apply Forall_forall; intros x I; apply repeat_spec in I; subst; unfold unit_triple, unit_number; cbn; lra|].
  split; [intros n; cbn; lia|]. split; [right; left; exists 0%Z; lra|].
  split; [intros k r t v u I; apply repeat_spec in I; injection I as -> -> ->; unfold unit_number; lra|].
  split; [intros k r t u I; apply repeat_spec in I; injection I as -> ->; unfold unit_number; lra|].
  split; intros k r H; cbn in H; assert (r = 0%nat) by lia; subst; reflexivity.
Qed.
