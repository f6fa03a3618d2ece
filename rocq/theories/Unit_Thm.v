(** Property C91: results do not depend on the unit of length. There are [s] new units in an old one; the conversions are those of Unit_Spec.v. *)
Require Import Reals Lra Lia ZArith String List Bool FunctionalExtensionality.
From Verif Require Import Base Vec3 Isometry_Model Sky_Model Cutsky_Model Box_Model Rsd_Model Mock_Model Mesh_Model Remap_Model Sample_Model Mask_Model Random_Model.
From Verif Require Import Unit_Spec Mock_Spec Mock_Thm Mesh_Spec Mesh_Thm2 Mesh_Thm3 Unit_Proof Unit_Proof2 Unit_Proof3 Unit_Proof4.
Import ListNotations.
Open Scope R_scope.

(** Geometry of the mesh and new mocks: with the box (or the cells) in another unit there are as many cells, and the same modes are drawn, or the same error is raised. *)
Theorem C91_geometry : forall s nmesh boxsize cellsize, 0 < s ->
  mesh_geometry nmesh (option_map (arg_u s) boxsize) (option_map (arg_u s) cellsize) = result_map (fun x => (vscale s (fst x), snd x)) (mesh_geometry nmesh boxsize cellsize).
Proof.
  intros s nmesh boxsize cellsize Hs.
  assert (Z : forall a, Reqb (s * a) 0 = Reqb a 0).
  { intros a. unfold Reqb. destruct (Req_EM_T (s * a) 0) as [H|H], (Req_EM_T a 0) as [K|K]; auto. apply Rmult_integral in H; lra. rewrite K, Rmult_0_r in H; lra. }
  assert (NZ : forall v, nonzero (arg_u s v) = nonzero v) by (intros [a|a b c]; unfold nonzero; cbn [arg_u first second third]; rewrite !Z; reflexivity).
  assert (Q : forall b c, arg2 (fun b c => rint (b / c)) (arg_u s b) (arg_u s c) = arg2 (fun b c => rint (b / c)) b c)
    by (intros [a|a a' a''] [b|b b' b'']; cbn [arg_u arg2 first second third]; rewrite !(ratio_scale s Hs); reflexivity).
  assert (P : forall (n : arg BinNums.Z) c, arg2 (fun n c => IZR n * c) n (arg_u s c) = arg_u s (arg2 (fun n c => IZR n * c) n c))
    by (intros [a|a a' a''] [b|b b' b'']; cbn [arg_u arg2 first second third]; f_equal; ring).
  assert (W : forall b, V (first (arg_u s b)) (second (arg_u s b)) (third (arg_u s b)) = vscale s (V (first b) (second b) (third b))) by (intros []; reflexivity).
  unfold mesh_geometry.
  destruct boxsize as [b|]; cbn [option_map bind].
  - destruct nmesh as [n|]; cbn [bind].
    + destruct cellsize; cbn [option_map bind result_map fst snd]; rewrite W; reflexivity.
    + destruct cellsize as [c|]; cbn [option_map bind result_map]; auto. rewrite NZ, Q. destruct (nonzero c); cbn [bind result_map fst snd]; auto. rewrite W. reflexivity.
  - destruct cellsize as [c|]; cbn [option_map bind result_map]; auto. destruct nmesh as [n|]; cbn [bind result_map fst snd]; auto. rewrite P, W. reflexivity.
Qed.
Print Assumptions C91_geometry.
Theorem C91_new_mock : forall s freq box n center power los noise inverted mesh, 0 < s ->
  mock_new freq (vscale s box) n (arg_u s center) (power_u s power) los noise inverted = result_map (mock_u s) (mock_new freq box n center power los noise inverted) /\
  from_complex_delta_field (vscale s box) n mesh (arg_u s center) = mock_u s (from_complex_delta_field box n mesh center).
Proof.
  intros s freq box n center power los noise inverted mesh Hs. split; [apply new_scale; auto|]. unfold from_complex_delta_field, mock_u; cbn. destruct center; reflexivity.
Qed.
Print Assumptions C91_new_mock.
(** Whatever methods are called, in whatever order: the same calls raise, with the same error, and the mock is in the same state, in the new unit. *)
Theorem C91_history : forall s freq neg pm pm' c m calls m' outcomes, 0 < s -> same_pmesh s pm pm' ->
  Mesh_Model.run freq neg pm c m calls = (m', outcomes) -> Mesh_Model.run freq neg pm' c (mock_u s m) (map (op_u s) calls) = (mock_u s m', outcomes).
Proof. intros s freq neg pm pm' c m calls m' outcomes Hs HP H. rewrite (run_scale s Hs freq neg pm pm' c calls m HP), H. reflexivity. Qed.
Print Assumptions C91_history.
(** What is read in a mock: fields at positions, the catalog, the mesh for nbodykit. *)
Theorem C91_readout : forall s freq c pm pm' m positions field resampler compensate, 0 < s -> same_pmesh s pm pm' ->
  mock_readout c freq pm' (mock_u s m) (map (vscale s) positions) field resampler compensate =
    result_map (map (fun x => unit_read s field * x)) (mock_readout c freq pm m positions field resampler compensate) /\
  to_catalog c (mock_u s m) = result_map (boxcat_u s (fun _ => true)) (to_catalog c m) /\
  to_nbodykit_mesh (mock_u s m) = result_map (fun x => (fun i => fst (fst x) i / s ^ 3, vscale s (snd (fst x)), vscale s (snd x))) (to_nbodykit_mesh m).
Proof.
  intros s freq c pm pm' m positions field resampler compensate Hs HP. split; [apply (readout_scale s Hs freq c pm pm' m positions field resampler compensate HP)|]. split.
  - unfold to_catalog. cbn [mock_u m_position m_disps m_box m_center]. destruct (m_position m) as [p|]; cbn [option_map attribute bind result_map]; auto. destruct c; [reflexivity|].
    destruct (m_disps m) as [d|]; cbn [option_map attribute bind result_map]; auto.
  - unfold to_nbodykit_mesh. cbn [mock_u m_delta_r m_nbar m_box m_center]. destruct (m_delta_r m) as [d|]; cbn [attribute bind result_map]; auto.
    destruct (m_nbar m) as [b|]; cbn [option_map attribute bind result_map fst snd]; auto. do 3 f_equal. extensionality x. apply times_scale.
Qed.
Print Assumptions C91_readout.

(** Sky coordinates: same angles. *)
Theorem C91_sky : forall s degree p d ra dec, 0 < s ->
  cartesian_to_sky degree (vscale s p) = result_map (fun x => (s * fst (fst x), snd (fst x), snd x)) (cartesian_to_sky degree p) /\
  sky_to_cartesian degree None (NFloat (s * d)) (NFloat ra) (NFloat dec) = vscale s (sky_to_cartesian degree None (NFloat d) (NFloat ra) (NFloat dec)).
Proof. intros s degree p d ra dec Hs. split; [apply sky_scale; auto|]. unfold sky_to_cartesian. cbn [num_val]. rewrite vscale_scale. reflexivity. Qed.
Print Assumptions C91_sky.
(** Isometries made by any program, shared arrays included: same rotations, translations in the new unit; and what they do to points. *)
Theorem C91_isometries : forall s program i, 0 < s ->
  view (Isometry_Model.run (map (cmd_u s) program)) i = option_map (iso_u s) (view (Isometry_Model.run program) i) /\
  forall a ti v, transform (iso_u s a) ti (vscale s v) = vscale s (transform a ti v).
Proof. intros s program i Hs. split; [rewrite program_scale; apply view_scale|intros; apply transform_scale]. Qed.
Print Assumptions C91_isometries.
(** Any sequence of translations, recenterings, rotations, cuts, paddings and remappings of a catalog in a box. *)
Theorem C91_box_catalogs : forall s length_col c calls, 0 < s -> lengths_ok length_col (bc_cat c) ->
  box_run (boxcat_u s length_col c) (map (box_call_u s) calls) = result_map (boxcat_u s length_col) (box_run c calls).
Proof. intros s length_col c calls Hs H. apply box_run_scale; auto. Qed.
Print Assumptions C91_box_catalogs.
Theorem C91_cuboids : forall s u1 u2 u3 boxsize ti x, 0 < s ->
  cuboid_new u1 u2 u3 (vscale s boxsize) = result_map (cuboid_u s) (cuboid_new u1 u2 u3 boxsize) /\
  forall c, cu_transform1 (cuboid_u s c) ti (vscale s x) = result_map (vscale s) (cu_transform1 c ti x) /\ cu_inverse1 (cuboid_u s c) ti (vscale s x) = result_map (vscale s) (cu_inverse1 c ti x).
Proof. intros s u1 u2 u3 boxsize ti x Hs. split; [apply cuboid_scale; auto|intros c; split; [apply cu_transform1_scale|apply cu_inverse1_scale]; auto]. Qed.
Print Assumptions C91_cuboids.
(** Redshift space distortions, the velocity being given as a length. *)
Theorem C91_rsd : forall s length_col c f los, 0 < s -> lengths_ok length_col c -> length_col (pc_velocity c) = true ->
  rsd_position (pcat_u s length_col c) (factor_u s f) los = result_map (map (vscale s)) (rsd_position c f los).
Proof. intros s length_col c f los Hs H V. apply rsd_scale; auto. Qed.
Print Assumptions C91_rsd.
(** Cut skies: same footprint of a box, same box for a footprint, same isometries, same objects kept. *)
Theorem C91_cutsky : forall s box dmax dmin drange rarange decrange, 0 < s ->
  box_to_cutsky (vscale s box) (s * dmax) (s * dmin) = result_map (fun r => (range_u s (fst (fst r)), snd (fst r), snd r)) (box_to_cutsky box dmax dmin) /\
  cutsky_to_box (range_u s drange) rarange decrange = result_map (fun r => (vscale s (fst r), iso_u s (snd r))) (cutsky_to_box drange rarange decrange).
Proof. intros s box dmax dmin drange rarange decrange Hs. split; [apply box_to_cutsky_scale|apply cutsky_to_box_scale]; auto. Qed.
Print Assumptions C91_cutsky.
Theorem C91_cutsky_catalogs : forall s length_col c drange rarange decrange em im noutput isos mr ma rdd, 0 < s -> lengths_ok length_col (bc_cat c) -> rdd_lengths length_col rdd -> rdd_lengths length_col rdd_default ->
  isometry_for_cutsky (boxcat_u s length_col c) (range_u s drange) rarange decrange (margins_u s em) (margins_u s im) noutput =
    result_map (isos_u s) (isometry_for_cutsky c drange rarange decrange em im noutput) /\
  cutsky_from_isometry (boxcat_u s length_col c) (isos_u s isos) (option_map (rmask_u s) mr) ma rdd = result_map (map (pcat_u s length_col)) (cutsky_from_isometry c isos mr ma rdd).
Proof. intros s length_col c drange rarange decrange em im noutput isos mr ma rdd Hs H R D. split; [apply for_cutsky_scale|apply from_isometry_scale]; auto. Qed.
Print Assumptions C91_cutsky_catalogs.
(** Random catalogs, with the same random numbers: in a box, and on the sky. The spline of the identity, [inverse], is in the unit of its table. *)
Theorem C91_random_box : forall s rng boxsize boxcenter csize nbar, 0 < s ->
  random_box rng (vscale s boxsize) (vscale s boxcenter) csize (option_map (fun n => n / s ^ 3) nbar) = result_map (map (vscale s)) (random_box rng boxsize boxcenter csize nbar).
Proof. intros s rng boxsize boxcenter csize nbar Hs. apply random_box_scale; auto. Qed.
Print Assumptions C91_random_box.
Theorem C91_random_cutsky : forall s split inverse inverse' adraws ddraws fuel rarange decrange drange csize nbar, 0 < s -> 0 <= fst drange <= snd drange ->
  (forall k r t u, In (t, u) (ddraws k r) -> 0 <= t <= 1) -> (forall d, inverse' (s * d) = s * inverse d) ->
  random_cutsky split inverse' adraws ddraws fuel rarange decrange (Some (range_u s drange)) csize nbar =
  result_map (map (map (object_u s))) (random_cutsky split inverse adraws ddraws fuel rarange decrange (Some drange) csize nbar).
Proof.
  intros s split inverse inverse' adraws ddraws fuel rarange decrange drange csize nbar Hs Hd Ht Hi. unfold random_cutsky.
  rewrite map_bind. apply bind_ext. intros n. destruct (n <? 0)%Z; auto. rewrite map_bind. apply bind_ext. intros angles. unfold sample_distances.
  rewrite (sample_map (Rmult s) (uniform_radial_prob 1 (fst drange, Some (snd drange))) (uniform_radial_prob 1 (fst (range_u s drange), Some (snd (range_u s drange))))
    (fun k r => map (fun '(t, u) => (inverse (radial_candidate (fun z => z) (fst drange) (snd drange) t), u)) (ddraws k r))).
  - rewrite bind_map, map_bind. apply bind_ext. intros dist. cbn [result_map]. f_equal. clear Ht.
    assert (E : forall a d, zip_with (fun a d => Object (fst a) (snd a) d (sky_to_cartesian true None (NFloat d) (NFloat (fst a)) (NFloat (snd a)))) a (map (Rmult s) d) =
      map (object_u s) (zip_with (fun a d => Object (fst a) (snd a) d (sky_to_cartesian true None (NFloat d) (NFloat (fst a)) (NFloat (snd a)))) a d)).
    { induction a as [|x a IH]; intros [|y d]; try reflexivity. unfold zip_with in *. cbn [combine map fst snd]. rewrite IH. f_equal. unfold object_u; cbn [o_ra o_dec o_dist o_pos].
      f_equal. apply C91_sky; auto. exact vzero. }
    revert dist. induction angles as [|a angles IH]; intros [|d dist]; try reflexivity. unfold zip_with at 1 3. cbn [map combine fst snd]. rewrite E. f_equal. apply IH.
  - intros a. unfold uniform_radial_prob, in_zrange, range_u; cbn [fst snd]. rewrite !(Rleb_scale s Hs). reflexivity.
  - intros k r. rewrite map_map. apply map_ext_in. intros [t u] Hin. cbn [fst snd]. f_equal. unfold range_u; cbn [fst snd]. rewrite (candidate_scale s Hs) by (auto; eapply Ht; eauto). apply Hi.
Qed.
Print Assumptions C91_random_cutsky.

(** From Mpc to kpc: the nearest cell in a box of the other unit is the same, and a history in which objects are drawn and displaced does not raise. *)
Definition nearest (box : vec) : pmesh :=
  PMesh (fun _ => true)
    (fun _ n p x => if (Z.eqb (rint (vx p / vx box * INR (ix n))) (Z.of_nat (ix x)) && Z.eqb (rint (vy p / vy box * INR (iy n))) (Z.of_nat (iy x)) && Z.eqb (rint (vz p / vz box * INR (iz n))) (Z.of_nat (iz x)))%bool then 1 else 0)
    [cells (I 2 1 1)] (fun _ _ _ => true).
Definition km_cat : pcat := pcat_new [("Position", ColV [V 1 2 3]); ("Velocity", ColV [V 100 0 0]); ("RA", ColS [20])]%string "Position" "Velocity" [] [].
Example C91_case : same_pmesh 1000 (nearest (V 2 1 1)) (nearest (vscale 1000 (V 2 1 1))) /\ same_pmesh 1000 at_origin at_origin /\
  (forall c, answer signed (fun _ _ => false) at_origin c flat flat_calls flat_draw = Ok tt) /\
  lengths_ok (fun n => String.eqb n "Position" || String.eqb n "Distance") km_cat /\ rdd_lengths (fun n => String.eqb n "Position" || String.eqb n "Distance") rdd_default /\
  is_ok (translate (BoxCat km_cat (V 4 4 4) (V 2 2 2)) (ShScalar 5) (AxStr "x")) = true.
Proof.
  split; [|split; [|split; [|split; [|split] ] ] ].
  - split; [|split; [|split] ]; try reflexivity. intros r n p x. unfold nearest; cbn [weight vscale vx vy vz]. rewrite !(ratio_scale 1000) by lra. reflexivity.
  - repeat split.
  - intros c. apply (C65_case c).
  - split; [reflexivity|]. intros n M N. cbn in M, N. destruct (String.eqb n "Position"); auto. cbn in *. congruence.
  - repeat split.
  - reflexivity.
Qed.
