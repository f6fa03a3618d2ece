(** C86: the SV3 script. *)
Require Import Reals Lra Lia ZArith String List Bool Sorted Permutation.
From Verif Require Import Base Vec3 Isometry_Model Isometry_Spec Isometry_Proof Sky_Model Sky_Spec Sky_Proof Cutsky_Model Cutsky_Spec Box_Model Box_Spec Box_Proof Box_Proof2 Box_Proof3 Box_Proof4 Remap_Model Remap_Spec Remap_Proof Remap_Proof4 Rsd_Spec Rsd_Thm Mask_Model FA_Model Region_Model Script_Model Script_Thm.
From Verif Require Import Law_Spec Law_Proof Law_Proof2 SV3_Model SV3_Thm Rosette_Model Rosette_Spec Rosette_Proof Rosette_Proof2 Rosette_Proof3 Rosette_Proof4 Rosette_Proof5 Rosette_Proof6.
Import ListNotations.
Open Scope R_scope.

(** ** The line of sight of a group *)
(** One rosette: its direction. Two rosettes: halfway between them. *)
Theorem C86_los : forall a1 d1, -90 < d1 < 90 ->
  (exists d ra dec, group_los [(a1, d1)] = Ok (sky_point d ra dec) /\ 0 < d /\ 0 <= ra < 360 /\ -90 < dec < 90 /\ sky_point d ra dec = outward a1 d1) /\
  forall a2 d2, -90 < d2 < 90 -> Rabs (a1 - a2) < 180 ->
  exists d ra dec, group_los [(a1, d1); (a2, d2)] = Ok (sky_point d ra dec) /\ 0 < d /\ 0 <= ra < 360 /\ -90 < dec < 90 /\
    sky_point d ra dec = vscale (1 / 2) (vadd (outward a1 d1) (outward a2 d2)) /\
    vdot (outward ra dec) (outward a1 d1) = vdot (outward ra dec) (outward a2 d2) /\ 0 < vdot (outward ra dec) (outward a1 d1).
Proof.
  intros a1 d1 H1. split.
  - destruct (one_los a1 d1 H1) as (E & d & ra & dec & F & A & B & C). exists d, ra, dec. rewrite <- F. auto 6.
  - intros a2 d2 H2 Ha. apply two_los; auto.
Qed.
Print Assumptions C86_los.
(** The groups of the script, with its table of rosettes. *)
Theorem C86_sv3_groups : forall g, In g sv3_groups -> exists dirs d ra dec, directions_of sv3_table g = Ok dirs /\ group_los dirs = Ok (sky_point d ra dec) /\ 0 < d /\ 0 <= ra < 360 /\ -90 < dec < 90.
Proof.
  intros g Hg.
  assert (One : forall r a e, g = [r] -> zassoc r sv3_table = Some (a, e) -> -90 < e < 90 -> exists dirs d ra dec, directions_of sv3_table g = Ok dirs /\ group_los dirs = Ok (sky_point d ra dec) /\ 0 < d /\ 0 <= ra < 360 /\ -90 < dec < 90).
  { intros r a e -> E H. exists [(a, e)]. destruct (proj1 (C86_los a e H)) as (d & ra & dec & A & B & C & D & _). exists d, ra, dec. cbn [directions_of]. rewrite E. cbn [bind]. auto. }
  assert (Two : forall r a e r' a' e', g = [r; r'] -> zassoc r sv3_table = Some (a, e) -> zassoc r' sv3_table = Some (a', e') -> -90 < e < 90 -> -90 < e' < 90 -> -180 < a - a' < 180 ->
    exists dirs d ra dec, directions_of sv3_table g = Ok dirs /\ group_los dirs = Ok (sky_point d ra dec) /\ 0 < d /\ 0 <= ra < 360 /\ -90 < dec < 90).
  { intros r a e r' a' e' -> E E' H H' K. exists [(a, e); (a', e')]. destruct (proj2 (C86_los a e H) a' e' H' ltac:(apply Rabs_def1; lra)) as (d & ra & dec & A & B & C & D & _). exists d, ra, dec.
    cbn [directions_of]. rewrite E. cbn [bind]. rewrite E'. cbn [bind]. auto. }
  unfold sv3_groups in Hg. cbn [In] in Hg.
  repeat destruct Hg as [Hg|Hg]; try contradiction; symmetry in Hg; first [eapply Two; [exact Hg|reflexivity|reflexivity|lra|lra|lra]|eapply One; [exact Hg|reflexivity|lra] ].
Qed.
Print Assumptions C86_sv3_groups.

(** ** Where the box is *)
Theorem C86_rigid : forall ra dec angle dmax size center p q, vnorm (vsub (seen ra dec angle dmax size center p) (seen ra dec angle dmax size center q)) = vnorm (vsub p q).
Proof.
  intros ra dec angle dmax size center p q. unfold vnorm. f_equal.
  assert (E : vsub (seen ra dec angle dmax size center p) (seen ra dec angle dmax size center q) = in_frame ra dec angle (vsub p q)).
  { unfold seen, in_frame. generalize (outward ra dec) (turned_east ra dec angle) (turned_north ra dec angle). intros l e n. destruct p, q, center, l, e, n. vunfold. vsplit; ring. }
  rewrite E. apply frame_norm.
Qed.
Print Assumptions C86_rigid.
(** The directions of the sides are orthogonal unit vectors. *)
Theorem C86_frame : forall ra dec angle, let l := outward ra dec in let e := turned_east ra dec angle in let n := turned_north ra dec angle in
  vdot l l = 1 /\ vdot e e = 1 /\ vdot n n = 1 /\ vdot l e = 0 /\ vdot l n = 0 /\ vdot e n = 0.
Proof. exact frame_dots. Qed.
Print Assumptions C86_frame.
(** The box fills the cuboid between dmax - Lx and dmax along the line of sight, half sides on each side. *)
Theorem C86_reach : forall ra dec angle dmax size center q, (exists p, contained size center p /\ seen ra dec angle dmax size center p = q) <->
  dmax - vx size <= vdot q (outward ra dec) <= dmax /\ Rabs (vdot q (turned_east ra dec angle)) <= vy size / 2 /\ Rabs (vdot q (turned_north ra dec angle)) <= vz size / 2.
Proof. exact reach. Qed.
Print Assumptions C86_reach.
(** A cone about the line of sight that is narrow enough is filled between two distances: no hole in the rosettes. *)
Theorem C86_cone : forall ra dec angle dmax size center q dist r, 0 <= r <= PI / 2 -> vdot q q = dist ^ 2 -> 0 <= dist <= dmax -> dist * cos r <= vdot q (outward ra dec) ->
  dmax - vx size <= dist * cos r -> dist * sin r <= vy size / 2 -> dist * sin r <= vz size / 2 -> exists p, contained size center p /\ seen ra dec angle dmax size center p = q.
Proof.
  intros ra dec angle dmax size center q dist r Hr Q Hd Hc H1 H2 H3. apply C86_reach.
  set (x := vdot q (outward ra dec)) in *. set (y := vdot q (turned_east ra dec angle)). set (w := vdot q (turned_north ra dec angle)).
  assert (N : x * x + y * y + w * w = dist ^ 2).
  { rewrite <- Q. rewrite <- (frame_whole ra dec angle q) at 1 2. fold x y w. rewrite frame_norm. vunfold. reflexivity. }
  pose proof PI_RGT_0. assert (Cp : 0 <= cos r) by (apply cos_ge_0; lra). assert (Sp : 0 <= sin r) by (apply sin_ge_0; lra). pose proof (sin2_cos2 r) as SC. unfold Rsqr in SC.
  assert (A : 0 <= dist * cos r) by (apply Rmult_le_pos; lra). assert (B : 0 <= dist * sin r) by (apply Rmult_le_pos; lra).
  assert (E : dist * cos r * (dist * cos r) + dist * sin r * (dist * sin r) = dist ^ 2) by (transitivity (dist ^ 2 * (sin r * sin r + cos r * cos r)); [ring|rewrite SC; ring]).
  assert (X : dist * cos r * (dist * cos r) <= x * x) by (apply Rmult_le_compat; lra).
  pose proof (Rle_0_sqr x) as Qx. pose proof (Rle_0_sqr y) as Qy. pose proof (Rle_0_sqr w) as Qw. unfold Rsqr in *.
  assert (Y : Rabs y <= dist * sin r) by (rewrite <- (Rabs_pos_eq (dist * sin r)) by lra; apply Rsqr_le_abs_0; unfold Rsqr; lra).
  assert (W : Rabs w <= dist * sin r) by (rewrite <- (Rabs_pos_eq (dist * sin r)) by lra; apply Rsqr_le_abs_0; unfold Rsqr; lra).
  assert (Xd : Rabs x <= dist) by (rewrite <- (Rabs_pos_eq dist) by lra; apply Rsqr_le_abs_0; unfold Rsqr; cbn in N; nra).
  apply Rabs_le_inv in Xd. split; [lra|]. split; lra.
Qed.
Print Assumptions C86_cone.
Example C86_cone_case : let q := sky_point 90 150 2 in exists p, contained (V 50 20 20) vzero p /\ seen 150 2 30 100 (V 50 20 20) vzero p = q.
Proof.
  cbv zeta. apply (C86_cone 150 2 30 100 (V 50 20 20) vzero (sky_point 90 150 2) 90 0); rewrite ?cos_0, ?sin_0; cbn [vx vy vz]; try lra.
  - pose proof PI_RGT_0. lra.
  - pose proof (outward_unit 150 2) as U. replace (sky_point 90 150 2) with (vscale 90 (outward 150 2)) by (unfold outward, sky_point; cbv zeta; vunfold; vsplit; ring). rewrite vdot_scale_l, vdot_scale_r, U. ring.
  - pose proof (outward_unit 150 2) as U. replace (sky_point 90 150 2) with (vscale 90 (outward 150 2)) by (unfold outward, sky_point; cbv zeta; vunfold; vsplit; ring). rewrite vdot_scale_l, U. lra.
Qed.
(** Objects inside the remapped box are in front of the observer. *)
Theorem C86_front : forall ra dec angle dmax size center p, contained size center p -> vx size < dmax -> seen ra dec angle dmax size center p <> vzero /\ dmax - vx size <= vdot (seen ra dec angle dmax size center p) (outward ra dec).
Proof.
  intros ra dec angle dmax size center p C D. assert (R : dmax - vx size <= vdot (seen ra dec angle dmax size center p) (outward ra dec)).
  { destruct (proj1 (C86_reach ra dec angle dmax size center (seen ra dec angle dmax size center p))) as [[R _] _]; [exists p; auto|exact R]. }
  split; auto. intros E. rewrite E in R. unfold vdot, vzero in R. cbn in R. lra.
Qed.
Print Assumptions C86_front.
(** A box that is too wide is refused. *)
Theorem C86_too_wide : forall vectors angle dmax d ra dec c c1, 0 < d -> 0 <= ra < 360 -> -90 < dec < 90 -> remap c (RVectors vectors) = Ok c1 -> 0 < vx (boxsize c1) < dmax -> ~ fits_in dmax (boxsize c1) ->
  place_box vectors angle dmax (sky_point d ra dec) c = Err ValueError.
Proof.
  intros vectors angle dmax d ra dec c c1 Hd Hra Hdec Er Sx F. unfold place_box.
  assert (Esky : cartesian_to_sky true (sky_point d ra dec) = Ok (d, ra, dec)).
  { pose proof (sky_roundtrip2 true d ra dec Hd) as H. unfold full_turn in H. rewrite <- H by (cbn; lra). f_equal. unfold sky_to_cartesian, sky_point, conversion. cbn. vunfold. vsplit; ring. }
  rewrite Esky. cbn [bind fst snd]. pose proof (rotation_matrix_eq _ angle _ (los_outward d ra dec Hd)) as Em. rewrite (iso_rotation_ok _ _ _ _ _ Em). cbn [iso_ok bind]. rewrite Er. cbn [bind].
  rewrite btc_too_wide by auto. reflexivity.
Qed.
Print Assumptions C86_too_wide.

(** ** Catalogs of a group *)
(** The box is moved as a whole by [f], velocities being turned in the same way; the rows kept are observed in a tile of the group, and at a redshift whose probability is at least their
    number; other columns are those of the box. *)
Theorem C86_group : forall near i g vectors d ra dec ids region factor u c c1 n pos, tile_lookup near (i_in_desi i) -> g_vectors g = Ok vectors -> 0 < d -> 0 <= ra < 360 -> -90 < dec < 90 ->
  wf n (bc_cat c) -> remap c (RVectors vectors) = Ok c1 -> 0 < vx (boxsize c1) < i_dmax i -> 0 <= vy (boxsize c1) -> 0 <= vz (boxsize c1) -> fits_in (i_dmax i) (boxsize c1) ->
  column (bc_cat c1) (pc_position (bc_cat c1)) = Some (ColV pos) ->
  let f := seen ra dec (g_angle g) (i_dmax i) (boxsize c1) (boxcenter c1) in
  (forall p, In p pos -> f p <> vzero) -> watched factor f (in_frame ra dec (g_angle g)) (bc_cat c1) pos ->
  exists placed obs idx cat, group_catalog i g (sky_point d ra dec) ids region factor u c = Ok cat /\ moved_by f (in_frame ra dec (g_angle g)) (bc_cat c1) placed /\ observed_at factor placed obs /\
    recorded near (i_tiles i) ids (i_prob i region) (i_d2z i) u placed obs idx cat /\ (factor <> None -> column cat "RSDPosition" = Some (ColV (pick idx obs))).
Proof.
  intros near i g vectors d ra dec ids region factor u c c1 n pos T Eg Hd Hra Hdec W Er Sx Sy Sz F P f NZ Wt. destruct (remap_wf _ _ _ _ Er W) as [W1 _].
  apply (group_ok near i g vectors d ra dec ids region factor u c c1 n pos); auto.
Qed.
Print Assumptions C86_group.
(** Data and randoms, and all mocks, are moved in the same way when their boxes have the same size and center. *)
Theorem C86_same_motion : forall vectors c c' c1 c1', boxsize c = boxsize c' -> boxcenter c = boxcenter c' -> remap c (RVectors vectors) = Ok c1 -> remap c' (RVectors vectors) = Ok c1' ->
  boxsize c1 = boxsize c1' /\ boxcenter c1 = boxcenter c1'.
Proof.
  intros vectors c c' c1 c1' S C H H'. unfold remap in *. rewrite <- S in H'. destruct (remap_cuboid _ _) as [cu|]; [|discriminate]. cbn [bind] in *.
  destruct (map_cols _ (pc_data (bc_cat c))); [|discriminate]. destruct (map_cols _ (pc_data (bc_cat c'))); [|discriminate]. cbn [bind] in *. injection H as <-. injection H' as <-. cbn. auto.
Qed.
Print Assumptions C86_same_motion.
(** Redshifts are in the range of the selection function, tiles are those of the group. *)
Theorem C86_range : forall near tiles ids prob d2z u placed obs idx cat zmin zmax, recorded near tiles ids prob d2z u placed obs idx cat ->
  (forall z, z < zmin \/ zmax < z -> prob z = 0) -> (forall i, 0 < u i) -> forall ras decs zs, column cat "RA" = Some (ColS ras) -> column cat "DEC" = Some (ColS decs) -> column cat "Z" = Some (ColS zs) ->
  (forall z, In z zs -> zmin <= z <= zmax) /\ (forall k ra dec, nth_error ras k = Some ra -> nth_error decs k = Some dec -> in_tile_of near tiles ids (ra, dec)) /\
  List.length ras = List.length idx /\ List.length decs = List.length idx /\ List.length zs = List.length idx.
Proof.
  intros near tiles ids prob d2z u placed obs idx cat zmin zmax (sky & Os & Si & Ix & _ & Cra & Cdec & Cz) P U ras decs zs Era Edec Ez. rewrite Era in Cra. rewrite Edec in Cdec. rewrite Ez in Cz. injection Cra as ->. injection Cdec as ->. injection Cz as ->.
  assert (Pk : forall {A} (h : R * R * R -> A) l, (forall i, In i l -> exists x, nth_error sky i = Some x) -> List.length (pick l (map h sky)) = List.length l /\
    forall k a, nth_error (pick l (map h sky)) k = Some a -> exists i x, nth_error l k = Some i /\ nth_error sky i = Some x /\ a = h x).
  { clear. intros A h l. induction l as [|i l IH]; intros H; [split; [reflexivity|intros [|k] a E; discriminate]|]. destruct (H i (or_introl eq_refl)) as [x Ex]. destruct (IH (fun j h' => H j (or_intror h'))) as [L N].
    unfold pick in *. cbn [flat_map]. rewrite nth_error_map, Ex. cbn. split; [rewrite L; auto|]. intros [|k] a E; cbn in E; [injection E as <-; exists i, x; auto|]. apply N in E. exact E. }
  assert (Hi : forall i, In i idx -> exists x, nth_error sky i = Some x) by (intros i H; apply Ix in H; destruct H as (d & ra & dec & E & _); eauto).
  destruct (Pk _ (fun x => snd (fst x)) idx Hi) as [Lr Nr]. destruct (Pk _ snd idx Hi) as [Ld Nd]. destruct (Pk _ (fun x => d2z (fst (fst x))) idx Hi) as [Lz Nz]. split; [|split; [|auto] ].
  - intros z H. apply In_nth_error in H. destruct H as [k Hk]. apply Nz in Hk. destruct Hk as (i & x & E1 & E2 & ->). apply nth_error_In in E1. apply Ix in E1. destruct E1 as (d & ra & dec & E & _ & Hu). rewrite E2 in E. injection E as ->. cbn [fst].
    specialize (U i). destruct (Rlt_dec (d2z d) zmin) as [A|A]; [rewrite P in Hu by auto; lra|]. destruct (Rlt_dec zmax (d2z d)) as [B|B]; [rewrite P in Hu by auto; lra|]. lra.
  - intros k ra dec Hr Hd. apply Nr in Hr. apply Nd in Hd. destruct Hr as (i & x & E1 & E2 & ->). destruct Hd as (i' & x' & E1' & E2' & ->). rewrite E1 in E1'. injection E1' as <-. rewrite E2 in E2'. injection E2' as <-.
    apply nth_error_In in E1. apply Ix in E1. destruct E1 as (d & ra & dec & E & T & _). rewrite E2 in E. injection E as ->. exact T.
Qed.
Print Assumptions C86_range.

(** ** The files *)
(** Files of a run that ends well: for each mock, the catalogs of all groups (randoms for the first mocks only), data being thinned region by region. [made] and [thinned] are in the specification. *)
Theorem C86_files : forall i start stop fs t, sv3_script i false start stop = (fs, Ok t) -> exists regions fss, Forall2 (in_region (i_directions i)) (i_groups i) regions /\
  Forall2 (mock_files i (combine (i_groups i) regions)) (SV3_Model.zrange start stop) fss /\ fs = List.concat fss.
Proof. exact script_ok. Qed.
Print Assumptions C86_files.
(** Their names are those that the next script reads (C71), each once. *)
Theorem C86_names : forall i start stop fs t d names, i_outdir i = Some d -> sv3_script i false start stop = (fs, Ok t) -> written (Some d) (map g_rosettes (i_groups i)) start stop = Ok names ->
  Permutation (map fst fs) names /\ (NoDup (map g_rosettes (i_groups i)) -> NoDup (map fst fs)).
Proof.
  intros i start stop fs t d names Ed H W. pose proof (script_names _ _ _ _ _ _ _ Ed H W) as P. split; auto. intros N. apply (Permutation_NoDup (Permutation_sym P)). apply (C71_no_overwrite d (map g_rosettes (i_groups i)) start stop); auto.
Qed.
Print Assumptions C86_names.
(** The script ends well when every group has its catalogs and every region an object. *)
Theorem C86_succeeds : forall i d regions start stop, i_outdir i = Some d -> Forall2 (in_region (i_directions i)) (i_groups i) regions ->
  (forall imock, (start <= imock < stop)%Z -> exists data,
     Forall2 (fun x y => fst (fst y) = g_rosettes (fst x) /\ snd (fst y) = snd x /\ made i imock true (fst x) (snd x) (snd y)) (combine (i_groups i) regions) data /\
     ((imock < nran)%Z -> forall x, In x (combine (i_groups i) regions) -> exists ran, made i imock false (fst x) (snd x) ran) /\
     (forall region, In region script_regions -> (0 < region_total region data)%nat)) ->
  exists fs, sv3_script i false start stop = (fs, Ok tt).
Proof. exact script_run. Qed.
Print Assumptions C86_succeeds.
(** With the option --mock_fn nothing is ever written: a communicator that is only defined without it is used. *)
Theorem C86_mock_fn_refuted : forall i start stop regions g l, (start < stop)%Z -> i_groups i = g :: l -> Forall2 (in_region (i_directions i)) (i_groups i) regions ->
  sv3_script i true start stop = ([], Err NameError).
Proof.
  intros i start stop regions g l Hs Eg F. unfold sv3_script. rewrite (regions_run _ _ _ F). cbn [io_ret io_bind].
  assert (Es : map snd (combine (map g_rosettes (i_groups i)) regions) = regions) by (clear - F; induction F; cbn; congruence). rewrite Es.
  assert (Ez : exists k, SV3_Model.zrange start stop = (start + 0)%Z :: k).
  { unfold SV3_Model.zrange. destruct (Z.to_nat (stop - start)) as [|k] eqn:E; [lia|]. cbn [seq map]. eexists. reflexivity. }
  destruct Ez as [k ->]. rewrite Eg in *. inversion F as [|? region ? rs [Ne A] F']; subst. cbn [each combine]. unfold one_mock. cbn [group_loop].
  assert (M : mem region script_regions = true).
  { destruct (g_rosettes g) as [|r0 rr]; [contradiction|]. destruct (A r0 (or_introl eq_refl)) as (ra & dec & _ & ->). destruct (Rltb (259 / 8) dec); reflexivity. }
  rewrite M. reflexivity.
Qed.
Print Assumptions C86_mock_fn_refuted.

(** ** The number of data *)
(** Numbers of the thinning are independent and equally likely on 0, 1/m, ..., (m-1)/m. Whatever z gives to each file, the mean of the product of z^rows is that of independent objects, each written
    with the same probability q; so that the numbers of rows of files are independent and binomial. *)
Theorem C86_number : forall i d imock all region rank m, i_outdir i = Some d -> (forall x, In x all -> rows_ok (csize (snd x)) (snd x)) -> (0 < region_total region all)%nat -> (0 < m)%nat ->
  let mine := filter (fun x : list BinNums.Z * string * pcat => String.eqb (snd (fst x)) region) all in NoDup (map (fun x : list BinNums.Z * string * pcat => rank (fst (fst x))) mine) ->
  let p := INR (i_ndata i region) / INR (region_total region all) in
  exists q, (p <= 1 -> p <= q <= p + 1 / INR m) /\ (1 <= p -> q = 1) /\
    (forall z s0, mean (grid m) (places_of rank mine) (fun s => Rprod (map (fun f => z (fst f) ^ csize (snd f)) (fst (thin_region (with_thin i (from_places rank s)) imock all region)))) s0 =
       Rprod (map (fun x => (1 - q + q * z (fn d "data" (fst (fst x)) imock)) ^ csize (snd x)) mine)) /\
    forall s0, mean (grid m) (places_of rank mine) (fun s => Rsum (map (fun f => INR (csize (snd f))) (fst (thin_region (with_thin i (from_places rank s)) imock all region)))) s0 = INR (region_total region all) * q.
Proof.
  intros i d imock all region rank m Ed W T M mine0 N p. exists (avg (grid m) (fun u => ind (Rltb u p))). assert (Tr : 0 < INR (region_total region all)) by (apply lt_0_INR; auto).
  assert (P0 : 0 <= p) by (unfold p; apply Rmult_le_pos; [apply pos_INR|left; apply Rinv_0_lt_compat; auto]).
  split; [intros P1; apply share_below; auto|]. split; [intros P1; apply share_all; auto|]. split; [intros z s0; apply (number_law i d imock all region rank m Ed W T M N)|intros s0; apply (number_mean i d imock all region rank m Ed W T M N)].
Qed.
Print Assumptions C86_number.
(** So the mean number of data of a region is the number of observed data, up to the step of the generator. *)
Theorem C86_expected : forall i d imock all region rank m s0, i_outdir i = Some d -> (forall x, In x all -> rows_ok (csize (snd x)) (snd x)) -> (0 < region_total region all)%nat -> (0 < m)%nat ->
  let mine := filter (fun x : list BinNums.Z * string * pcat => String.eqb (snd (fst x)) region) all in NoDup (map (fun x : list BinNums.Z * string * pcat => rank (fst (fst x))) mine) ->
  (i_ndata i region <= region_total region all)%nat ->
  INR (i_ndata i region) <= mean (grid m) (places_of rank mine) (fun s => Rsum (map (fun f => INR (csize (snd f))) (fst (thin_region (with_thin i (from_places rank s)) imock all region)))) s0 <=
    INR (i_ndata i region) + INR (region_total region all) / INR m.
Proof.
  intros i d imock all region rank m s0 Ed W T M mine0 N L. destruct (C86_number i d imock all region rank m Ed W T M N) as (q & B & _ & _ & E). cbv zeta in B. fold mine0 in E. rewrite E.
  assert (Tr : 0 < INR (region_total region all)) by (apply lt_0_INR; auto). apply le_INR in L.
  assert (Ep : INR (region_total region all) * (INR (i_ndata i region) / INR (region_total region all)) = INR (i_ndata i region)) by (field; lra).
  assert (P1 : INR (i_ndata i region) / INR (region_total region all) <= 1) by (apply Rmult_le_reg_l with (INR (region_total region all)); auto; rewrite Ep; lra). specialize (B P1).
  assert (Mr : 0 < INR m) by (apply lt_0_INR; auto). split.
  - rewrite <- Ep at 1. apply Rmult_le_compat_l; lra.
  - rewrite <- Ep at 1. replace (INR (region_total region all) / INR m) with (INR (region_total region all) * (1 / INR m)) by (field; lra). rewrite <- Rmult_plus_distr_l. apply Rmult_le_compat_l; lra.
Qed.
Print Assumptions C86_expected.
