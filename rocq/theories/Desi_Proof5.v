(** Proofs for the DESI cut-sky script: when a region goes well. *)
Require Import Reals Lra Lia ZArith String List Sorted Bool.
From Verif Require Import Base Vec3 Isometry_Model Isometry_Proof Sky_Model Sky_Proof Cutsky_Model Cutsky_Spec Cutsky_Proof Box_Model Box_Spec Box_Proof Box_Proof2 Box_Proof3 Box_Proof4 Rsd_Model Rsd_Spec Rsd_Proof Remap_Model Mask_Spec Mask_Model Sample_Model Sample_Spec Sample_Thm Random_Model Random_Spec Random_Thm Random_Thm2 Spline_Model Spline_Spec FA_Model Foot_Model Region_Model Script_Model Script_Thm SV3_Model Rosette_Model Rosette_Spec Rosette_Proof Rosette_Proof2 Rosette_Proof4 Rosette_Thm Desi_Model Desi_Spec Desi_Proof Desi_Proof2 Desi_Proof3 Desi_Proof4.
Import ListNotations.
Open Scope R_scope.

Lemma placed_total : forall box n pos dmin dmax f ra dec drange rr de, wf n (bc_cat box) -> 0 < vx (boxsize box) < dmax -> 0 <= vy (boxsize box) -> 0 <= vz (boxsize box) ->
  column (bc_cat box) (pc_position (bc_cat box)) = Some (ColV pos) -> (forall p, In p pos -> contained (boxsize box) (boxcenter box) p) ->
  box_to_cutsky (boxsize box) dmax dmin = Ok (drange, rr, de) -> watched (Some f) (seen ra dec 0 dmax (boxsize box) (boxcenter box)) (in_frame ra dec 0) (bc_cat box) pos ->
  exists cat, rsd_and_cutsky call_meant box dmin dmax f ra dec = Ok cat.
Proof.
  intros box n pos dmin dmax f ra dec drange rr de W X Y Z P C B Wt. unfold rsd_and_cutsky. rewrite B. cbn [bind].
  destruct (btc_any _ _ _ _ _ _ X Y Z B) as (m & a & d & -> & -> & -> & A & D & M). cbn [fst snd].
  destruct (cut_isometry box dmax ra dec m a d A D M) as (s & Es & T). rewrite Es. cbn [bind cutsky_from_isometry].
  assert (T0 : forall p, transform s false p = seen ra dec 0 dmax (boxsize box) (boxcenter box) p) by (intros p; rewrite T, seen_straight; reflexivity).
  assert (NZ0 : forall p, In p pos -> seen ra dec 0 dmax (boxsize box) (boxcenter box) p <> vzero) by (intros p I; apply (C86_front ra dec 0 dmax (boxsize box) (boxcenter box) p (C p I)); lra).
  assert (NZ : forall p, In p pos -> transform s false p <> vzero) by (intros p I; rewrite T0; auto).
  assert (T1 : forall p, transform s true p = in_frame ra dec 0 p).
  { intros p. replace (transform s true p) with (vsub (transform s false p) (transform s false vzero)) by (rewrite transform_sub; f_equal; destruct p; vunfold; vsplit; ring).
    rewrite !T0. unfold seen, in_frame. generalize (outward ra dec), (turned_east ra dec 0), (turned_north ra dec 0), (boxcenter box), (boxsize box). intros [? ? ?] [? ? ?] [? ? ?] [? ? ?] [? ? ?].
    destruct p as [? ? ?]. vunfold. vsplit; ring. }
  destruct (cfi1_none box s n pos W P NZ) as (placed & Ec & M1 & K1 & W1). rewrite Ec. cbn [bind].
  assert (M2 : moved_by (seen ra dec 0 dmax (boxsize box) (boxcenter box)) (in_frame ra dec 0) (bc_cat box) placed) by (exact (moved_ext _ _ _ _ _ _ T0 T1 M1)).
  destruct (watched_ok (Some f) _ _ _ _ _ _ W W1 M2 P NZ0 Wt) as (obs & (? & ? & _ & _ & _ & _ & Eo) & _ & _ & No). rewrite Eo. cbn [bind].
  destruct (sky_of obs No) as (sky & Esk & _). change (call_meant obs) with (map_result (cartesian_to_sky true) obs). rewrite Esk. cbn [bind]. eauto.
Qed.

Lemma columns_kept : forall mask c c' n x, Box_Model.select_rows mask c = Ok c' -> column c n = Some x -> rows_ok (List.length mask) c -> exists idx, column c' n = Some (pick_col idx x).
Proof. intros mask c c' n x H C W. destruct (select_rows_spec mask c _ eq_refl W) as (c3 & E & _ & _ & _ & _ & _ & K & _). rewrite H in E. injection E as <-. eauto. Qed.
Lemma cutsky_total : forall i box n region ra dec seed pos m drange rr de, ready i box n -> (forall s z, List.length (i_smear i s z) = List.length z) ->
  column (bc_cat box) (pc_position (bc_cat box)) = Some (ColV pos) -> nz_mask (i_make i) (i_fuel i) (i_distance i) (i_table i) (i_zmin i) (i_zmax i) = Ok m ->
  box_to_cutsky (boxsize box) (i_distance i (i_zmax i)) (i_distance i (i_zmin i)) = Ok (drange, rr, de) ->
  watched (Some (i_factor i)) (seen ra dec 0 (i_distance i (i_zmax i)) (boxsize box) (boxcenter box)) (in_frame ra dec 0) (bc_cat box) pos -> In region desi_regions ->
  exists cutsky f, region_cutsky call_meant i box (ra, dec) seed = Ok cutsky /\ ((exists inside, sky_area (i_desi i) inside) -> footprint i region cutsky = Ok f).
Proof.
  intros i box n region ra dec seed pos m drange rr de (Eb & W & X & Y & Z & (pos' & P' & C) & (vel & Vl)) Sm P Em B Wt Ir. rewrite P in P'. injection P' as <-.
  destruct (placed_total box n pos (i_distance i (i_zmin i)) _ (i_factor i) ra dec _ _ _ W X Y Z P C B Wt) as (cat & Ec).
  destruct (placed_ok box n pos vel _ _ _ ra dec cat W X Y Z P C Vl Ec) as (placed & obs & sky & M & O & Os & Ls & Wc & C1 & C2 & C3 & C4 & Co).
  unfold region_cutsky. cbn [fst snd]. rewrite Ec. cbn [bind].
  assert (G : get_num "DISTANCE" (pc_data cat) = Ok (map (fun x => fst (fst x)) sky)) by (unfold get_num; unfold column in C2; rewrite C2; reflexivity).
  rewrite G. cbn [bind]. rewrite map_length, map_map. set (cat1 := with_data cat _). set (z0 := map (fun x => i_d2z i (fst (fst x))) sky) in *.
  assert (W1 : rows_ok n cat1).
  { intros nm x I. unfold cat1 in I. cbn [with_data pc_data] in I. apply set_col_In in I. destruct I as [ [_ ->]|I]; [cbn; unfold z0; rewrite map_length; lia|exact (Wc nm x I)]. }
  assert (Z1 : column cat1 "Z" = Some (ColS z0)) by (unfold column, cat1; cbn [with_data pc_data]; rewrite set_col_lookup; reflexivity).
  assert (O1 : forall nm, nm <> "Z"%string -> column cat1 nm = column cat nm) by (intros nm N; unfold column, cat1; cbn [with_data pc_data]; rewrite set_col_lookup; apply String.eqb_neq in N; rewrite N; reflexivity).
  destruct (C67_radial (i_make i) (i_fuel i) (i_distance i) (i_table i) (i_zmin i) (i_zmax i) (Some (i_smear i (seed + 13)%Z)) (numbers (i_mask i seed) (List.length sky)) cat1 n z0 m W1 Z1) as (z & c2 & all & E & Smz & (S1 & N1 & K1) & I1); auto.
  { unfold numbers. rewrite map_length, seq_length. auto. }
  { intros f Ef. injection Ef as <-. apply Sm. }
  rewrite E. set (cz := with_z (Some (i_smear i (seed + 13)%Z)) cat1 z) in *.
  assert (Oz : forall nm, nm <> "Z"%string -> column cz nm = column cat1 nm) by (intros nm N; unfold column, cz; cbn [with_z with_data pc_data]; rewrite set_col_lookup; apply String.eqb_neq in N; rewrite N; reflexivity).
  assert (Cra : column c2 "RA" = Some (ColS (pick all (map (fun x => snd (fst x)) sky)))) by (apply (K1 "RA"%string (ColS _)); rewrite Oz, O1 by discriminate; exact C3).
  assert (Cdec : column c2 "DEC" = Some (ColS (pick all (map snd sky)))) by (apply (K1 "DEC"%string (ColS _)); rewrite Oz, O1 by discriminate; exact C4).
  exists c2. destruct (radial_rows _ _ _ _ _ _ _ _ _ _ E) as [_ (mask & cm & Sel)]. apply Rosette_Proof6.select_rows_out in Sel. destruct Sel as [Sel _]. set (k := List.length (filter (fun b => b) mask)) in *.
  assert (Kl : List.length (pick all (map (fun x => snd (fst x)) sky)) = k) by (exact (Sel _ _ (lookup_In _ _ _ Cra))). assert (Kd : List.length (pick all (map snd sky)) = k) by (exact (Sel _ _ (lookup_In _ _ _ Cdec))).
  set (pts := combine (pick all (map (fun x => snd (fst x)) sky)) (pick all (map snd sky))).
  assert (Lp : List.length pts = k) by (unfold pts; rewrite combine_length; lia).
  assert (Ph : exists px pin, is_in_photometric_region (i_regressis i) pts region = Ok (px, pin)).
  { unfold is_in_photometric_region. destruct Ir as [<-|[<-|[<-|[] ] ] ]; destruct (i_regressis i); eexists _, _; reflexivity. }
  destruct Ph as (px & pin & Ep). destruct (i_desi i (i_release i) (i_program i) (i_npasses i) pts) as [din|] eqn:Ed.
  - destruct (Nat.eq_dec (List.length din) k) as [Ld|Ld].
    + destruct (C67_footprint (i_desi i (i_release i) (i_program i) (i_npasses i)) (i_regressis i) region c2 k _ _ din px pin Sel Cra Cdec Ed Ld Ep) as (c' & idx & Ef & _). exists (c', pick idx px). split; [reflexivity|]. intros _. exact Ef.
    + exists (c2, []). split; [reflexivity|]. intros (inside & A). rewrite A in Ed. injection Ed as <-. exfalso. apply Ld. rewrite map_length. exact Lp.
  - exists (c2, []). split; [reflexivity|]. intros (inside & A). rewrite A in Ed. discriminate.
Qed.

(** Randoms of a region can be drawn: limits of declinations are on the sky, the range of right ascensions is not broken, numbers are drawn, some directions are in the survey and in each round some redshift is kept. *)
Definition drawable (inside : string -> string -> option BinNums.Z -> R * R -> bool) (i : settings) (box : boxcat) (m : smask) (region : string) (ra dec : R) (seed : BinNums.Z) (many : nat) : Prop :=
  (1 <= many)%nat /\ (10 * many <= i_rounds i)%nat /\ angle_stream (i_angles i seed) /\ enough (i_angles i seed) (i_split i (10 * many)) /\
  (forall a e, limits i box a e -> -90 <= dec - e < dec + e /\ dec + e <= 90 /\ ~ broken_range (ra - a) (ra + a) /\
     forall out, random_cutsky (i_split i) (fun x => x) (i_angles i seed) (fun _ _ => []) (i_rounds i) (ra - a, ra + a) (dec - e, dec + e) None (Some (Z.of_nat (10 * many))) None = Ok out ->
       exists o, In o (List.concat out) /\ in_survey inside i region (o_ra o, o_dec o)) /\
  forall k, exists r z u, (r < List.length (i_split i (10 * many)))%nat /\ In (z, u) (i_redshifts i (276 * seed)%Z k r) /\ u <= smask_prob m z.
Lemma footprint_object : forall inside i region l, sky_area (i_desi i) inside -> In region desi_regions -> exists c' px, footprint i region (random_catalog l) = Ok (c', px).
Proof.
  intros inside i region l A Ir. set (pts := combine (map o_ra l) (map o_dec l)). assert (Lp : List.length pts = List.length l) by (unfold pts; rewrite combine_length, !map_length; lia).
  assert (Ph : exists px pin, is_in_photometric_region (i_regressis i) pts region = Ok (px, pin)).
  { unfold is_in_photometric_region. destruct Ir as [<-|[<-|[<-|[] ] ] ]; destruct (i_regressis i); eexists _, _; reflexivity. }
  destruct Ph as (px & pin & Ep).
  destruct (C67_footprint (i_desi i (i_release i) (i_program i) (i_npasses i)) (i_regressis i) region (random_catalog l) (List.length l) (map o_ra l) (map o_dec l) (map (inside (i_release i) (i_program i) (i_npasses i)) pts) px pin) as (c' & idx & Ef & _); auto.
  - intros nm x I. cbn in I. destruct I as [I|[I|[I|[I|[] ] ] ] ]; injection I as <- <-; cbn; apply map_length.
  - rewrite map_length. exact Lp.
  - exists c', (pick idx px). exact Ef.
Qed.
Lemma randoms_total : forall inside i box n m region ra dec seed many a e, ready i box n -> sky_area (i_desi i) inside -> splits (i_split i) -> In region desi_regions ->
  nz_mask (i_make i) (i_fuel i) (i_distance i) (i_table i) (i_zmin i) (i_zmax i) = Ok m -> limits i box a e -> drawable inside i box m region ra dec seed many ->
  exists ts, region_randoms i box region (ra, dec) seed many = Ok ts.
Proof.
  intros inside i box n m region ra dec seed many a e (Eb & W & X & Y & Z & _) A Sl Ir Em Li (H1 & H2 & H3 & H4 & H5 & H6). unfold region_randoms. rewrite ten_times. cbn [fst snd].
  destruct (H5 a e Li) as (D1 & D2 & Nb & Hit). destruct Li as (drange & B). rewrite B. cbn [bind fst snd].
  replace (ra + - a) with (ra - a) by ring. replace (dec + - e) with (dec - e) by ring.
  set (ddraws := fun (_ r : nat) => repeat (1 / 2, 1 / 2) (nth r (i_split i (10 * many)) 0%nat)).
  destruct (C35_cutsky_exactly (i_split i) (fun x => x) ddraws (ra - a) (ra + a) (dec - e) (dec + e) (Z.of_nat (10 * many)) (i_rounds i) None (Some (Z.of_nat (10 * many))) None Sl D1 D2) as [_ S].
  { intros k r t u I. apply repeat_spec in I. injection I as -> ->. unfold unit_number. lra. }
  { rewrite Nat2Z.id. intros k r _. apply repeat_length. }
  { discriminate. }
  { left. reflexivity. }
  { lia. }
  { rewrite Nat2Z.id. lia. }
  rewrite Nat2Z.id in S. destruct (S Nb (i_angles i seed) H3 H4) as [out Eo].
  assert (Eo' : random_cutsky (i_split i) (fun x => x) (i_angles i seed) (fun _ _ => []) (i_rounds i) (ra - a, ra + a) (dec - e, dec + e) None (Some (Z.of_nat (10 * many))) None = Ok out) by (rewrite <- Eo; reflexivity).
  rewrite Eo'. cbn [bind]. destruct (random_shape _ _ _ _ _ _ _ _ Eo') as [Lo Do]. destruct (Hit out Eo') as (o & Io & Os).
  assert (K : forall out, (forall o, In o (List.concat out) -> o_dist o = 1 /\ o_pos o = sky_point 1 (o_ra o) (o_dec o)) -> exists kept, map_result (fun l => footprint i region (random_catalog l)) out = Ok kept /\
    map (fun x => csize (fst x)) kept = map (fun l => List.length (filter (surveyed inside i region) (map direction l))) out).
  { clear - A Ir. induction out as [|l out IH]; intros D; [exists []; split; reflexivity|]. destruct (footprint_object inside i region l A Ir) as (c' & px & Ef). cbn [List.concat] in D.
    destruct IH as (kept & Ek & Lk); [intros o I; apply D; apply in_or_app; auto|]. exists ((c', px) :: kept). cbn [map_result]. rewrite Ef. cbn [bind]. rewrite Ek. split; [reflexivity|]. cbn [map fst]. rewrite Lk. f_equal.
    destruct (footprint_randoms inside i region l c' px A ltac:(intros o I; apply D; apply in_or_app; auto) Ef []) as [_ T]. exact T. }
  destruct (K out Do) as (kept & Ek & Lk). rewrite Ek. cbn [bind]. rewrite Lk. unfold generate_redshifts. rewrite Em. cbn [bind].
  match goal with |- context [sample ?p ?d ?f ?s] => assert (Q : exists z, sample p d f s = Ok z) end.
  { apply C31_ends.
    - intros k. destruct (H6 k) as (r & z & u & Hr & I & U). exists r, z, u. split; [rewrite map_length, <- (map_length (@List.length object)), Lo; exact Hr|]. split; [rewrite Z.mul_comm; exact I|exact U].
    - assert (Tl : forall out, total (map (fun l => List.length (filter (surveyed inside i region) (map direction l))) out) = List.length (filter (surveyed inside i region) (map direction (List.concat out)))).
      { clear. induction out as [|l out IH]; [reflexivity|]. cbn [map List.concat total]. rewrite map_app, filter_app, app_length, <- IH. reflexivity. }
      rewrite Tl. split.
      + assert (I : In (direction o) (filter (surveyed inside i region) (map direction (List.concat out)))) by (apply filter_In; split; [apply in_map; exact Io|apply surveyed_ok; exact Os]).
        destruct (filter _ _); [easy|cbn; lia].
      + assert (Tot : List.length (List.concat out) = (10 * many)%nat) by (rewrite <- total_map, Lo; apply Sl).
        assert (Fl : forall l, (List.length (filter (surveyed inside i region) l) <= List.length l)%nat) by (clear; induction l as [|p l IH]; cbn; [lia|destruct (surveyed _ _ _ _); cbn; lia]).
        pose proof (Fl (map direction (List.concat out))) as F. rewrite map_length in F. lia. }
  destruct Q as [z ->]. cbn [bind]. eauto.
Qed.
