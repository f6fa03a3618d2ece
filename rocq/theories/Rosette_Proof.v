Require Import Reals Lra Lia ZArith String List Bool Sorted.
From Verif Require Import Base Vec3 Isometry_Model Isometry_Spec Isometry_Proof Sky_Model Sky_Spec Sky_Proof Cutsky_Model Cutsky_Spec Cutsky_Proof Box_Model Box_Spec Box_Proof Box_Proof2 Box_Proof3 Box_Proof4.
From Verif Require Import Remap_Model Rsd_Model Rsd_Spec Script_Model SV3_Model Rosette_Model Rosette_Spec.
Import ListNotations.
Open Scope R_scope.

(* ---------- frames ---------- *)
Lemma sc1 : forall a, sin a * sin a = 1 - cos a * cos a.
Proof. intros a. pose proof (sin2_cos2 a) as H. unfold Rsqr in H. lra. Qed.

Lemma turn_frame : forall ra dec angle v, mapply (axis_rot (outward ra dec) (cos (angle * PI / 180)) (sin (angle * PI / 180)))
    (vadd (vscale (vx v) (outward ra dec)) (vadd (vscale (vy v) (east ra dec)) (vscale (vz v) (north ra dec)))) = in_frame ra dec angle v.
Proof.
  intros ra dec angle [x y z]. unfold in_frame, turned_east, turned_north, outward, east, north, sky_point. cbv zeta. fold deg.
  replace (angle * PI / 180) with (angle * deg) by (unfold deg; field).
  pose proof (sc1 (ra * deg)) as K1. pose proof (sc1 (dec * deg)) as K2.
  generalize dependent (sin (ra * deg)). generalize (cos (ra * deg)). generalize dependent (sin (dec * deg)). generalize (cos (dec * deg)).
  generalize (cos (angle * deg)) (sin (angle * deg)).
  intros ca sa cd sd K2 cr sr K1. unfold axis_rot, outer, cross_matrix. vunfold. vsplit; ring [K1 K2].
Qed.
Lemma outward_unit : forall ra dec, vdot (outward ra dec) (outward ra dec) = 1.
Proof.
  intros ra dec. unfold outward, sky_point. cbv zeta. pose proof (sc1 (ra * (PI / 180))) as K1. pose proof (sc1 (dec * (PI / 180))) as K2.
  vunfold. ring [K1 K2].
Qed.
Lemma sky_point_outward : forall d ra dec, sky_point d ra dec = vscale d (outward ra dec).
Proof. intros. unfold outward, sky_point. vunfold. vsplit; ring. Qed.
Lemma los_outward : forall d ra dec, 0 < d -> get_los (AxVec (sky_point d ra dec)) = Ok (outward ra dec).
Proof.
  intros d ra dec D. cbn. rewrite sky_point_outward. assert (N : vscale d (outward ra dec) <> vzero).
  { intros E. pose proof (outward_unit ra dec) as U. apply (f_equal (vdot (outward ra dec))) in E. revert E U. generalize (outward ra dec). intros [x y z]. vunfold. intros. nra. }
  rewrite (normalize_ok _ N). f_equal. assert (L : vnorm (vscale d (outward ra dec)) = d).
  { unfold vnorm. replace (vdot (vscale d (outward ra dec)) (vscale d (outward ra dec))) with (d * d * vdot (outward ra dec) (outward ra dec)).
    - rewrite outward_unit, Rmult_1_r. apply sqrt_square. lra.
    - generalize (outward ra dec). intros [x y z]. vunfold. ring. }
  rewrite L. generalize (outward ra dec). intros [x y z]. vunfold. vsplit; field; lra.
Qed.

(* ---------- box_to_cutsky from outside, dmin = 0 ---------- *)
Lemma sqrt_sum_lt : forall a b c, 0 <= a -> 0 <= c -> sqrt (a ^ 2 + b ^ 2) < c -> Rabs b < c.
Proof.
  intros a b c A C H. apply Rle_lt_trans with (sqrt (a ^ 2 + b ^ 2)); auto. rewrite <- sqrt_Rsqr_abs. apply sqrt_le_1_alt. unfold Rsqr. nra.
Qed.
Lemma outside_facts : forall b1 b2 dx dmax, 0 <= b2 <= b1 -> 0 < dx < dmax -> sqrt (dx ^ 2 + (b1 / 2) ^ 2) < dmax ->
  exists e0 e1, btc_outside b1 b2 dx dmax 0 = Ok (dx / cos e0, e0, e1) /\ 0 <= e1 <= e0 /\ e0 < PI / 2 /\ 0 < cos e0.
Proof.
  intros b1 b2 dx dmax B X L. pose proof PI_RGT_0 as P. unfold btc_outside. destruct (Rlt_dec _ dmax) as [_|N]; [|easy].
  pose proof (sqrt_sum_lt dx (b1 / 2) dmax ltac:(lra) ltac:(lra) L) as Q. rewrite Rabs_right in Q by lra.
  assert (Q1 : 0 <= b1 / 2 / dmax < 1). { split; [apply div_range; lra|]. apply Rmult_lt_reg_r with dmax; [lra|]. unfold Rdiv at 1. rewrite Rmult_assoc, Rinv_l; lra. }
  assert (Q2 : 0 <= b2 / 2 / dmax <= b1 / 2 / dmax). { split; [apply div_range; lra|]. unfold Rdiv. apply Rmult_le_compat_r; [|lra]. left. apply Rinv_0_lt_compat. lra. }
  unfold fdiv at 1. destruct (Req_EM_T dmax 0); [lra|]. cbn [bind]. rewrite np_arcsin_ok by lra. cbn [bind].
  set (e0 := asin (b1 / 2 / dmax)). pose proof (asin_range (b1 / 2 / dmax) ltac:(lra)) as AR. fold e0 in AR.
  assert (E0 : e0 < PI / 2).
  { destruct (Req_dec e0 (PI / 2)) as [E|E]; [|lra]. exfalso. assert (S : sin e0 = b1 / 2 / dmax) by (unfold e0; apply sin_asin; lra). rewrite E, sin_PI2 in S. lra. }
  assert (C0 : 0 < cos e0) by (apply cos_gt_0; lra).
  unfold fdiv at 1. destruct (Req_EM_T (cos e0) 0); [lra|]. cbn [bind]. unfold fdiv at 1. destruct (Req_EM_T dmax 0); [lra|]. cbn [bind]. rewrite np_arcsin_ok by lra. cbn [bind].
  assert (M : 0 < dx / cos e0) by (apply Rdiv_lt_0_compat; lra). unfold fdiv at 1. destruct (Req_EM_T (dx / cos e0) 0); [lra|]. cbn [bind].
  replace (dx / (dx / cos e0)) with (cos e0) by (field; lra). unfold np_arccos. pose proof (COS_bound e0). destruct (Rle_dec (Rabs (cos e0)) 1) as [_|N]; [|exfalso; apply N, Rabs_le; lra].
  cbn [bind]. rewrite acos_cos by lra. exists e0, (Rmin (asin (b2 / 2 / dmax)) e0). split; [reflexivity|].
  pose proof (asin_range (b2 / 2 / dmax) ltac:(lra)). split; [|auto]. split; [apply Rmin_glb; lra|apply Rmin_r].
Qed.
Lemma outside_error : forall b1 b2 dx dmax, 0 < dx -> ~ sqrt (dx ^ 2 + (b1 / 2) ^ 2) < dmax -> btc_outside b1 b2 dx dmax 0 = Err ValueError.
Proof. intros b1 b2 dx dmax X L. unfold btc_outside. destruct (Rlt_dec _ dmax); [easy|]. destruct (Rlt_dec 0 dx); [reflexivity|lra]. Qed.

Lemma btc_shape : forall b dmax, 0 < vx b < dmax -> 0 <= vy b -> 0 <= vz b -> fits_in dmax b ->
  exists dmin a d, box_to_cutsky b dmax 0 = Ok ((dmin, dmax), (- a, a), (- d, d)) /\ 0 <= a <= 90 /\ 0 <= d <= 90 /\
    dmin * Rmin (cos (a * deg)) (cos (d * deg)) = dmax - vx b.
Proof.
  intros b dmax X Y Z F. unfold box_to_cutsky. destruct (Rle_dec (dmax - vx b) 0); [lra|]. pose proof PI_RGT_0 as P. unfold fits_in in F.
  assert (K : forall e, 0 <= e < PI / 2 -> 0 <= rad2deg e <= 90).
  { intros e E. unfold rad2deg. split; [apply Rmult_le_reg_r with PI; [lra|]|apply Rmult_le_reg_r with PI; [lra|] ]; replace (e * 180 / PI * PI) with (e * 180) by (field; lra); lra. }
  assert (D : forall e, rad2deg e * deg = e) by (intros e; apply rad2deg_deg).
  destruct (Rltb (vy b) (vz b)) eqn:E.
  - apply Rltb_true in E. rewrite Rmax_right in F by lra. destruct (outside_facts (vz b) (vy b) (dmax - vx b) dmax ltac:(lra) ltac:(lra) F) as (e0 & e1 & -> & E1 & E0 & C). cbn [bind].
    exists ((dmax - vx b) / cos e0), (rad2deg e1), (rad2deg e0). split; [reflexivity|]. split; [apply K; lra|]. split; [apply K; lra|]. rewrite !D.
    rewrite Rmin_right by (apply cos_decr_1; lra). field. lra.
  - apply Rltb_false in E. rewrite Rmax_left in F by lra. destruct (outside_facts (vy b) (vz b) (dmax - vx b) dmax ltac:(lra) ltac:(lra) F) as (e0 & e1 & -> & E1 & E0 & C). cbn [bind].
    exists ((dmax - vx b) / cos e0), (rad2deg e0), (rad2deg e1). split; [reflexivity|]. split; [apply K; lra|]. split; [apply K; lra|]. rewrite !D.
    rewrite Rmin_left by (apply cos_decr_1; lra). field. lra.
Qed.
Lemma btc_too_wide : forall b dmax, 0 < vx b < dmax -> ~ fits_in dmax b -> box_to_cutsky b dmax 0 = Err ValueError.
Proof.
  intros b dmax X F. unfold box_to_cutsky. destruct (Rle_dec (dmax - vx b) 0); [lra|]. unfold fits_in in F.
  destruct (Rltb (vy b) (vz b)) eqn:E; [apply Rltb_true in E; rewrite Rmax_right in F by lra|apply Rltb_false in E; rewrite Rmax_left in F by lra]; rewrite outside_error by (try lra; auto); reflexivity.
Qed.

(* ---------- the isometry of the cut ---------- *)
Lemma rigid_linear : forall s p, is_rotation (rot s) -> transform s true p = vsub (transform s false p) (transform s false vzero).
Proof. intros s p _. rewrite transform_sub. f_equal. destruct p as [x y z]. vunfold. vsplit; ring. Qed.

Lemma cut_isometry : forall c dmax ra dec dmin a d, 0 <= a <= 90 -> 0 <= d <= 90 ->
  dmin * Rmin (cos (a * deg)) (cos (d * deg)) = dmax - vx (boxsize c) ->
  exists s, isometry_for_cutsky c (dmin, dmax) (- a + ra, a + ra) (- d + dec, d + dec) (Margins None None None) (Margins None None None) (Some 1%nat) = Ok (IsoOne s) /\
    forall p, transform s false p =
      let v := vadd (V (dmax - vx (boxsize c) / 2) 0 0) (vsub p (boxcenter c)) in
      vadd (vscale (vx v) (outward ra dec)) (vadd (vscale (vy v) (east ra dec)) (vscale (vz v) (north ra dec))).
Proof.
  intros c dmax ra dec dmin a d A D M. destruct (ctb_ok (dmin, dmax) (- a + ra, a + ra) (- d + dec, d + dec)) as (o & Eo & _ & T).
  unfold isometry_for_cutsky. rewrite Eo. cbn [bind]. destruct (centre_then_ok (boxcenter c) o) as (s & Es & Ts). rewrite Es. cbn [bind]. exists s. split; [reflexivity|].
  intros p. rewrite Ts, T. cbv zeta.
  assert (W : ra_width (- a + ra, a + ra) = 2 * a) by (unfold ra_width; cbn [fst snd]; destruct (Rlt_dec (a + ra) (- a + ra)); lra).
  destruct (ctb_rarange_spec (- a + ra, a + ra) ltac:(rewrite W; lra)) as (m & M1 & M2). rewrite W in M2. cbn [fst snd] in M1, M2 |- *.
  assert (B : vx (ctb_boxsize (dmin, dmax) (- a + ra, a + ra) (- d + dec, d + dec)) = vx (boxsize c)).
  { unfold ctb_boxsize. cbn [vx fst snd]. rewrite M1, M2. replace (Rabs (- a + ra + 360 * IZR m + 2 * a - (- a + ra + 360 * IZR m))) with (2 * a) by (rewrite Rabs_right; lra).
    replace (Rabs (d + dec - (- d + dec))) with (2 * d) by (rewrite Rabs_right; lra). unfold deg in M.
    replace (2 * a / 2 * PI / 180) with (a * (PI / 180)) by field. replace (2 * d / 2 * PI / 180) with (d * (PI / 180)) by field. lra. }
  rewrite B, M1, M2. replace ((- a + ra + 360 * IZR m + (- a + ra + 360 * IZR m + 2 * a)) / 2 * (PI / 180)) with (ra * (PI / 180) + IZR m * (2 * PI)) by field.
  rewrite cos_period_Z, sin_period_Z. replace ((- d + dec + (d + dec)) / 2 * (PI / 180)) with (dec * (PI / 180)) by field.
  unfold outward, east, north, sky_point, deg. cbv zeta. generalize (vx (boxsize c)). intros L. destruct p as [x y z], (boxcenter c) as [u v w]. vunfold. vsplit; ring.
Qed.

(* ---------- catalogs ---------- *)
Lemma column_names : forall c m x, column c m = Some x -> In m (names c).
Proof. intros c m x H. apply in_map_iff. exists (m, x). split; auto. apply lookup_In; auto. Qed.
Definition same_kind (c c' : pcat) : Prop := forall m, In m (names c) -> (In m (pc_vectors c') <-> In m (pc_vectors c)) /\ (In m (pc_invariants c') <-> In m (pc_invariants c)).
Lemma moved_compose : forall f g f' g' c c1 c2, same_kind c c1 -> moved_by f g c c1 -> moved_by f' g' c1 c2 -> moved_by (fun p => f' (f p)) (fun p => g' (g p)) c c2.
Proof.
  intros f g f' g' c c1 c2 K (N & P & V & A & B & D) (N' & P' & V' & A' & B' & D').
  split; [congruence|]. split; [congruence|]. split; [congruence|]. repeat split.
  - intros m l C [I J]. pose proof (column_names _ _ _ C) as Nm. destruct (K m Nm) as [K1 K2]. rewrite (A' m (map f l)); [rewrite map_map; reflexivity|apply A; auto; split; auto|split; [tauto|tauto] ].
  - intros m l C I J. pose proof (column_names _ _ _ C) as Nm. destruct (K m Nm) as [K1 K2]. rewrite (B' m (map g l)); [rewrite map_map; reflexivity|apply B; auto|tauto|tauto].
  - intros m x C I. pose proof (column_names _ _ _ C) as Nm. destruct (K m Nm) as [K1 K2]. apply D'; [apply D; auto|tauto].
Qed.
Lemma moved_ext : forall f g f' g' c c', (forall p, f p = f' p) -> (forall p, g p = g' p) -> moved_by f g c c' -> moved_by f' g' c c'.
Proof.
  intros f g f' g' c c' F G (N & P & V & A & B & D). split; [auto|]. split; [auto|]. split; [auto|]. repeat split; auto.
  - intros m l C M. rewrite <- (map_ext f f' F). auto.
  - intros m l C I J. rewrite <- (map_ext g g' G). auto.
Qed.
Lemma tv_moved : forall s c c', transform_vectors s c = Ok c' -> moved_by (transform s false) (transform s true) c c'.
Proof. intros s c c' H. destruct (tv_spec _ _ _ H) as (N & V & I & P & Vl & _ & Oth & Mov & Rot). split; [auto|]. split; [auto|]. split; [auto|]. repeat split; auto. Qed.
Lemma tv_kind : forall s c c', transform_vectors s c = Ok c' -> same_kind c c'.
Proof. intros s c c' H. destruct (tv_spec _ _ _ H) as (N & V & I & _). intros m _. rewrite V, I. tauto. Qed.
Lemma tv_wf : forall n s c c', wf n c -> transform_vectors s c = Ok c' -> wf n c'.
Proof.
  intros n s c c' (R & Wv & A & B & D & E) H. destruct (tv_spec _ _ _ H) as (N & V & I & P & Vl & _ & Oth & Mov & Rot).
  split; [apply (transform_vectors_rows s c c' n R H)|]. split; [|rewrite P, Vl, V, I; tauto].
  intros m x J K. unfold transform_vectors in H. destruct (map_cols _ _) as [d|] eqn:Em; [|discriminate]. cbn [bind] in H. injection H as <-. cbn [pc_data pc_vectors] in *. clear N P Vl V I Oth Mov Rot R A B D E.
  revert d Em x J. assert (Wv' : forall y, In (m, y) (pc_data c) -> exists l, y = ColV l) by (intros y Y; apply (Wv m y Y K)). clear Wv. revert Wv'.
  generalize (pc_data c). intros l. induction l as [|[k y] l IH]; intros W d Em x J; cbn in Em; [injection Em as <-; destruct J|].
  destruct (if mem k (pc_vectors c) then _ else _) as [y'|] eqn:Ey; [|discriminate]. cbn [bind] in Em.
  destruct (map_cols _ l) as [d'|] eqn:El; [|discriminate]. cbn [bind] in Em. injection Em as <-. destruct J as [J|J].
  - injection J as -> ->. destruct (mem m (pc_vectors c)) eqn:Mm; [|apply mem_nIn in Mm; contradiction].
    destruct (W y (or_introl eq_refl)) as [l0 ->]. cbn in Ey. injection Ey as <-. eauto.
  - apply (IH (fun z Hz => W z (or_intror Hz)) d' eq_refl x J).
Qed.
Lemma cfi1_none : forall c s n pos, wf n (bc_cat c) -> column (bc_cat c) (pc_position (bc_cat c)) = Some (ColV pos) -> (forall p, In p pos -> transform s false p <> vzero) ->
  exists c', cutsky_from_isometry1 c s None None None = Ok c' /\ moved_by (transform s false) (transform s true) (bc_cat c) c' /\ same_kind (bc_cat c) c' /\ wf n c'.
Proof.
  intros c s n pos (Wr & Wv & Ip & Ni & Iv & Ivi) P NZ. unfold cutsky_from_isometry1. cbn zeta. set (cat0 := bc_cat c) in *.
  set (cat1 := pcat_new (pc_data cat0) (pc_position cat0) (pc_velocity cat0) (filter (fun n => mem n (map fst (pc_data cat0))) (pc_vectors cat0)) (pc_invariants cat0)).
  assert (Vec1 : forall m, In m (names cat0) -> (In m (pc_vectors cat1) <-> In m (pc_vectors cat0))).
  { intros m I. unfold cat1, pcat_new. cbn [pc_vectors]. rewrite in_app_iff, filter_In. split; [intros [ [H _]|[<-|[<-|[] ] ] ]; auto|intros H; left; split; auto; apply mem_In; exact I]. }
  assert (Inv1 : forall m, In m (pc_invariants cat1) <-> In m (pc_invariants cat0)).
  { intros m. unfold cat1, pcat_new. cbn [pc_invariants]. rewrite in_app_iff. cbn. split; [intros [H|[<-|[] ] ]; auto|auto]. }
  assert (K1 : same_kind cat0 cat1) by (intros m I; split; [apply Vec1; auto|apply Inv1]).
  assert (W1 : wf n cat1).
  { split; [exact Wr|]. split; [|split; [|split; [|split] ] ].
    - intros m x I J. apply (Wv m x); auto. apply (Vec1 m); auto. apply in_map_iff. exists (m, x). auto.
    - unfold cat1, pcat_new. cbn. rewrite in_app_iff. cbn. auto.
    - intros H. apply Inv1 in H. apply Ni. exact H.
    - unfold cat1, pcat_new. cbn. rewrite in_app_iff. cbn. auto.
    - apply Inv1. exact Ivi. }
  assert (M1 : moved_by (fun p => p) (fun p => p) cat0 cat1).
  { split; [reflexivity|]. split; [reflexivity|]. split; [reflexivity|]. repeat split; intros; rewrite ?map_id; auto. }
  unfold cutsky_isometry. destruct (tv_ok s cat1 (proj1 (proj2 W1))) as [cat2 E2]. rewrite E2. cbn [bind].
  assert (M2 : moved_by (transform s false) (transform s true) cat0 cat2) by (exact (moved_compose _ _ _ _ _ _ _ K1 M1 (tv_moved _ _ _ E2))).
  assert (Pos2 : column cat2 (pc_position cat2) = Some (ColV (map (transform s false) pos))).
  { destruct M2 as (_ & -> & _ & A & _). apply A; auto. split; auto. }
  unfold position, get_vec. unfold column in Pos2. rewrite Pos2. cbn [bind].
  destruct (map_result_all (cartesian_to_sky true) (fun p x => cartesian_to_sky true p = Ok x) (map (transform s false) pos)) as (sky & Es & Fs).
  { intros q I. apply in_map_iff in I. destruct I as (p & <- & I). destruct (c2s_ok true _ (NZ p I)) as (x & y & z & E). eauto. }
  rewrite Es. cbn [bind]. exists cat2. split; [reflexivity|]. split; [exact M2|]. split; [|exact (tv_wf n _ _ _ W1 E2)].
  intros m I. destruct (K1 m I) as [A B]. destruct (tv_kind _ _ _ E2 m I) as [A' B']. tauto.
Qed.

Lemma place_ok : forall vectors angle dmax d ra dec c c1 n pos, 0 < d -> 0 <= ra < 360 -> -90 < dec < 90 ->
  remap c (RVectors vectors) = Ok c1 -> 0 < vx (boxsize c1) < dmax -> 0 <= vy (boxsize c1) -> 0 <= vz (boxsize c1) -> fits_in dmax (boxsize c1) ->
  wf n (bc_cat c1) -> column (bc_cat c1) (pc_position (bc_cat c1)) = Some (ColV pos) ->
  (forall p, In p pos -> seen ra dec angle dmax (boxsize c1) (boxcenter c1) p <> vzero) ->
  exists cat, place_box vectors angle dmax (sky_point d ra dec) c = Ok cat /\
    moved_by (seen ra dec angle dmax (boxsize c1) (boxcenter c1)) (in_frame ra dec angle) (bc_cat c1) cat /\ same_kind (bc_cat c1) cat /\ wf n cat.
Proof.
  intros vectors angle dmax d ra dec c c1 n pos Hd Hra Hdec Er Sx Sy Sz F W P NZ. unfold place_box.
  assert (Esky : cartesian_to_sky true (sky_point d ra dec) = Ok (d, ra, dec)).
  { pose proof (sky_roundtrip2 true d ra dec Hd) as H. unfold full_turn in H. rewrite <- H by (cbn; lra). f_equal. unfold sky_to_cartesian, sky_point, conversion. cbn. vunfold. vsplit; ring. }
  rewrite Esky. cbn [bind fst snd].
  pose proof (rotation_matrix_eq _ angle _ (los_outward d ra dec Hd)) as Em. rewrite (iso_rotation_ok _ _ _ _ _ Em). cbn [iso_ok bind]. rewrite Er. cbn [bind].
  destruct (btc_shape (boxsize c1) dmax Sx Sy Sz F) as (dmin & a & e & Eb & Ra & Rd & M). rewrite Eb. cbn [bind fst snd].
  destruct (cut_isometry c1 dmax ra dec dmin a e Ra Rd M) as (s & Es & T). rewrite Es. cbn [bind cutsky_from_isometry].
  set (turn := Iso _ _).
  assert (Tt : forall b p, transform turn b p = mapply (axis_rot (outward ra dec) (cos (angle * PI / 180)) (sin (angle * PI / 180))) p) by (intros b p; unfold turn; apply transform_linear).
  assert (TT : forall p, transform turn false (transform s false p) = seen ra dec angle dmax (boxsize c1) (boxcenter c1) p).
  { intros p. rewrite Tt, T. cbv zeta. rewrite turn_frame. reflexivity. }
  destruct (cfi1_none c1 s n pos W P) as (cat & Ec & M1 & K1 & W1).
  { intros p I E. apply (NZ p I). rewrite <- TT, E. rewrite Tt. generalize (axis_rot (outward ra dec) (cos (angle * PI / 180)) (sin (angle * PI / 180))). intros m. vring. }
  rewrite Ec. cbn [bind]. unfold cutsky_isometry. destruct (tv_ok turn cat (proj1 (proj2 W1))) as [cat2 E2]. rewrite E2. exists cat2. split; [reflexivity|].
  assert (LT : forall p, transform turn true (transform s true p) = in_frame ra dec angle p).
  { intros p. replace (transform s true p) with (vsub (transform s false p) (transform s false vzero)) by (rewrite transform_sub; f_equal; destruct p; vunfold; vsplit; ring).
    rewrite Tt. assert (L : forall m x y, mapply m (vsub x y) = vsub (mapply m x) (mapply m y)) by vring. rewrite L, <- !(Tt false), !TT. unfold seen, in_frame.
    generalize (outward ra dec) (turned_east ra dec angle) (turned_north ra dec angle). intros o1 o2 o3. destruct p as [x y z], (boxcenter c1), o1, o2, o3. vunfold. vsplit; ring. }
  split; [|split].
  - apply (moved_ext _ _ _ _ _ _ TT LT). exact (moved_compose _ _ _ _ _ _ _ K1 M1 (tv_moved _ _ _ E2)).
  - intros m I. destruct (K1 m I) as [A B]. destruct M1 as [N1 _]. rewrite <- N1 in I. destruct (tv_kind _ _ _ E2 m I) as [A' B']. tauto.
  - exact (tv_wf n _ _ _ W1 E2).
Qed.
