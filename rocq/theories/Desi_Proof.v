(** Proofs for the DESI cut-sky script: where the box is put, and the rows that are kept. *)
Require Import Reals Lra Lia ZArith String List Sorted Bool.
From Verif Require Import Base Vec3 Isometry_Model Isometry_Proof Sky_Model Sky_Proof Cutsky_Model Cutsky_Spec Cutsky_Proof Box_Model Box_Spec Box_Proof Box_Proof2 Box_Proof3 Box_Proof4 Rsd_Model Rsd_Spec Rsd_Proof Remap_Model Mask_Spec Mask_Model Sample_Model Random_Model Random_Spec Spline_Model FA_Model Foot_Model Region_Model Script_Model Script_Thm SV3_Model Rosette_Spec Rosette_Proof Rosette_Proof2 Rosette_Proof4 Rosette_Thm Desi_Model Desi_Spec.
Import ListNotations.
Open Scope R_scope.

(* ---------- where the box is put ---------- *)
Lemma btc_any : forall b dmax dmin dr rr de, 0 < vx b < dmax -> 0 <= vy b -> 0 <= vz b -> box_to_cutsky b dmax dmin = Ok (dr, rr, de) ->
  exists m a d, dr = (m, dmax) /\ rr = (- a, a) /\ de = (- d, d) /\ 0 <= a <= 90 /\ 0 <= d <= 90 /\ m * Rmin (cos (a * deg)) (cos (d * deg)) = dmax - vx b.
Proof.
  intros b dmax dmin dr rr de X Y Z H. unfold box_to_cutsky in H. cbv zeta in H. pose proof PI_RGT_0 as P.
  destruct (Rle_dec (dmax - vx b) 0) as [N|_]; [lra|].
  assert (K : forall e, 0 <= e <= PI / 2 -> 0 <= rad2deg e <= 90).
  { intros e E. unfold rad2deg. split; [apply Rmult_le_reg_r with PI; [lra|]|apply Rmult_le_reg_r with PI; [lra|] ]; replace (e * 180 / PI * PI) with (e * 180) by (field; lra); lra. }
  assert (D : forall e, rad2deg e * deg = e) by (intros e; apply rad2deg_deg).
  destruct (Rltb (vy b) (vz b)) eqn:E.
  - apply Rltb_true in E. destruct (btc_outside (vz b) (vy b) (dmax - vx b) dmax dmin) as [[[m e0] e1]|] eqn:B; [|discriminate]. cbn [bind] in H. injection H as <- <- <-.
    destruct (btc_outside_ok (vz b) (vy b) (dmax - vx b) dmax dmin m e0 e1 ltac:(lra) ltac:(lra) ltac:(lra) B) as (M & E0 & E1 & C0 & C1 & _).
    exists m, (rad2deg e1), (rad2deg e0). split; auto. split; auto. split; auto. split; auto. split; auto. rewrite !D. rewrite Rmin_right by lra. rewrite C0. field. lra.
  - apply Rltb_false in E. destruct (btc_outside (vy b) (vz b) (dmax - vx b) dmax dmin) as [[[m e0] e1]|] eqn:B; [|discriminate]. cbn [bind] in H. injection H as <- <- <-.
    destruct (btc_outside_ok (vy b) (vz b) (dmax - vx b) dmax dmin m e0 e1 ltac:(lra) ltac:(lra) ltac:(lra) B) as (M & E0 & E1 & C0 & C1 & _).
    exists m, (rad2deg e0), (rad2deg e1). split; auto. split; auto. split; auto. split; auto. split; auto. rewrite !D. rewrite Rmin_left by lra. rewrite C0. field. lra.
Qed.
Lemma seen_straight : forall ra dec dmax size center p, seen ra dec 0 dmax size center p =
  let v := vadd (V (dmax - vx size / 2) 0 0) (vsub p center) in vadd (vscale (vx v) (outward ra dec)) (vadd (vscale (vy v) (east ra dec)) (vscale (vz v) (north ra dec))).
Proof.
  intros. unfold seen, in_frame. cbv zeta. f_equal. unfold turned_east, turned_north. rewrite Rmult_0_l, cos_0, sin_0.
  f_equal; f_equal; generalize (east ra dec), (north ra dec); intros [a b c] [x y z]; vunfold; vsplit; ring.
Qed.
Lemma c2s_zero : forall d x, cartesian_to_sky d vzero <> Ok x.
Proof.
  intros d x H. unfold cartesian_to_sky in H. destruct (Req_EM_T (distance vzero) 0) as [_|N]; [discriminate|]. apply N. rewrite distance_vnorm. unfold vnorm, vdot, vzero. cbn. rewrite !Rmult_0_l, !Rplus_0_l. apply sqrt_0.
Qed.
Lemma sky_nonzero : forall pos sky, map_result (cartesian_to_sky true) pos = Ok sky -> forall p, In p pos -> p <> vzero.
Proof.
  induction pos as [|q pos IH]; intros sky H p I; [easy|]. cbn [map_result] in H. destruct (cartesian_to_sky true q) as [x|] eqn:E; [|discriminate]. cbn [bind] in H.
  destruct (map_result (cartesian_to_sky true) pos) as [l|] eqn:El; [|discriminate]. destruct I as [<-|I]; [|eapply IH; eauto]. intros ->. exact (c2s_zero _ _ E).
Qed.

(** Columns of a catalog after the sky coordinates have been added. *)
Lemma placed_ok : forall box n pos vel dmin dmax f ra dec cat, wf n (bc_cat box) -> 0 < vx (boxsize box) < dmax -> 0 <= vy (boxsize box) -> 0 <= vz (boxsize box) ->
  column (bc_cat box) (pc_position (bc_cat box)) = Some (ColV pos) -> (forall p, In p pos -> contained (boxsize box) (boxcenter box) p) ->
  column (bc_cat box) (pc_velocity (bc_cat box)) = Some (ColV vel) ->
  rsd_and_cutsky call_meant box dmin dmax f ra dec = Ok cat ->
  exists placed obs sky, moved_by (seen ra dec 0 dmax (boxsize box) (boxcenter box)) (in_frame ra dec 0) (bc_cat box) placed /\ observed_at (Some f) placed obs /\ on_sky obs sky /\
    List.length sky = n /\ rows_ok n cat /\
    column cat "RSDPosition" = Some (ColV obs) /\ column cat "DISTANCE" = Some (ColS (map (fun x => fst (fst x)) sky)) /\ column cat "RA" = Some (ColS (map (fun x => snd (fst x)) sky)) /\
    column cat "DEC" = Some (ColS (map snd sky)) /\ (forall m, ~ In m ["RSDPosition"; "DISTANCE"; "RA"; "DEC"]%string -> column cat m = column placed m).
Proof.
  intros box n pos vel dmin dmax f ra dec cat W X Y Z P C Vl H. unfold rsd_and_cutsky in H.
  destruct (box_to_cutsky (boxsize box) dmax dmin) as [[[dr rr] de]|] eqn:B; [|discriminate]. cbn [bind] in H.
  destruct (btc_any _ _ _ _ _ _ X Y Z B) as (m & a & d & -> & -> & -> & A & D & M). cbn [fst snd] in H.
  destruct (cut_isometry box dmax ra dec m a d A D M) as (s & Es & T). rewrite Es in H. cbn [bind cutsky_from_isometry] in H.
  assert (T0 : forall p, transform s false p = seen ra dec 0 dmax (boxsize box) (boxcenter box) p) by (intros p; rewrite T, seen_straight; reflexivity).
  assert (NZ : forall p, In p pos -> transform s false p <> vzero).
  { intros p I. rewrite T0. apply (C86_front ra dec 0 dmax (boxsize box) (boxcenter box) p (C p I)). lra. }
  assert (T1 : forall p, transform s true p = in_frame ra dec 0 p).
  { intros p. replace (transform s true p) with (vsub (transform s false p) (transform s false vzero)) by (rewrite transform_sub; f_equal; destruct p; vunfold; vsplit; ring).
    rewrite !T0. unfold seen, in_frame. generalize (outward ra dec), (turned_east ra dec 0), (turned_north ra dec 0), (boxcenter box), (boxsize box). intros [? ? ?] [? ? ?] [? ? ?] [? ? ?] [? ? ?].
    destruct p as [? ? ?]. vunfold. vsplit; ring. }
  destruct (cfi1_none box s n pos W P NZ) as (placed & Ec & M1 & K1 & W1). rewrite Ec in H. cbn [bind] in H.
  assert (M2 : moved_by (seen ra dec 0 dmax (boxsize box) (boxcenter box)) (in_frame ra dec 0) (bc_cat box) placed) by (exact (moved_ext _ _ _ _ _ _ T0 T1 M1)).
  assert (Lp : List.length pos = n) by (exact (proj1 W _ _ (lookup_In _ _ _ P))). assert (Lv : List.length vel = n) by (exact (proj1 W _ _ (lookup_In _ _ _ Vl))).
  destruct W as (Wr & Wv & Ip & Ni & Iv & Ivi). pose proof M2 as (_ & Ep & Ev & Mp & Mv & _).
  set (g := seen ra dec 0 dmax (boxsize box) (boxcenter box)) in *.
  assert (Pp : column placed (pc_position placed) = Some (ColV (map g pos))) by (rewrite Ep; apply Mp; [exact P|split; auto]).
  assert (Pv : column placed (pc_velocity placed) = Some (ColV (map (in_frame ra dec 0) vel))) by (rewrite Ev; apply Mv; auto).
  assert (Ep' : position placed = Ok (map g pos)) by (unfold position, get_vec; unfold column in Pp; rewrite Pp; reflexivity).
  assert (Ev' : velocity placed = Ok (map (in_frame ra dec 0) vel)) by (unfold velocity, get_vec; unfold column in Pv; rewrite Pv; reflexivity).
  assert (NZ' : forall q, In q (map g pos) -> q <> vzero) by (intros q I; apply in_map_iff in I; destruct I as (p & <- & I); rewrite <- T0; auto).
  destruct (rsd_local_ok placed _ _ f Ep' Ev' ltac:(rewrite !map_length; congruence) NZ') as (obs & Eo & Rw). rewrite Eo in H. cbn [bind] in H.
  change (call_meant obs) with (map_result (cartesian_to_sky true) obs) in H. destruct (map_result (cartesian_to_sky true) obs) as [sky|] eqn:Esk; [|discriminate]. cbn [bind] in H. injection H as <-.
  destruct (sky_of obs (sky_nonzero _ _ Esk)) as (sky' & Es' & Os). rewrite Esk in Es'. injection Es' as <-.
  assert (Lo : List.length obs = n) by (destruct Rw as [L _]; rewrite L, map_length; auto). pose proof (on_sky_length _ _ Os) as Ls.
  exists placed, obs, sky. split; [exact M2|]. split; [exists (map g pos), (map (in_frame ra dec 0) vel); auto|]. split; [exact Os|]. split; [lia|]. split.
  { intros nm x I. cbn [with_data pc_data] in I. do 4 (apply set_col_In in I; destruct I as [ [_ ->]|I]; [cbn; rewrite ?map_length; lia|]). exact (proj1 W1 nm x I). }
  unfold column. cbn [with_data pc_data]. rewrite !set_col_lookup. cbn [String.eqb Ascii.eqb Bool.eqb]. repeat (split; [reflexivity|]).
  intros nm Hm. cbn in Hm. rewrite !set_col_lookup. destruct (String.eqb_spec nm "DEC"); [subst; exfalso; tauto|]. destruct (String.eqb_spec nm "RA"); [subst; exfalso; tauto|].
  destruct (String.eqb_spec nm "DISTANCE"); [subst; exfalso; tauto|]. destruct (String.eqb_spec nm "RSDPosition"); [subst; exfalso; tauto|]. reflexivity.
Qed.
