Require Import Reals Lra Lia ZArith String List Bool Sorted.
From Verif Require Import Base Vec3 Isometry_Model Isometry_Spec Isometry_Proof Sky_Model Sky_Spec Sky_Proof Cutsky_Model Cutsky_Spec Cutsky_Proof Box_Model Box_Spec Box_Proof Box_Proof2 Box_Proof3 Box_Proof4.
From Verif Require Import Remap_Model Rsd_Model Rsd_Spec Rsd_Proof Mask_Model Script_Model Script_Thm SV3_Model Rosette_Model Rosette_Spec Rosette_Proof Rosette_Proof2.
Import ListNotations.
Open Scope R_scope.

Lemma radial_nonzero : forall f p v q, moved_radially f p v q -> vdot p p + f * vdot p v <> 0 -> q <> vzero.
Proof.
  intros f p v q (u & (k & K & <-) & U & ->) N E. apply N. rewrite vdot_scale_l, vdot_scale_r in U.
  assert (Ed : vdot (vadd p (vscale (f * vdot v (vscale k p)) (vscale k p))) p = 0) by (rewrite E; destruct p; vunfold; ring).
  assert (Eq : vdot (vadd p (vscale (f * vdot v (vscale k p)) (vscale k p))) p = vdot p p + f * vdot p v * (k * (k * vdot p p))) by (clear; destruct p, v; vunfold; ring).
  rewrite Eq, U in Ed. lra.
Qed.
Lemma watched_ok : forall factor f g c placed n pos, wf n c -> wf n placed -> moved_by f g c placed -> column c (pc_position c) = Some (ColV pos) -> (forall p, In p pos -> f p <> vzero) -> watched factor f g c pos ->
  exists obs, observed factor placed obs /\ observed_at factor placed obs /\ List.length obs = n /\ forall q, In q obs -> q <> vzero.
Proof.
  intros factor f g c placed n pos (Wr & Wv & Ip & Ni & Iv & Ivi) W' (Nm & Ep & Ev & Mp & Mv & Mo) P NZ Wt.
  assert (Lp : List.length pos = n) by (exact (Wr _ _ (lookup_In _ _ _ P))).
  assert (Pp : column placed (pc_position placed) = Some (ColV (map f pos))) by (rewrite Ep; apply Mp; [exact P|split; auto]).
  assert (NZ' : forall q, In q (map f pos) -> q <> vzero) by (intros q H; apply in_map_iff in H; destruct H as (p & <- & H); auto).
  destruct factor as [a|]; cbn [observed observed_at watched] in *.
  - destruct Wt as (vel & V & N). assert (Lv : List.length vel = n) by (exact (Wr _ _ (lookup_In _ _ _ V))).
    assert (Pv : column placed (pc_velocity placed) = Some (ColV (map g vel))) by (rewrite Ev; apply Mv; auto).
    assert (Ep' : position placed = Ok (map f pos)) by (unfold position, get_vec; unfold column in Pp; rewrite Pp; reflexivity).
    assert (Ev' : velocity placed = Ok (map g vel)) by (unfold velocity, get_vec; unfold column in Pv; rewrite Pv; reflexivity).
    assert (Ll : List.length (map g vel) = List.length (map f pos)) by (rewrite !map_length; congruence).
    destruct (rsd_local_ok placed _ _ a Ep' Ev' Ll NZ') as (obs & Eo & Rw). exists obs. destruct Rw as [Lo Ro]. rewrite map_length in Lo.
    split; [exists (map f pos), (map g vel); auto 6|]. split; [exists (map f pos), (map g vel); split; auto; split; auto; split; [rewrite map_length; auto|auto]|]. split; [congruence|].
    intros q H. apply In_nth_error in H. destruct H as [k Hk]. assert (Hl : (k < n)%nat) by (rewrite <- Lp, <- Lo; apply nth_error_Some; congruence).
    destruct (nth_error pos k) as [p|] eqn:Hp; [|apply nth_error_None in Hp; lia]. destruct (nth_error vel k) as [v|] eqn:Hv; [|apply nth_error_None in Hv; lia].
    apply (radial_nonzero a (f p) (g v) q); [|eapply N; eauto]. apply (Ro k); auto; rewrite nth_error_map, ?Hp, ?Hv; reflexivity.
  - exists (map f pos). rewrite Ep, Wt in Pp. split; auto. split; auto. split; [rewrite map_length; auto|auto].
Qed.
Lemma group_ok : forall near i g vectors d ra dec ids region factor u c c1 n pos, tile_lookup near (i_in_desi i) -> g_vectors g = Ok vectors -> 0 < d -> 0 <= ra < 360 -> -90 < dec < 90 ->
  remap c (RVectors vectors) = Ok c1 -> 0 < vx (boxsize c1) < i_dmax i -> 0 <= vy (boxsize c1) -> 0 <= vz (boxsize c1) -> fits_in (i_dmax i) (boxsize c1) ->
  wf n (bc_cat c1) -> column (bc_cat c1) (pc_position (bc_cat c1)) = Some (ColV pos) ->
  let f := seen ra dec (g_angle g) (i_dmax i) (boxsize c1) (boxcenter c1) in
  (forall p, In p pos -> f p <> vzero) -> watched factor f (in_frame ra dec (g_angle g)) (bc_cat c1) pos ->
  exists placed obs idx cat, group_catalog i g (sky_point d ra dec) ids region factor u c = Ok cat /\ moved_by f (in_frame ra dec (g_angle g)) (bc_cat c1) placed /\ observed_at factor placed obs /\
    recorded near (i_tiles i) ids (i_prob i region) (i_d2z i) u placed obs idx cat /\ (factor <> None -> column cat "RSDPosition" = Some (ColV (pick idx obs))).
Proof.
  intros near i g vectors d ra dec ids region factor u c c1 n pos T Eg Hd Hra Hdec Er Sx Sy Sz F W P f NZ Wt. unfold group_catalog. rewrite Eg. cbn [bind].
  destruct (place_ok vectors (g_angle g) (i_dmax i) d ra dec c c1 n pos Hd Hra Hdec Er Sx Sy Sz F W P NZ) as (placed & Ep & M & _ & W'). rewrite Ep. cbn [bind].
  destruct (watched_ok factor _ _ _ _ _ _ W W' M P NZ Wt) as (obs & O & Oa & Lo & No).
  destruct (observe_ok factor (i_d2z i) n placed obs (proj1 W') O Lo No) as (cat' & sky & Eo & Os & Wc & Cra & Cdec & Cz & Crsd & Coth & _). rewrite Eo. cbn [bind].
  pose proof (on_sky_length _ _ Os) as Ls. rewrite Lo in Ls.
  destruct (cut_ok near _ (i_tiles i) ids (i_prob i region) u n cat' sky (i_d2z i) T Wc Ls Cra Cdec Cz) as (cat & idx & Ec & (Si & _ & Ck) & _ & Ix).
  exists placed, obs, idx, cat. split; [exact Ec|]. split; [exact M|]. split; [exact Oa|]. split.
  - exists sky. split; [exact Os|]. split; [exact Si|]. split; [exact Ix|]. split; [intros m x Hm Hx; apply Ck; rewrite Coth; auto|]. split; [apply Ck in Cra; exact Cra|]. split; [apply Ck in Cdec; exact Cdec|apply Ck in Cz; exact Cz].
  - intros Hf. destruct factor as [a|]; [|contradiction]. exact (Ck _ _ (Crsd a eq_refl)).
Qed.

(* ---------- the line of sight of a group ---------- *)
Lemma unit_sky : forall ra dec, sky_to_cartesian true None (NFloat 1) (NFloat ra) (NFloat dec) = outward ra dec.
Proof. intros ra dec. unfold outward, sky_point, sky_to_cartesian, conversion. cbn. vunfold. vsplit; ring. Qed.
Lemma los_eq : forall dirs, dirs <> [] -> let l := map (fun x => outward (fst x) (snd x)) dirs in
  group_los dirs = Ok (vscale (/ INR (List.length dirs)) (V (Rsum (map vx l)) (Rsum (map vy l)) (Rsum (map vz l)))).
Proof.
  intros dirs Ne l. unfold group_los. rewrite (map_ext _ (fun x => outward (fst x) (snd x))) by (intros; apply unit_sky). fold l. unfold l at 2 4 6. rewrite map_length. unfold fdiv.
  destruct (Req_EM_T (INR (List.length dirs)) 0) as [Z0|_]; [exfalso; apply (not_0_INR (List.length dirs)); auto; destruct dirs; [contradiction|discriminate]|]. cbn [bind]. f_equal. vunfold. vsplit; unfold Rdiv; ring.
Qed.
Lemma horizon : forall v, vx v * vx v + vy v * vy v <> 0 -> exists d ra dec, v = sky_point d ra dec /\ 0 < d /\ 0 <= ra < 360 /\ -90 < dec < 90.
Proof.
  intros v H. assert (NZ : v <> vzero) by (intros ->; apply H; cbn; ring). destruct (c2s_ok true v NZ) as (d & ra & dec & E). destruct (c2s_sky_point _ _ _ _ E) as (A & B & C & D).
  exists d, ra, dec. split; auto. split; auto. split; auto. assert (X : forall e, (e = 90 \/ e = -90) -> dec <> e).
  { intros e He ->. apply H. rewrite D. assert (Z0 : cos (e * (PI / 180)) = 0) by (destruct He as [-> | ->]; [replace (90 * (PI / 180)) with (PI / 2) by field; apply cos_PI2|replace (-90 * (PI / 180)) with (- (PI / 2)) by field; rewrite cos_neg; apply cos_PI2]).
    unfold sky_point. cbv zeta. cbn [vx vy]. unfold deg in *. rewrite Z0. ring. }
  pose proof (X 90 (or_introl eq_refl)). pose proof (X (-90) (or_intror eq_refl)). lra.
Qed.
Lemma cos_lat : forall dec, -90 < dec < 90 -> 0 < cos (dec * deg).
Proof. intros dec H. pose proof PI_RGT_0. apply cos_gt_0; unfold deg; nra. Qed.
Lemma one_los : forall ra dec, -90 < dec < 90 -> group_los [(ra, dec)] = Ok (outward ra dec) /\ exists d a e, outward ra dec = sky_point d a e /\ 0 < d /\ 0 <= a < 360 /\ -90 < e < 90.
Proof.
  intros ra dec H. split.
  - rewrite los_eq by discriminate. f_equal. unfold Rsum. cbn [map fold_right List.length INR fst snd]. rewrite Rinv_1. destruct (outward ra dec). vunfold. vsplit; ring.
  - apply horizon. unfold outward, sky_point. cbv zeta. cbn [vx vy]. fold deg. pose proof (cos_lat dec H) as C. pose proof (sc1 (ra * deg)) as S. intros E.
    assert (cos (dec * deg) * cos (dec * deg) = 0); [|nra]. rewrite <- E. transitivity (cos (dec * deg) * cos (dec * deg) * (cos (ra * deg) * cos (ra * deg) + sin (ra * deg) * sin (ra * deg))); [|ring].
    replace (cos (ra * deg) * cos (ra * deg) + sin (ra * deg) * sin (ra * deg)) with 1 by nra. ring.
Qed.
Lemma two_los : forall a1 d1 a2 d2, -90 < d1 < 90 -> -90 < d2 < 90 -> Rabs (a1 - a2) < 180 ->
  exists d ra dec, group_los [(a1, d1); (a2, d2)] = Ok (sky_point d ra dec) /\ 0 < d /\ 0 <= ra < 360 /\ -90 < dec < 90 /\
    sky_point d ra dec = vscale (1 / 2) (vadd (outward a1 d1) (outward a2 d2)) /\ vdot (outward ra dec) (outward a1 d1) = vdot (outward ra dec) (outward a2 d2) /\ 0 < vdot (outward ra dec) (outward a1 d1).
Proof.
  intros a1 d1 a2 d2 H1 H2 Ha. set (los := vscale (1 / 2) (vadd (outward a1 d1) (outward a2 d2))).
  assert (El : group_los [(a1, d1); (a2, d2)] = Ok los).
  { rewrite los_eq by discriminate. f_equal. unfold Rsum. cbn [map fold_right List.length INR fst snd]. unfold los. destruct (outward a1 d1), (outward a2 d2). vunfold. vsplit; field. }
  assert (Hn : vx los * vx los + vy los * vy los <> 0).
  { unfold los, outward, sky_point. cbv zeta. cbn [vx vy vadd vscale]. fold deg. pose proof (cos_lat d1 H1) as C1. pose proof (cos_lat d2 H2) as C2.
    assert (K : -1 < cos (a1 * deg - a2 * deg)).
    { apply Rabs_def2 in Ha. pose proof PI_RGT_0. rewrite <- cos_PI. replace (a1 * deg - a2 * deg) with ((a1 - a2) * deg) by ring. unfold deg.
      destruct (Rle_dec 0 (a1 - a2)); [apply cos_decreasing_1; nra|]. rewrite <- (cos_neg ((a1 - a2) * (PI / 180))). apply cos_decreasing_1; nra. }
    rewrite cos_minus in K. pose proof (sc1 (a1 * deg)) as S1. pose proof (sc1 (a2 * deg)) as S2. revert K S1 S2 C1 C2.
    generalize (cos (d1 * deg)) (cos (d2 * deg)) (cos (a1 * deg)) (cos (a2 * deg)) (sin (a1 * deg)) (sin (a2 * deg)). intros c1 c2 x1 x2 y1 y2 K S1 S2 C1 C2 E.
    assert (E2 : c1 * c1 * (x1 * x1 + y1 * y1) + c2 * c2 * (x2 * x2 + y2 * y2) + 2 * (c1 * c2) * (x1 * x2 + y1 * y2) = 0) by (apply (f_equal (Rmult 4)) in E; rewrite Rmult_0_r in E; rewrite <- E; field).
    replace (x1 * x1 + y1 * y1) with 1 in E2 by nra. replace (x2 * x2 + y2 * y2) with 1 in E2 by nra. assert (0 < c1 * c2) by nra. assert (0 <= (c1 - c2) * (c1 - c2)) by (apply (Rle_0_sqr (c1 - c2))). assert (0 < c1 * c2 * (1 + (x1 * x2 + y1 * y2))) by (apply Rmult_lt_0_compat; lra). lra. }
  destruct (horizon los Hn) as (d & ra & dec & E & Hd & Hra & Hdec). exists d, ra, dec. rewrite <- E. split; auto. split; auto. split; auto. split; auto. split; [reflexivity|].
  assert (Es : los = vscale d (outward ra dec)) by (rewrite E; unfold outward, sky_point; cbv zeta; vunfold; vsplit; ring).
  assert (U1 : vdot (outward a1 d1) (outward a1 d1) = 1) by (apply outward_unit). assert (U2 : vdot (outward a2 d2) (outward a2 d2) = 1) by (apply outward_unit).
  assert (F1 : d * vdot (outward ra dec) (outward a1 d1) = (1 + vdot (outward a1 d1) (outward a2 d2)) / 2).
  { rewrite <- vdot_scale_l, <- Es. transitivity ((vdot (outward a1 d1) (outward a1 d1) + vdot (outward a1 d1) (outward a2 d2)) / 2); [|rewrite U1; reflexivity]. unfold los. destruct (outward a1 d1), (outward a2 d2). vunfold. field. }
  assert (F2 : d * vdot (outward ra dec) (outward a2 d2) = (1 + vdot (outward a1 d1) (outward a2 d2)) / 2).
  { rewrite <- vdot_scale_l, <- Es. transitivity ((vdot (outward a2 d2) (outward a2 d2) + vdot (outward a1 d1) (outward a2 d2)) / 2); [|rewrite U2; reflexivity]. unfold los. destruct (outward a1 d1), (outward a2 d2). vunfold. field. }
  split; [apply Rmult_eq_reg_l with d; lra|]. 
  assert (Ln : vdot los los = (1 + vdot (outward a1 d1) (outward a2 d2)) / 2).
  { transitivity ((vdot (outward a1 d1) (outward a1 d1) + vdot (outward a2 d2) (outward a2 d2) + 2 * vdot (outward a1 d1) (outward a2 d2)) / 4); [|rewrite U1, U2; field]. unfold los. destruct (outward a1 d1), (outward a2 d2). vunfold. field. }
  assert (0 < vdot los los). { pose proof (Rle_0_sqr (vx los)) as Q1. pose proof (Rle_0_sqr (vy los)) as Q2. pose proof (Rle_0_sqr (vz los)) as Q3. unfold Rsqr, vdot in *. destruct (Rdichotomy _ _ Hn); lra. }
  rewrite Ln, <- F1 in H. nra.
Qed.
