(** Property C94: moves are undone by the opposite moves, listed in Undo_Spec.v. *)
Require Import Reals Lra Lia ZArith String List Bool.
From Verif Require Import Base Vec3 Isometry_Model Isometry_Spec Isometry_Proof Sky_Model Cutsky_Model Box_Model Box_Spec Box_Proof Box_Proof5 Box_Thm Unit_Spec Rsd_Model Rsd_Spec Rsd_Proof Rsd_Thm Mask_Model Mask_Spec Mask_Thm
  Blind_Model Blind_Spec Blind_Thm2 Undo_Spec Undo_Proof.
Import ListNotations.
Open Scope R_scope.

(** Any history of translations and quarter turns of a catalog, followed by the opposite moves in reverse order: none raises, and the catalog and its box are as before. *)
Theorem C94_catalogs : forall c calls back, Forall2 opposite calls back -> vectors_ok (bc_cat c) -> box_sides (boxsize c) -> box_run c (calls ++ rev back) = Ok c.
Proof. intros c calls back H W S. apply history_back; auto. Qed.
Print Assumptions C94_catalogs.
(** The same with isometries: the object is as before, so all positions and vectors are. *)
Theorem C94_isometries : forall s calls back, Forall2 opposite_iso calls back -> iso_run s (calls ++ rev back) = Ok s.
Proof. intros s calls back H. apply iso_history_back; auto. Qed.
Print Assumptions C94_isometries.

(** Redshift space distortions along an axis or a direction. *)
Theorem C94_rsd_fixed : forall c pos vel los u f, position c = Ok pos -> velocity c = Ok vel -> length vel = length pos -> pc_position c <> pc_velocity c -> los_means los u ->
  exists out, rsd_position c (FNum f) (Some los) = Ok out /\ rsd_position (with_positions c out) (FNum (- f)) (Some los) = Ok pos.
Proof.
  intros c pos vel los u f P W L N M. destruct (C20_fixed_line_of_sight c pos vel los u f P W L M) as (out & E & RR). exists out. split; auto.
  destruct (C20_fixed_line_of_sight (with_positions c out) out vel los u (- f)) as (out' & E' & RR'); [apply with_position|rewrite with_velocity; auto|destruct RR; congruence|auto|]. rewrite E'. f_equal.
  apply (rows_back (moved_along u f) pos vel out out' L RR). exists (moved_along u (- f)). split; auto. intros p v q r _ _ [_ ->] [_ ->]. destruct p, u; unfold vadd, vscale, vdot; cbn. f_equal; ring.
Qed.
Print Assumptions C94_rsd_fixed.
Lemma direction_parallel : forall p u, same_direction p u -> vdot u u = 1 -> exists k, 0 < k /\ p = vscale k u /\ vnorm p = k.
Proof.
  intros p u (k & K & <-) U. assert (0 < / k) by (apply Rinv_0_lt_compat; auto). exists (/ k). split; auto.
  split; [destruct p; unfold vscale; cbn; f_equal; field; lra|]. unfold vnorm. replace (vdot p p) with ((/ k) ^ 2). 
  - replace ((/ k) ^ 2) with (Rsqr (/ k)) by (unfold Rsqr; ring). apply sqrt_Rsqr. lra.
  - assert (X : vdot (vscale k p) (vscale k p) = k ^ 2 * vdot p p) by (destruct p; unfold vdot, vscale; cbn; ring). rewrite X in U. replace (vdot p p) with ((k ^ 2 * vdot p p) / k ^ 2) by (field; lra). rewrite U. field. lra.
Qed.
(** From the observer, also through it: unless an object is put there. *)
Theorem C94_rsd_local : forall c pos vel f, position c = Ok pos -> velocity c = Ok vel -> length vel = length pos -> pc_position c <> pc_velocity c -> ~ In vzero pos ->
  exists out, rsd_position c (FNum f) None = Ok out /\ (~ In vzero out -> rsd_position (with_positions c out) (FNum (- f)) None = Ok pos) /\ (In vzero out -> rsd_position (with_positions c out) (FNum (- f)) None = Err ZeroDivision).
Proof.
  intros c pos vel f P W L N Z. destruct (C20_local_line_of_sight c pos vel f P W L) as (out & E & RR); [intros p I ->; auto|]. exists out. split; auto. split.
  - intros ZO. destruct (C20_local_line_of_sight (with_positions c out) out vel (- f)) as (out' & E' & RR'); [apply with_position|rewrite with_velocity; auto|destruct RR; congruence|intros p I ->; auto|]. rewrite E'. f_equal.
    apply (rows_back (moved_radially f) pos vel out out' L RR). exists (moved_radially (- f)). split; auto. intros p v q r I J (u & D & [U Q]) (w & D' & [U' ->]).
    destruct (direction_parallel p u D U) as (k & K & PK & _). destruct (direction_parallel q w D' U') as (k' & K' & QK & _).
    set (s := f * vdot v u) in *. assert (QS : q = vscale (k + s) u) by (rewrite Q, PK; destruct u; unfold vadd, vscale; cbn; f_equal; ring).
    assert (SQ : (k + s) ^ 2 = k' ^ 2).
    { assert (vdot q q = k' ^ 2) by (rewrite QK; replace (vdot (vscale k' w) (vscale k' w)) with (k' ^ 2 * vdot w w) by (destruct w; unfold vdot, vscale; cbn; ring); rewrite U'; ring).
      rewrite QS in H. replace (vdot (vscale (k + s) u) (vscale (k + s) u)) with ((k + s) ^ 2 * vdot u u) in H by (destruct u; unfold vdot, vscale; cbn; ring). rewrite U in H. lra. }
    assert (WU : exists e, w = vscale e u /\ e ^ 2 = 1).
    { exists ((k + s) / k'). split; [|replace (((k + s) / k') ^ 2) with ((k + s) ^ 2 / k' ^ 2) by (field; lra); rewrite SQ; field; lra]. assert (w = vscale (/ k') q) by (rewrite QK; destruct w; unfold vscale; cbn; f_equal; field; lra). rewrite H, QS. destruct u; unfold vscale; cbn. f_equal; field; lra. }
    destruct WU as (e & -> & E2). rewrite Q. assert (X : vdot v (vscale e u) = e * vdot v u) by (destruct u; unfold vdot, vscale; cbn; ring). rewrite X. replace (vscale (- f * (e * vdot v u)) (vscale e u)) with (vscale (- (e ^ 2) * s) u) by (unfold s; destruct u; unfold vscale; cbn; f_equal; ring).
    rewrite E2. destruct p, u; unfold vadd, vscale; cbn. f_equal; ring.
  - intros ZO. apply (C20_observer_position _ out vel); auto; [apply with_position|rewrite with_velocity; auto].
Qed.
Print Assumptions C94_rsd_local.

(** Rescaling of distances between two cosmologies. *)
Theorem C94_rescaling_cartesian : forall fid blind d2z dtype d z l, floating (cast dtype d) = true -> floating (cast dtype F8) = true ->
  Forall (fun p => p <> vzero /\ d2z (c_distance fid) (dist3 p vzero) = Ok (z p) /\ c_distance fid (z p) = dist3 p vzero /\ 0 < c_distance blind (z p) /\ d2z (c_distance blind) (c_distance blind (z p)) = Ok (z p)) l ->
  exists l', ap fid blind d2z "pos" dtype (as_pos d l) = Ok (as_pos F8 l') /\ ap blind fid d2z "pos" dtype (as_pos F8 l') = Ok (as_pos F8 l) /\
    ap fid blind d2z "xyz" dtype (as_xyz d l) = Ok (as_xyz F8 l') /\ ap blind fid d2z "xyz" dtype (as_xyz F8 l') = Ok (as_xyz F8 l).
Proof.
  intros fid blind d2z dtype d z l F F' H. destruct (C43_cartesian fid blind d2z dtype d z l F) as (l' & E1 & E2 & EA); [eapply Forall_impl; [|exact H]; cbn; tauto|]. exists l'.
  set (z' := fun q => match d2z (c_distance blind) (dist3 q vzero) with Ok z => z | Err _ => 0 end).
  assert (B : each (fun q p => q <> vzero /\ d2z (c_distance blind) (dist3 q vzero) = Ok (z p) /\ c_distance fid (z p) = dist3 p vzero /\ 0 < dist3 p vzero /\ same_direction p q) l' l).
  { unfold each in *. clear E1 E2. induction EA as [|p q l l' [D E] EA IH]; [constructor|]. inversion H as [|? ? (P & Z1 & Z2 & BP & Z3) H']; subst. constructor; [|apply IH; auto].
    pose proof (vnorm_pos p P) as VP. rewrite <- dist3_origin in VP. split; [|rewrite E; auto]. intros ->. destruct D as (k & K & D). apply P. destruct p. unfold vscale, vzero in D. cbn in D. injection D as D1 D2 D3. unfold vzero. f_equal; nra. }
  destruct (C43_cartesian blind fid d2z dtype F8 z' l' F') as (l'' & E3 & E4 & EB).
  { clear - B. unfold each in B. unfold z'. induction B as [|q p l' l (Q & Z1 & Z2 & DP & _) B IH]; constructor; auto. rewrite Z1. rewrite Z2. auto. }
  assert (l'' = l).
  { clear - B EB. unfold each in *. revert l B. induction EB as [|q r l' l'' [D E] EB IH]; intros l B; inversion B as [|? p ? l0 (Q & Z1 & Z2 & DP & D') B']; subst; auto. f_equal; [|apply IH; auto]. unfold z' in E. rewrite Z1, Z2 in E.
    destruct D as (k & K & <-), D' as (k' & K' & <-). rewrite !dist3_origin, !vnorm_scale, !Rabs_pos_eq in E by lra. rewrite dist3_origin in DP. assert (NP : vnorm p <> 0) by lra. assert (KK : k * k' = 1) by (apply (Rmult_eq_reg_r (vnorm p)); auto; lra).
    replace (vscale k (vscale k' p)) with (vscale (k * k') p) by (destruct p; unfold vscale; cbn; f_equal; ring). rewrite KK. destruct p; unfold vscale; cbn; f_equal; ring. }
  subst l''. auto.
Qed.
Print Assumptions C94_rescaling_cartesian.
(** Right ascension, declination, distance. *)
Theorem C94_rescaling_rdd : forall fid blind d2z dtype d z l, floating (cast dtype d) = true -> floating (cast dtype F8) = true ->
  Forall (fun s => on_sky s /\ d2z (c_distance fid) (snd s) = Ok (z s) /\ c_distance fid (z s) = snd s /\ 0 < c_distance blind (z s) /\ d2z (c_distance blind) (c_distance blind (z s)) = Ok (z s)) l ->
  exists l', ap fid blind d2z "rdd" dtype (as_sky d l) = Ok (as_sky F8 l') /\ ap blind fid d2z "rdd" dtype (as_sky F8 l') = Ok (as_sky F8 l).
Proof.
  intros fid blind d2z dtype d z l F F' H. eexists. split; [apply (C43_rdd fid blind d2z dtype d z l F); eapply Forall_impl; [|exact H]; cbn; tauto|].
  set (z' := fun s : R * R * R => match d2z (c_distance blind) (snd s) with Ok z => z | Err _ => 0 end). rewrite (C43_rdd blind fid d2z dtype F8 z' _ F').
  - do 2 f_equal. rewrite map_map. rewrite <- (map_id l) at 2. apply map_ext_in. intros s I. rewrite Forall_forall in H. destruct (H s I) as (_ & _ & E & _ & E'). unfold z'. cbn [fst snd]. rewrite E', E. destruct s; auto.
  - rewrite Forall_map. eapply Forall_impl; [|exact H]. intros [[ra dec] r] ((O1 & O2 & O3) & E1 & E2 & BP & E3). unfold z'. cbn [fst snd] in *. rewrite E3. repeat split; auto; try lra; apply O1.
Qed.
Print Assumptions C94_rescaling_rdd.
Lemma rdz_exactly : forall fid blind d2z dtype d z l, floating (cast dtype d) = true ->
  Forall (fun s => on_sky s /\ 0 < c_distance blind (snd s) /\ d2z (c_distance fid) (c_distance blind (snd s)) = Ok (z s)) l ->
  ap fid blind d2z "rdz" dtype (as_sky d l) = Ok (as_sky F8 (map (fun s => (fst s, z s)) l)).
Proof.
  intros fid blind d2z dtype d z l F H. unfold ap. cbn [String.eqb Ascii.eqb Bool.eqb]. rewrite fmt_rdd by auto. cbn [bind]. rewrite (ap_sky true _ _ snd l); [|eapply Forall_impl; [|exact H]; cbn; tauto].
  cbn [bind]. rewrite <- (map_map (fun s : R * R * R => (fst s, c_distance blind (snd s))) (s2c (fun r => r))). unfold format_output_positions. cbn [String.eqb Ascii.eqb Bool.eqb]. rewrite sky_rows_ok.
  - cbn [bind]. rewrite !map_map. cbn [map]. rewrite (map_result_ok _ (fun x => match d2z (c_distance fid) x with Ok z => z | Err _ => 0 end)).
    + cbn [bind]. unfold as_sky. rewrite !map_map. do 6 f_equal. apply map_ext_in. intros s I. rewrite Forall_forall in H. destruct (H s I) as (_ & _ & E). cbn. rewrite E. auto.
    + rewrite Forall_map. eapply Forall_impl; [|exact H]. intros s (_ & _ & E). cbn. rewrite E. auto.
  - rewrite Forall_map. eapply Forall_impl; [|exact H]. intros [[ra dec] r] ((O1 & O2 & O3) & BP & _). cbn. auto.
Qed.
(** Right ascension, declination, redshift: [z] is the redshift that each object is given. *)
Theorem C94_rescaling_rdz : forall fid blind d2z dtype d z l, floating (cast dtype d) = true -> floating (cast dtype F8) = true ->
  Forall (fun s => on_sky s /\ 0 < c_distance blind (snd s) /\ d2z (c_distance fid) (c_distance blind (snd s)) = Ok (z s) /\ 0 < z s /\ c_distance fid (z s) = c_distance blind (snd s) /\ d2z (c_distance blind) (c_distance blind (snd s)) = Ok (snd s)) l ->
  exists l', ap fid blind d2z "rdz" dtype (as_sky d l) = Ok (as_sky F8 l') /\ ap blind fid d2z "rdz" dtype (as_sky F8 l') = Ok (as_sky F8 l).
Proof.
  intros fid blind d2z dtype d z l F F' H. eexists. split; [apply (rdz_exactly fid blind d2z dtype d z l F); eapply Forall_impl; [|exact H]; cbn; tauto|].
  set (z' := fun s : R * R * R => match d2z (c_distance blind) (c_distance fid (snd s)) with Ok z => z | Err _ => 0 end). rewrite (rdz_exactly blind fid d2z dtype F8 z' _ F').
  - do 2 f_equal. rewrite map_map. rewrite <- (map_id l) at 2. apply map_ext_in. intros s I. rewrite Forall_forall in H. destruct (H s I) as (_ & _ & _ & _ & E & E'). unfold z'. cbn [fst snd]. rewrite E, E'. destruct s; auto.
  - rewrite Forall_map. eapply Forall_impl; [|exact H]. intros [[ra dec] r] ((O1 & O2 & O3) & BP & E1 & ZP & E2 & E3). unfold z'. cbn [fst snd] in *. rewrite E2, E3. repeat split; auto; try lra; apply O1.
Qed.
Print Assumptions C94_rescaling_rdz.
(** A mask converted to another cosmology and back has its densities again. *)
Theorem C94_masks : forall m distance_self distance_target zedges m' m'', built m ->
  convert_to_cosmo m distance_self distance_target zedges = Ok m' -> convert_to_cosmo m' distance_target distance_self zedges = Ok m'' -> t_nbar m'' = t_nbar m.
Proof. exact C33_back. Qed.
Print Assumptions C94_masks.

(** What cannot be undone. Quarter turns of a catalog around the default axis: the box that comes back is another one (cf. C12_default_axis_refuted). *)
Definition tower : boxcat := BoxCat (pcat_new [] "Position" "Velocity" [] []) (V 1 1 10) (V 0 0 0).
Definition total (p : vec) : R := vx p + vy p + vz p.
Lemma diagonal_turn : forall size center k (s : R), s = sin (IZR k * PI / 2) -> cos (IZR k * PI / 2) = 0 ->
  rotate (BoxCat (bc_cat tower) size center) k AxNone = Ok (BoxCat (bc_cat tower) (vabs (mapply (axis_rot (vscale (/ sqrt 3) (V 1 1 1)) 0 s) size)) (mapply (axis_rot (vscale (/ sqrt 3) (V 1 1 1)) 0 s) center)).
Proof.
  intros size center k s Hs Hc. assert (S3 : sqrt 3 * sqrt 3 = 3) by (apply sqrt_sqrt; lra). assert (P3 : 0 < sqrt 3) by (apply sqrt_lt_R0; lra).
  assert (NZ : V 1 1 1 <> vzero) by (intros H; apply (f_equal vx) in H; cbn in H; lra).
  assert (G : get_los AxNone = Ok (vscale (/ sqrt 3) (V 1 1 1))). { cbn. rewrite normalize_ok by auto. rewrite vnorm_111. reflexivity. }
  unfold rotate. rewrite (iso_rotation_rad _ _ _ _ _ G). cbn [iso_ok bind rot tra iso_new tower bc_cat]. cbn [boxcenter boxsize]. rewrite Hc, <- Hs.
  match goal with |- context [transform_vectors ?s ?c] => assert (E : transform_vectors s c = Ok c) by reflexivity; rewrite E end. cbn [bind]. rewrite !transform_linear. reflexivity.
Qed.
Theorem C94_default_axis_refuted : exists c c' c'', vectors_ok (bc_cat c) /\ box_sides (boxsize c) /\ rotate c 1 AxNone = Ok c' /\ rotate c' (-1) AxNone = Ok c'' /\ boxsize c'' <> boxsize c.
Proof.
  assert (S3 : sqrt 3 * sqrt 3 = 3) by (apply sqrt_sqrt; lra). assert (P3 : 0 < sqrt 3) by (apply sqrt_lt_R0; lra).
  set (u := / sqrt 3). assert (U : u * u = 1 / 3) by (unfold u; rewrite <- Rinv_mult; rewrite S3; lra).
  assert (U3 : u = sqrt 3 / 3). { unfold u. apply (Rmult_eq_reg_l (sqrt 3)); [|lra]. rewrite Rinv_r by lra. lra. }
  exists tower. do 2 eexists. split; [intros ? ? []|]. split; [unfold box_sides; cbn; lra|]. split; [apply (diagonal_turn (V 1 1 10) (V 0 0 0) 1 1); replace (1 * PI / 2) with (PI / 2) by field; [rewrite sin_PI2|apply cos_PI2]; auto|].
  split; [apply (diagonal_turn _ _ (-1) (-1)); replace (-1 * PI / 2) with (- (PI / 2)) by field; [rewrite sin_neg, sin_PI2|rewrite cos_neg; apply cos_PI2]; auto|]. cbn [boxsize tower].
  assert (E1 : mapply (axis_rot (vscale (/ sqrt 3) (V 1 1 1)) 0 1) (V 1 1 10) = V (4 + 3 * sqrt 3) (4 - 3 * sqrt 3) 4).
  { fold u. unfold axis_rot, outer, cross_matrix. vunfold. f_equal; ring_simplify; rewrite ?U3; ring_simplify; rewrite ?pow2_sqrt by lra; nra. }
  rewrite E1. intros H. assert (T : forall v, total (mapply (axis_rot (vscale u (V 1 1 1)) 0 (-1)) v) = total v).
  { intros v. unfold total, axis_rot, outer, cross_matrix. destruct v as [a b c]. vunfold. transitivity (3 * (u * u) * (a + b + c)); [ring|]. rewrite U. field. }
  apply (f_equal total) in H. assert (A : forall v, total v <= total (vabs v)) by (intros [a b c]; unfold total, vabs; cbn; pose proof (Rle_abs a); pose proof (Rle_abs b); pose proof (Rle_abs c); lra).
  pose proof (A (mapply (axis_rot (vscale u (V 1 1 1)) 0 (-1)) (vabs (V (4 + 3 * sqrt 3) (4 - 3 * sqrt 3) 4)))) as A1. rewrite T in A1. fold u in H. rewrite H in A1. unfold total, vabs in A1. cbn in A1.
  rewrite Rabs_pos_eq, (Rabs_left1 (4 - _)), Rabs_pos_eq in A1 by nra. nra.
Qed.
Print Assumptions C94_default_axis_refuted.

(** A history with an offset given by a list, one along an axis, and turns; a cosmology and its inverse. *)
Example C94_case : Forall2 opposite [Translate (ShVec (V 1 2 3)) AxNone; Rotate 1 (AxStr "y"); Rotate 6 (AxIdx 2)] [Translate (ShVec (V (-1) (-2) (-3))) AxNone; Rotate (-1) (AxIdx 1); Rotate 2 (AxStr "z")] /\
  vectors_ok (bc_cat two_particles) /\ box_sides (boxsize tower) /\
  Forall2 opposite_iso [IRotate 30 (AxStr "x") true; IMatrix (M (V 2 0 0) (V 0 1 0) (V 0 0 1))] [IRotate (- PI / 6) (AxStr "x") false; IMatrix (M (V (1 / 2) 0 0) (V 0 1 0) (V 0 0 1))] /\
  (let F := line_cosmology 3000 in let B := line_cosmology 3100 in
   Forall (fun s => on_sky s /\ line_inverse (c_distance F) (snd s) = Ok (snd s / (3000 * 1)) /\ c_distance F (snd s / (3000 * 1)) = snd s /\ 0 < c_distance B (snd s / (3000 * 1)) /\ line_inverse (c_distance B) (c_distance B (snd s / (3000 * 1))) = Ok (snd s / (3000 * 1))) [(10, 20, 1500); (350, -60, 700)]).
Proof.
  split; [constructor; [|constructor; [|constructor; [|constructor]]]|split; [apply C12_case|split; [unfold box_sides; cbn; lra|split]]].
  - apply opposite_shift with (v := V 1 2 3); [constructor|]. replace (vopp (V 1 2 3)) with (V (-1) (-2) (-3)) by (unfold vopp; cbn; f_equal; ring). constructor.
  - apply opposite_turn with (a := Y); cbn; auto.
  - apply opposite_turn with (a := Z); cbn; auto.
  - constructor; [apply opposite_rotate with (u := V 1 0 0); try constructor; unfold in_radians; field|]. constructor; [|constructor]. apply opposite_matrix. intros [x y z]. vunfold. f_equal; field.
  - assert (D : forall s x, s <> 0 -> line_inverse (c_distance (line_cosmology s)) x = Ok (x / (s * 1))) by (intros s x N; unfold line_inverse, fdiv; cbn; destruct (Req_EM_T (s * 1) 0); [exfalso; apply N; lra|auto]).
    constructor; [|constructor; [|constructor]]; unfold on_sky; cbn [snd]; rewrite !D by lra; cbn; repeat split; try lra; f_equal; field.
Qed.
