(** C96: no direction is special. *)
Require Import Reals Lra Lia ZArith String List Bool.
From Verif Require Import Base Vec3 Isometry_Model Isometry_Spec Isometry_Proof Sky_Model Sky_Spec Sky_Proof Cutsky_Model Box_Model Box_Spec Unit_Spec Rsd_Model Rsd_Spec Rsd_Proof Mock_Model Axes_Spec Axes_Proof.
From Verif Require Blind_Model.
Import ListNotations.
Open Scope R_scope.

(** Distances, and projections on a direction: rows, and one or all directions. *)
Theorem C96_projections : forall q, orthogonal q ->
  (forall p, distance (mapply q p) = distance p) /\
  (forall vs ds, vector_projection (map (mapply q) vs) (map (mapply q) ds) = result_map (map (mapply q)) (vector_projection vs ds)).
Proof. intros q Q. split; intros; [apply turn_distance|apply turn_projections]; auto. Qed.
Print Assumptions C96_projections.

(** Redshift space distortions of a catalog: along a direction that is turned with it, or from the observer. *)
Theorem C96_rsd : forall q c f los los', orthogonal q -> declared c ->
  match los, los' with Some a, Some a' => exists u, los_means a u /\ los_means a' (mapply q u) | None, None => True | _, _ => False end ->
  rsd_position (pcat_as (mapply q) c) (FNum f) los' = result_map (map (mapply q)) (rsd_position c (FNum f) los).
Proof. exact turn_rsd. Qed.
Print Assumptions C96_rsd.

(** A growth rate that depends on the distance makes axes special, in a catalog of three objects (its values are multiplied by axis, not by object). *)
Theorem C96_rsd_callable_refuted : exists q c f a a' u p, orthogonal q /\ declared c /\ los_means a u /\ los_means a' (mapply q u) /\
  rsd_position c (FFun f) (Some a) = Ok p /\ rsd_position (pcat_as (mapply q) c) (FFun f) (Some a') <> Ok (map (mapply q) p).
Proof.
  set (q := M (V 0 0 1) (V 1 0 0) (V 0 1 0)).
  set (c := PCat [("Position"%string, ColV [V 1 0 0; V 2 0 0; V 3 0 0]); ("Velocity"%string, ColV [V 1 0 0; V 1 0 0; V 1 0 0])] "Position" "Velocity" ["Position"%string; "Velocity"%string] ["Velocity"%string]).
  exists q, c, (fun d => d), (AxStr "x"), (AxStr "y"), (V 1 0 0), [V 2 0 0; V 3 0 0; V 4 0 0].
  assert (D : forall t, 0 <= t -> sqrt (t ^ 2 + 0 ^ 2 + 0 ^ 2) = t /\ sqrt (0 ^ 2 + t ^ 2 + 0 ^ 2) = t) by (intros t T; split; [replace (t ^ 2 + 0 ^ 2 + 0 ^ 2) with (t * t) by ring|replace (0 ^ 2 + t ^ 2 + 0 ^ 2) with (t * t) by ring]; apply sqrt_square; auto).
  assert (Q : forall t, mapply q (V t 0 0) = V 0 t 0) by (intros; unfold q, mapply, vdot; cbn; f_equal; ring).
  split; [intros [] []; unfold q, mapply, vdot; cbn; ring|]. split; [split; reflexivity|]. split; [constructor|]. rewrite Q. split; [constructor|].
  assert (P1 : vector_projection1 (V 1 0 0) (V 1 0 0) = Ok (V 1 0 0)) by (rewrite projection_is; unfold vdot; cbn [vx vy vz]; replace (1 * 1 + 0 * 0 + 0 * 0) with 1 by ring; rewrite sqrt_1; destruct (Req_EM_T 1 0); [lra|]; unfold vscale; cbn [vx vy vz]; do 2 f_equal; field).
  assert (P2 : vector_projection1 (V 0 1 0) (V 0 1 0) = Ok (V 0 1 0)) by (rewrite projection_is; unfold vdot; cbn [vx vy vz]; replace (0 * 0 + 1 * 1 + 0 * 0) with 1 by ring; rewrite sqrt_1; destruct (Req_EM_T 1 0); [lra|]; unfold vscale; cbn [vx vy vz]; do 2 f_equal; field).
  assert (L1 : get_los (AxStr "x") = Ok (V 1 0 0)) by (apply (proj1 (los_means_ok _ _ lm_x))). assert (L2 : get_los (AxStr "y") = Ok (V 0 1 0)) by (apply (proj1 (los_means_ok _ _ lm_y))).
  unfold rsd_position. rewrite L1, L2. split.
  - replace (position c) with (Ok [V 1 0 0; V 2 0 0; V 3 0 0]) by reflexivity. replace (velocity c) with (Ok [V 1 0 0; V 1 0 0; V 1 0 0]) by reflexivity. cbn [bind]. unfold vector_projection. cbn [length repeat map2_result]. rewrite P1. cbn [bind map scale_inplace].
    unfold distance. cbn [vx vy vz]. rewrite !(fun t T => proj1 (D t T)) by lra. unfold vmul. cbn [map vx vy vz map2_result bind]. unfold vadd. cbn [vx vy vz]. repeat f_equal; ring.
  - replace (position (pcat_as (mapply q) c)) with (Ok (map (mapply q) [V 1 0 0; V 2 0 0; V 3 0 0])) by reflexivity. replace (velocity (pcat_as (mapply q) c)) with (Ok (map (mapply q) [V 1 0 0; V 1 0 0; V 1 0 0])) by reflexivity. cbn [map]. rewrite !Q. cbn [bind]. unfold vector_projection. cbn [length repeat map2_result]. rewrite P2. cbn [bind map scale_inplace].
    unfold distance. cbn [vx vy vz]. rewrite !(fun t T => proj2 (D t T)) by lra. unfold vmul. cbn [map vx vy vz map2_result bind]. unfold vadd. cbn [vx vy vz]. intro E. injection E. intros. lra.
Qed.
Print Assumptions C96_rsd_callable_refuted.

(** Blinding of Cartesian positions: distances are rescaled, the same in all directions. *)
Theorem C96_rescaling : forall q fid blind d2z dtype t pos, orthogonal q ->
  (exists out, Blind_Model.ap fid blind d2z "pos" dtype (pos_array t pos) = Ok (pos_array Blind_Model.F8 out) /\ Blind_Model.ap fid blind d2z "pos" dtype (pos_array t (map (mapply q) pos)) = Ok (pos_array Blind_Model.F8 (map (mapply q) out))) \/
  (exists e, Blind_Model.ap fid blind d2z "pos" dtype (pos_array t pos) = Err e /\ Blind_Model.ap fid blind d2z "pos" dtype (pos_array t (map (mapply q) pos)) = Err e).
Proof.
  intros q fid blind d2z dtype t pos Q. unfold Blind_Model.ap. cbn [String.eqb Ascii.eqb Bool.eqb]. unfold Blind_Model.format_positions, pos_array. cbn [String.eqb Ascii.eqb Bool.eqb Blind_Model.as_array bind].
  destruct (negb (Blind_Model.floating _)); [right; exists ValueError; split; reflexivity|]. cbn [Nat.eqb negb bind].
  assert (R0 : forall l, map Blind_Model.row_vec (map (fun p => [vx p; vy p; vz p]) l) = l) by (intros l; rewrite map_map; induction l as [|[] l IH]; cbn [map]; [auto|rewrite IH; auto]).
  rewrite !R0, ap_rows by auto. destruct (map_result _ pos) as [out|e]; cbn [bind result_map]; [left; exists out|right; exists e]; split; reflexivity.
Qed.
Print Assumptions C96_rescaling.

(** Turning about the polar axis by an angle in degrees or in radians adds it to the right ascension; points on the axis do not move. *)
Theorem C96_pole : forall degree angle p, 
  (vx p <> 0 \/ vy p <> 0 -> exists d ra dec ra', cartesian_to_sky degree p = Ok (d, ra, dec) /\
     cartesian_to_sky degree (about_pole (angle * (2 * PI / full_turn degree)) p) = Ok (d, ra', dec) /\ 0 <= ra' < full_turn degree /\ same_angle degree ra' (ra + angle)) /\
  (vx p = 0 -> vy p = 0 -> about_pole (angle * (2 * PI / full_turn degree)) p = p).
Proof. intros degree angle p. split; [apply pole_sky|]. intros A B. destruct p as [x y z]. cbn in A, B. subst. unfold about_pole. cbn. f_equal; ring. Qed.
Print Assumptions C96_pole.

(** Catalogs in boxes: any history of translations, recentrings, quarter turns and cuts. *)
Theorem C96_catalogs : forall l calls calls' c, vectors_ok (bc_cat c) -> declared (bc_cat c) -> Forall2 (call_l l) calls calls' ->
  box_run (boxcat_l l c) calls' = result_map (boxcat_l l) (box_run c calls).
Proof. intros. apply run_l; auto. Qed.
Print Assumptions C96_catalogs.

(** Gaussian fields: of Fourier modes, and of densities with any bias. *)
Theorem C96_gaussian : forall l freq neg box center n power los noise noise' inverted bias lognormal, field_l l n noise noise' ->
  result_l l n (do k <- set_complex_delta_field freq box n power los noise inverted; set_real_delta_field neg box center n k bias lognormal)
    (do k <- set_complex_delta_field freq (vec_l l box) (idx_l l n) power (option_map (vec_l l) los) noise' inverted; set_real_delta_field neg (vec_l l box) (vec_l l center) (idx_l l n) k bias lognormal) /\
  result_l l n (set_complex_delta_field freq box n power los noise inverted) (set_complex_delta_field freq (vec_l l box) (idx_l l n) power (option_map (vec_l l) los) noise' inverted).
Proof.
  intros l freq neg box center n power los noise noise' inverted bias lognormal H. pose proof (complex_l l freq box n power los noise noise' inverted H) as C. split; auto.
  destruct (set_complex_delta_field freq box n _ _ _ _), (set_complex_delta_field freq (vec_l l box) _ _ _ _ _); cbn [result_l bind] in *; try contradiction; auto. apply real_l; auto.
Qed.
Print Assumptions C96_gaussian.

(** Redshift space distortions of Eulerian mocks, along a direction or from the observer, with a growth rate that may depend on the distance. *)
Theorem C96_eulerian : forall l freq neg box center n dk dk' delta delta' f los los', field_l l n dk dk' -> field_l l n delta delta' -> los_l l los los' ->
  result_l l n (eulerian_set_rsd freq neg box center n dk delta f los) (eulerian_set_rsd freq neg (vec_l l box) (vec_l l center) (idx_l l n) dk' delta' f los').
Proof. exact eulerian_l. Qed.
Print Assumptions C96_eulerian.

(** Displacements along each axis, of Lagrangian mocks. *)
Theorem C96_displacements : forall l freq box n dk dk' a, field_l l n dk dk' ->
  field_l l n (displacement freq box n dk (axis_num a)) (displacement freq (vec_l l box) (idx_l l n) dk' (axis_num (axis_l l a))).
Proof. intros l freq box n dk dk' a H. replace (axis_num a) with (old l (axis_num (axis_l l a))) by (destruct l, a; reflexivity). apply displacement_l; auto. Qed.
Print Assumptions C96_displacements.

(** A case: a mirror, a catalog, a history of calls of each kind with axes swapped, a field that is not symmetric on a mesh with other numbers of cells. *)
Example C96_case :
  orthogonal (M (V 0 1 0) (V 1 0 0) (V 0 0 1)) /\
  (exists c, vectors_ok c /\ declared c /\ position c = Ok [V 1 2 3] /\ velocity c = Ok [V 3 0 1]) /\
  Forall2 (call_l LYXZ) [Translate (ShScalar 3) (AxStr "x"); Rotate 1 (AxStr "z"); Recenter; Subbox (RList [(0, 1); (2, 3); (4, 5)]) true; Subbox (ROne 0 1) false]
    [Translate (ShScalar 3) (AxStr "y"); Rotate (-1) (AxStr "z"); Recenter; Subbox (RList [(2, 3); (0, 1); (4, 5)]) true; Subbox (ROne 0 1) false] /\
  field_l LYZX (I 1 2 3) (fun x => INR (ix x) + 2 * INR (iy x) + 4 * INR (iz x)) (fun x => INR (iz x) + 2 * INR (ix x) + 4 * INR (iy x)) /\
  los_l LYZX (Some (AxStr "x")) (Some (AxIdx 2)).
Proof.
  split; [intros [] []; unfold mapply, vdot; cbn; ring|]. split.
  { exists (PCat [("Position"%string, ColV [V 1 2 3]); ("Velocity"%string, ColV [V 3 0 1])] "Position" "Velocity" ["Position"%string; "Velocity"%string] ["Velocity"%string]).
    split; [|repeat split; reflexivity]. intros n x [H|[H|[]]] _; injection H as _ <-; eauto. }
  split.
  { apply Forall2_cons; [apply (call_translate LYXZ _ _ _ _ (V 3 0 0)); constructor|]. apply Forall2_cons; [apply (call_rotate LYXZ 1 Z); unfold axis_means; cbn; auto|]. apply Forall2_cons; [constructor|]. 
    apply Forall2_cons; [apply (call_subbox LYXZ (0, 1) (2, 3) (4, 5))|]. apply Forall2_cons; [constructor|]. constructor. }
  split; [intros [] _; reflexivity|]. exists (V 1 0 0). split; constructor.
Qed.
