(** Property C20: redshift space distortions of a catalog. Vocabulary in Rsd_Spec.v. *)
Require Import Reals Lra Lia ZArith List Bool String.
From Verif Require Import Base Vec3 Isometry_Model Isometry_Spec Isometry_Proof Sky_Model Cutsky_Model Box_Model
  Rsd_Model Rsd_Spec Rsd_Proof.
Import ListNotations.
Open Scope R_scope.

(** A catalog with the given positions and velocities. *)
Definition pv_cat (pos vel : list vec) : pcat :=
  pcat_new [("Position"%string, ColV pos); ("Velocity"%string, ColV vel)] "Position" "Velocity" [] [].

(** Fixed line of sight: every particle moves by f times the component of its velocity along the line of sight. *)
Theorem C20_fixed_line_of_sight : forall c pos vel los u f,
  position c = Ok pos -> velocity c = Ok vel -> List.length vel = List.length pos -> los_means los u ->
  exists out, rsd_position c (FNum f) (Some los) = Ok out /\ row_by_row (moved_along u f) pos vel out.
Proof. exact rsd_fixed_ok. Qed.
Print Assumptions C20_fixed_line_of_sight.
Example C20_case : position (pv_cat [V 1 2 3; V 0 0 1] [V 0 1 0; V 1 1 1]) = Ok [V 1 2 3; V 0 0 1] /\
  velocity (pv_cat [V 1 2 3; V 0 0 1] [V 0 1 0; V 1 1 1]) = Ok [V 0 1 0; V 1 1 1] /\ los_means (AxVec (V 0 3 4)) (V 0 (3 / 5) (4 / 5)).
Proof.
  split; [reflexivity|]. split; [reflexivity|]. apply lm_vec.
  - exists (/ 5). split; [lra|]. unfold vscale; cbn. f_equal; field.
  - cbv [vdot vx vy vz]. field.
Qed.

(** Components across the line of sight are untouched. *)
Theorem C20_transverse_unchanged : forall u f p v q w, moved_along u f p v q -> vdot w u = 0 -> vdot w q = vdot w p.
Proof. exact along_perp. Qed.
Print Assumptions C20_transverse_unchanged.
Example C20_case_moved : moved_along (V 1 0 0) 2 (V 1 1 1) (V 3 4 5) (V 7 1 1) /\ vdot (V 0 1 2) (V 1 0 0) = 0.
Proof. unfold moved_along, vdot, vadd, vscale; cbn. repeat split; try ring. f_equal; ring. Qed.

(** Local line of sight: the same along the direction from the observer to the particle. *)
Theorem C20_local_line_of_sight : forall c pos vel f,
  position c = Ok pos -> velocity c = Ok vel -> List.length vel = List.length pos -> (forall p, In p pos -> p <> vzero) ->
  exists out, rsd_position c (FNum f) None = Ok out /\ row_by_row (moved_radially f) pos vel out.
Proof. exact rsd_local_ok. Qed.
Print Assumptions C20_local_line_of_sight.
(** ... and the direction on the sky is kept, and the distance changed by f times the radial velocity,
    unless the displacement takes the particle to or through the observer. *)
Theorem C20_local_keeps_sky_position : forall f p v q d dist ra dec,
  moved_radially f p v q -> cartesian_to_sky d p = Ok (dist, ra, dec) -> 0 < dist + f * (vdot v p / dist) ->
  cartesian_to_sky d q = Ok (dist + f * (vdot v p / dist), ra, dec).
Proof. exact radial_same_sky. Qed.
Print Assumptions C20_local_keeps_sky_position.
Example C20_case_local : (forall p, In p [V 0 0 2; V 3 0 0] -> p <> vzero) /\ moved_radially (1 / 2) (V 0 0 2) (V 7 5 3) (V 0 0 (7 / 2)).
Proof.
  split.
  - intros p [<-|[<-|[]]] E; injection E; intros; lra.
  - exists (V 0 0 1). split. + exists (/ 2). split; [lra|]. unfold vscale; cbn; f_equal; field.
    + unfold moved_along, vdot, vadd, vscale; cbn. split; [ring|f_equal; field].
Qed.
(** A particle at the observer has no line of sight (the code yields NaN). *)
Theorem C20_observer_position : forall c pos vel f, position c = Ok pos -> velocity c = Ok vel -> In vzero pos ->
  rsd_position c f None = Err ZeroDivision.
Proof. exact rsd_local_origin. Qed.
Print Assumptions C20_observer_position.

(** Particles at rest do not move. *)
Theorem C20_rest : forall f u p q, moved_along u f p vzero q \/ moved_radially f p vzero q -> q = p.
Proof. intros f u p q [H|H]. - revert H; exact (along_rest u f p q). - revert H; exact (radial_rest f p q). Qed.
Print Assumptions C20_rest.

(** Callable factor: full property: each particle is displaced with the factor taken at its own distance.
    Proved: it holds for a catalog of one particle. Missing: any other size, where it is false (next two theorems). *)
Theorem C20_callable_one_particle_partial : forall c p v f los, position c = Ok [p] -> velocity c = Ok [v] ->
  rsd_position c (FFun f) los = rsd_position c (FNum (f (sqrt (vdot p p)))) los.
Proof.
  intros c p v f los Ep Ev. rewrite (rsd_callable_one c p v f los Ep Ev), distance_vnorm. exact eq_refl.
Qed.
Print Assumptions C20_callable_one_particle_partial.
(** With any number of particles other than one and three, a callable factor raises. *)
Theorem C20_callable_raises_refuted : forall c pos vel f los, position c = Ok pos -> velocity c = Ok vel -> List.length vel = List.length pos ->
  (los = None -> forall p, In p pos -> p <> vzero) -> (forall a, los = Some a -> exists u, los_means a u) ->
  List.length pos <> 1%nat -> List.length pos <> 3%nat -> rsd_position c (FFun f) los = Err ValueError.
Proof. exact rsd_callable_err. Qed.
Print Assumptions C20_callable_raises_refuted.
(** With three particles the factors are mixed up: here the factor is the distance, and the first particle, at distance 1
    with velocity 1 along y, is displaced by 2, the distance of the second. *)
Theorem C20_callable_three_particles_refuted : exists c out,
  position c = Ok [V 1 0 0; V 0 2 0; V 0 0 3] /\ velocity c = Ok [V 0 1 0; vzero; vzero] /\
  rsd_position c (FFun (fun r => r)) (Some (AxStr "y")) = Ok out /\ nth_error out 0 = Some (V 1 2 0).
Proof.
  exists (pv_cat [V 1 0 0; V 0 2 0; V 0 0 3] [V 0 1 0; vzero; vzero]).
  destruct (los_means_ok _ _ lm_y) as [G U]. unfold rsd_position. cbn [position pv_cat pcat_new pc_position pc_data get_vec lookup].
  change (position (pv_cat [V 1 0 0; V 0 2 0; V 0 0 3] [V 0 1 0; vzero; vzero])) with (Ok [V 1 0 0; V 0 2 0; V 0 0 3]).
  change (velocity (pv_cat [V 1 0 0; V 0 2 0; V 0 0 3] [V 0 1 0; vzero; vzero])) with (Ok [V 0 1 0; vzero; vzero]).
  cbn [bind]. rewrite G. cbn [bind]. rewrite vp_one_dir by auto. cbn [bind map].
  eexists. split; [reflexivity|]. split; [reflexivity|]. split; [reflexivity|]. cbn [nth_error map2_result].
  unfold distance. replace (sqrt (vx (V 0 2 0) ^ 2 + vy (V 0 2 0) ^ 2 + vz (V 0 2 0) ^ 2)) with 2.
  2:{ cbn [vx vy vz]. replace (0 ^ 2 + 2 ^ 2 + 0 ^ 2) with (2 * 2) by ring. rewrite sqrt_square; lra. }
  f_equal. unfold vadd, vmul, vscale, vdot; cbn [vx vy vz]. f_equal; ring.
Qed.
Print Assumptions C20_callable_three_particles_refuted.
