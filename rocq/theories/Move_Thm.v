(** Property C92: results do not depend on where the box is. What moves with a box is in Move_Spec.v. *)
Require Import Reals Lra Lia ZArith String List Bool FunctionalExtensionality.
From Verif Require Import Base Vec3 Isometry_Model Sky_Model Cutsky_Model Box_Model Rsd_Model Mock_Model Mesh_Model Remap_Model Mock_Spec Mock_Thm Mesh_Spec Mesh_Thm2 Mesh_Thm3.
From Verif Require Import Isometry_Proof Unit_Spec Unit_Proof2 Move_Spec Move_Proof Move_Proof2.
Import ListNotations.
Open Scope R_scope.

(** New mocks: with another center, the same field. *)
Theorem C92_new_mock : forall t freq box n center power los noise inverted mesh,
  mock_new freq box n (center_m t center) power los noise inverted = result_map (mock_m t) (mock_new freq box n center power los noise inverted) /\
  from_complex_delta_field box n mesh (center_m t center) = mock_m t (from_complex_delta_field box n mesh center).
Proof.
  intros. split; [|destruct center; reflexivity]. unfold mock_new. rewrite map_bind. apply bind_ext. intros l. rewrite map_bind. apply bind_ext. intros d. destruct center; reflexivity.
Qed.
Print Assumptions C92_new_mock.
(** Whatever methods are called, in whatever order, if they do not look at places: the same calls raise, and the mock is in the same state but for its center and the objects, which are moved. *)
Theorem C92_history : forall t freq neg pm c m calls m' outcomes, Forall place_free calls -> draws_return c calls outcomes ->
  Mesh_Model.run freq neg pm c m calls = (m', outcomes) -> Mesh_Model.run freq neg pm c (mock_m t m) (map (op_m t) calls) = (mock_m t m', outcomes).
Proof. intros t freq neg pm c m calls m' outcomes P D H. rewrite run_move; rewrite ?H; auto. Qed.
Print Assumptions C92_history.
(** What is read in a mock: the same fields at moved positions, the catalog moved, the same mesh. *)
Theorem C92_readout : forall t freq c pm m positions field resampler compensate,
  mock_readout c freq pm (mock_m t m) (map (moved t) positions) field resampler compensate = mock_readout c freq pm m positions field resampler compensate /\
  to_catalog c (mock_m t m) = result_map (boxcat_m t) (to_catalog c m) /\
  to_nbodykit_mesh (mock_m t m) = result_map (fun x => (fst (fst x), snd (fst x), moved t (snd x))) (to_nbodykit_mesh m).
Proof.
  intros. split; [destruct c; [apply readout_move|apply lagrangian_readout_move]|]. split.
  - unfold to_catalog. cbn [mock_m m_position m_disps m_box m_center]. destruct (m_position m) as [p|]; cbn [option_map attribute bind result_map]; auto. destruct c; [reflexivity|].
    destruct (m_disps m) as [d|]; cbn [attribute bind result_map]; auto.
  - unfold to_nbodykit_mesh. cbn [mock_m m_delta_r m_nbar m_box m_center]. destruct (m_delta_r m); cbn [attribute bind result_map]; auto. destruct (m_nbar m); reflexivity.
Qed.
Print Assumptions C92_readout.
(** Any sequence of translations, recenterings, rotations, cuts, paddings and remappings of a catalog in a box. *)
Theorem C92_box_catalogs : forall t c calls, moves_ok (bc_cat c) -> box_run (boxcat_m t c) (calls_m t calls) = result_map (boxcat_m (move_end t calls)) (box_run c calls).
Proof. intros t c calls H. apply box_run_move; auto. Qed.
Print Assumptions C92_box_catalogs.
(** Once recentred, all boxes are the same. *)
Theorem C92_recenter : forall t c, recenter (boxcat_m t c) = recenter c.
Proof. exact recenter_move. Qed.
Print Assumptions C92_recenter.
Theorem C92_rsd : forall t c f los, moves_ok c -> rsd_position (pcat_m t c) (FNum f) (Some los) = result_map (map (moved t)) (rsd_position c (FNum f) (Some los)).
Proof. intros. apply rsd_move; auto. Qed.
Print Assumptions C92_rsd.
(** Cut skies made of a box are the same wherever the box is: same rows, same columns, same errors. *)
Theorem C92_cutsky : forall t c drange rarange decrange em im noutput mr ma rdd, moves_ok (bc_cat c) ->
  cutsky (boxcat_m t c) drange rarange decrange em im noutput mr ma rdd = cutsky c drange rarange decrange em im noutput mr ma rdd.
Proof. intros. apply cutsky_move; auto. Qed.
Print Assumptions C92_cutsky.
(** Catalogs made by the constructor, and by mocks, have a position that moves and a velocity that does not. *)
Theorem C92_constructed : forall d position velocity vectors invariants, position <> velocity -> mem position invariants = false -> moves_ok (pcat_new d position velocity vectors invariants).
Proof.
  intros d position velocity vectors invariants N M. assert (A : forall m a b, mem m (a ++ b) = mem m a || mem m b) by (intros; unfold mem; apply existsb_app).
  unfold moves_ok, pcat_new; cbn [pc_position pc_velocity pc_vectors pc_invariants]. rewrite !A, M. cbn. rewrite !String.eqb_refl. apply String.eqb_neq in N. rewrite N. rewrite !orb_true_r. auto.
Qed.
Print Assumptions C92_constructed.
(** The condition on poisson_sample is needed: when it raises in a Lagrangian mock, the positions are left in place of the displacements, and the next set_rsd gives positions that depend on the place of the box. *)
Theorem C92_failed_sample_refuted : forall t freq neg pm m po un rs co d b psi p pos, known pm (if String.eqb (lowercase rs) "ngp" then "nnb"%string else lowercase rs) = false ->
  m_delta_r m = Some d -> m_nbar m = Some b -> m_disp m = Some psi -> poisson_sample (m_box m) (m_center m) (m_n m) d (times b (fun _ => 1)) po (parts pm) un = Ok (p :: pos) -> vx t <> 0 ->
  let calls := [Poisson po un rs co; SetRsd (FNum 1) (Some (AxStr "x"))] in
  Forall place_free calls /\ fst (Mesh_Model.run freq neg pm Lagrangian (mock_m t m) (map (op_m t) calls)) <> mock_m t (fst (Mesh_Model.run freq neg pm Lagrangian m calls)).
Proof.
  intros t freq neg pm m po un rs co d b psi p pos K E1 E2 E3 P T calls. split; [repeat constructor|]. intro H. apply (f_equal m_position) in H. revert H.
  assert (S : forall m, m_delta_r m = Some d -> m_nbar m = Some b -> m_disp m = Some psi -> forall q, poisson_sample (m_box m) (m_center m) (m_n m) d (times b (fun _ => 1)) po (parts pm) un = Ok q ->
    fst (step freq neg pm Lagrangian m (Poisson po un rs co)) = set_disps (set_position m q) q).
  { clear - K. intros m E1 E2 E3 q P. cbn [step]. rewrite E1, E2. cbn [attribute bind]. rewrite P. cbn [set_disps set_position m_disp]. rewrite E3. cbn [attribute bind].
    unfold lagrangian_readout at 1. cbn [bind]. unfold readout. cbn [choose_field bind]. rewrite K. reflexivity. }
  assert (P' : poisson_sample (m_box (mock_m t m)) (m_center (mock_m t m)) (m_n (mock_m t m)) d (times b (fun _ => 1)) po (parts pm) un = Ok (map (moved t) (p :: pos)))
    by (cbn [mock_m m_box m_center m_n]; rewrite sample_move, P; reflexivity).
  assert (X : forall q, lagrangian_set_rsd q q (FNum 1) (Some (AxStr "x")) = Ok (map (fun p => V (2 * vx p) (vy p) (vz p)) q)).
  { assert (ONE : forall v, vector_projection1 v (V 1 0 0) = Ok (V (vx v) 0 0)).
    { intros v. unfold vector_projection1. cbn [vx vy vz]. replace (1 ^ 2 + 0 ^ 2 + 0 ^ 2) with 1 by ring. rewrite sqrt_1. destruct (Req_EM_T 1 0) as [Z|Z]; [lra|]. f_equal. f_equal; field. }
    intros q. unfold lagrangian_set_rsd. assert (GL : get_los (AxStr "x") = Ok (V 1 0 0)) by (apply (get_los_axis 0); lia). rewrite GL. cbn [bind].
    assert (VP : vector_projection q [V 1 0 0] = Ok (map (fun p => V (vx p) 0 0) q)).
    { unfold vector_projection. induction q as [|a q IH]; cbn [List.length repeat map2_result map]; auto. rewrite ONE. cbn [bind]. rewrite IH. reflexivity. }
    rewrite VP. cbn [bind]. clear. induction q as [|a q IH]; cbn [map map2_result bind]; auto. rewrite IH. cbn [bind]. f_equal. f_equal. unfold vadd, vscale; cbn [vx vy vz]. f_equal; ring. }
  assert (R : forall m q, fst (step freq neg pm Lagrangian m (Poisson po un rs co)) = set_disps (set_position m q) q ->
    m_position (fst (Mesh_Model.run freq neg pm Lagrangian m calls)) = Some (map (fun p => V (2 * vx p) (vy p) (vz p)) q)).
  { intros m0 q H. unfold calls. cbn [Mesh_Model.run]. destruct (step freq neg pm Lagrangian m0 (Poisson po un rs co)) as [m1 r1]. cbn [fst] in H. subst m1.
    cbn [step set_disps set_position m_position m_disps attribute bind]. rewrite X. reflexivity. }
  change (map (op_m t) calls) with calls. rewrite (R (mock_m t m) (map (moved t) (p :: pos))) by (apply S; auto). cbn [mock_m m_position]. rewrite (R m (p :: pos)) by (apply S; auto).
  cbn [map option_map]. intro H. injection H as H _. cbn [moved vadd vx] in H. lra.
Qed.
Print Assumptions C92_failed_sample_refuted.

(** A history in which objects are drawn, displaced and moved along z returns; a sample with an unknown resampler draws an object. *)
Definition place_calls : list op := flat_calls ++ [flat_draw; SetRsd (FNum 1) (Some (AxStr "z")); SetCenter (Triple 1 2 3)].
Definition blank : mock := Mock (V 1 1 1) (I 1 1 1) (V 5 5 5) None (fun _ => Cx 0 0) (Some (fun _ => 0)) (Some (Number 1)) (Some 1) (Some (fun _ _ => 0)) None None.
Definition none_known : pmesh := PMesh (fun _ => false) (fun _ _ _ _ => 1) [cells (I 1 1 1)] (fun _ _ _ => true).
Example C92_case : (forall c, Forall place_free place_calls /\ exists m outcomes, Mesh_Model.run signed (fun _ _ => false) at_origin c flat place_calls = (m, outcomes) /\ draws_return c place_calls outcomes) /\
  moves_ok (pcat_new [("Position", ColV [V 1 2 3]); ("Velocity", ColV [V 100 0 0]); ("RA", ColS [20])]%string "Position" "Velocity" [] []) /\
  poisson_sample (m_box blank) (m_center blank) (m_n blank) (fun _ => 0) (times (Number 1) (fun _ => 1)) (map (fun _ => 1%nat)) (parts none_known) (fun k => repeat (V (1 / 2) (1 / 2) (1 / 2)) k) <> Ok [].
Proof.
  split; [|split; [apply C92_constructed; [discriminate|reflexivity]|] ].
  - intros c. split; [repeat constructor|]. destruct (Mesh_Model.run signed (fun _ _ => false) at_origin c flat place_calls) as [m outcomes] eqn:E. exists m, outcomes. split; auto. intros C.
    destruct (C65_case c) as (_ & _ & _ & _ & _ & _ & A & _). unfold answer, after in A. unfold place_calls in E |- *. unfold flat_calls in *. cbn [app] in *.
    cbn [Mesh_Model.run] in E, A.
    destruct (step _ _ _ c flat (SetReal None false)) as [m1 r1]. destruct (step _ _ _ c m1 (SetSelection (inl 1) 0)) as [m2 r2]. cbn [fst] in A.
    destruct (step _ _ _ c m2 flat_draw) as [m3 r3]. cbn [snd] in A. subst r3.
    destruct (step _ _ _ c m3 _) as [m4 r4]. destruct (step _ _ _ c m4 _) as [m5 r5]. injection E as <- <-. repeat constructor.
  - unfold poisson_sample. cbv zeta. unfold blank, none_known; cbn [m_box m_center m_n parts times]. change (cells (I 1 1 1)) with [I 0 0 0]. cbn [map forallb].
    destruct (Rleb 0 _) eqn:L; [|discriminate]. cbn [andb flat_map cell_id ix iy iz nth Nat.mul Nat.add repeat app sort_by_id fold_right insert map snd List.length combine]. discriminate.
Qed.
