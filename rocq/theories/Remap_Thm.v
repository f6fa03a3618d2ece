(** C21 to C23, C56: remapping of periodic boxes. *)
Require Import Reals Lra Lia ZArith QArith List Bool String.
From Verif Require Import Base Vec3 Isometry_Model Isometry_Proof Sky_Model Cutsky_Model Box_Model Box_Spec Box_Proof4 Rsd_Thm
  Remap_Model Remap_Spec Remap_Proof Remap_Proof2 Remap_Proof3 Remap_Proof4.
Import ListNotations.
Close Scope Q_scope.
Open Scope R_scope.

(** C21 *)
(** The edges of the cuboid are the sheared, pairwise orthogonal lattice vectors; the directions stored are theirs, and form
    a rotation; the size is the length of the edges in the box of given size (which may have unequal sides). *)
Theorem C21_orthogonal_edges : forall u1 u2 u3 size, unimodular u1 u2 u3 -> positive size ->
  exists c e1 e2 e3, cuboid_new (real u1) (real u2) (real u3) size = Ok c /\ gram_schmidt (real u1) (real u2) (real u3) e1 e2 e3 /\
    e1 = vscale (vnorm e1) (cu_n1 c) /\ e2 = vscale (vnorm e2) (cu_n2 c) /\ e3 = vscale (vnorm e3) (cu_n3 c) /\
    is_rotation (M (cu_n1 c) (cu_n2 c) (cu_n3 c)) /\
    cu_size c = V (vnorm (vmul size e1)) (vnorm (vmul size e2)) (vnorm (vmul size e3)).
Proof. exact cuboid_shape. Qed.
Print Assumptions C21_orthogonal_edges.
Example C21_case : unimodular (0, 1, 1)%Z (1, 0, 1)%Z (0, 1, 0)%Z /\ positive (V 2000 2000 2000).
Proof. split; [reflexivity|unfold positive; cbn; lra]. Qed.

(** Full property: the volume of the cuboid is that of the box, for every box size. Proved: for boxes with equal sides.
    Missing: other boxes, where it is false (next theorem). *)
Theorem C21_volume_partial : forall u1 u2 u3 b, unimodular u1 u2 u3 -> 0 < b ->
  exists c, cuboid_new (real u1) (real u2) (real u3) (V b b b) = Ok c /\ volume (cu_size c) = volume (V b b b).
Proof. exact cuboid_volume. Qed.
Print Assumptions C21_volume_partial.
Theorem C21_anisotropic_volume_refuted : exists c, cuboid_new (real (1, 1, 0)%Z) (real (0, 1, 0)%Z) (real (0, 0, 1)%Z) (V 1 2 1) = Ok c /\
  unimodular (1, 1, 0)%Z (0, 1, 0)%Z (0, 0, 1)%Z /\ volume (V 1 2 1) = 2 /\ volume (cu_size c) = 5 / 2.
Proof. destruct sheared_volume as (c & E & A & B). exists c. split; [exact E|]. split; [reflexivity|auto]. Qed.
Print Assumptions C21_anisotropic_volume_refuted.

(** The cuboid is a fundamental domain of the periodic box: every point of space has exactly one periodic image in it. *)
Theorem C21_tiling : forall u1 u2 u3 b, unimodular u1 u2 u3 -> 0 < b -> exists c, cuboid_new (real u1) (real u2) (real u3) (V b b b) = Ok c /\
  forall p, exists k : zvec,
    in_half_open_box (cu_size c) (V (vdot (vadd p (vscale b (real k))) (cu_n1 c)) (vdot (vadd p (vscale b (real k))) (cu_n2 c)) (vdot (vadd p (vscale b (real k))) (cu_n3 c))) /\
    forall l, in_half_open_box (cu_size c) (V (vdot (vadd p (vscale b (real l))) (cu_n1 c)) (vdot (vadd p (vscale b (real l))) (cu_n2 c)) (vdot (vadd p (vscale b (real l))) (cu_n3 c))) -> l = k.
Proof. exact tiling. Qed.
Print Assumptions C21_tiling.

(** Vectors whose determinant is not 1 are refused. *)
Theorem C21_rejected : forall u1 u2 u3 size, zdet u1 u2 u3 <> 1%Z -> cuboid_new (real u1) (real u2) (real u3) size = Err ValueError.
Proof. intros u1 u2 u3 size H. apply det_rejected. rewrite det3_real. intros E. apply H. apply (eq_IZR _ 1), E. Qed.
Print Assumptions C21_rejected.
Example C21_case_rejected : zdet (1, 1, 0)%Z (1, -1, 0)%Z (0, 0, 1)%Z = (-2)%Z. Proof. reflexivity. Qed.

(** C22 *)
(** Positions in the box come back (on the upper faces, as the same point of the periodic box), for any box size, and
    transform never fails. *)
Theorem C22_round_trip : forall u1 u2 u3 size, unimodular u1 u2 u3 -> positive size -> exists c, cuboid_new (real u1) (real u2) (real u3) size = Ok c /\
  forall x, in_box size x -> exists y x', cu_transform1 c false x = Ok y /\ cu_inverse1 c false y = Ok x' /\ same_periodic size x x' /\
    (in_half_open_box size x -> x' = x).
Proof. exact round_trip. Qed.
Print Assumptions C22_round_trip.
Example C22_case : unimodular (-1, -1, 0)%Z (0, -1, 0)%Z (0, 0, 1)%Z /\ positive (V 1 2 3) /\ in_half_open_box (V 1 2 3) (V 0 (19 / 10) 1).
Proof. split; [reflexivity|]. unfold positive, in_half_open_box; cbn. repeat split; lra. Qed.
Theorem C22_velocities : forall u1 u2 u3 size, unimodular u1 u2 u3 -> exists c, cuboid_new (real u1) (real u2) (real u3) size = Ok c /\
  forall v, exists w, cu_transform1 c true v = Ok w /\ cu_inverse1 c true w = Ok v /\ vnorm w = vnorm v.
Proof. exact velocity_round_trip. Qed.
Print Assumptions C22_velocities.
(** Arrays are transformed row by row. *)
Theorem C22_rows : forall c ti l l', cu_transform c ti l = Ok l' -> List.length l' = List.length l /\
  forall i y, nth_error l' i = Some y -> exists x, nth_error l i = Some x /\ cu_transform1 c ti x = Ok y.
Proof. intros c ti l l'. exact (map_result_nth (cu_transform1 c ti) l l'). Qed.
Print Assumptions C22_rows.

(** C23 *)
(** Full property: transform(x) lies in the cuboid, for all x in the box and all unimodular bases.
    Proved: for the bases whose edges e satisfy |e|^2 <= sum of the positive coordinates of e (the box reaches the far face
    of the cuboid along each edge). Missing: other bases, for many of which it is false (next theorems). *)
Theorem C23_lands_in_cuboid_partial : forall u1 u2 u3 e1 e2 e3 size, unimodular u1 u2 u3 ->
  gram_schmidt (real u1) (real u2) (real u3) e1 e2 e3 -> positive size ->
  vdot e1 e1 <= reach e1 -> vdot e2 e2 <= reach e2 -> vdot e3 e3 <= reach e3 ->
  exists c, cuboid_new (real u1) (real u2) (real u3) size = Ok c /\
    forall x, in_box size x -> exists y, cu_transform1 c false x = Ok y /\ in_box (cu_size c) y.
Proof. exact lands. Qed.
Print Assumptions C23_lands_in_cuboid_partial.
(** The basis used in the repository's tests. *)
Example C23_case : unimodular (0, 1, 1)%Z (1, 0, 1)%Z (0, 1, 0)%Z /\
  gram_schmidt (real (0, 1, 1)%Z) (real (1, 0, 1)%Z) (real (0, 1, 0)%Z) (V 0 1 1) (V 1 (- (1 / 2)) (1 / 2)) (V (1 / 3) (1 / 3) (- (1 / 3))) /\
  vdot (V 0 1 1) (V 0 1 1) <= reach (V 0 1 1) /\ vdot (V 1 (- (1 / 2)) (1 / 2)) (V 1 (- (1 / 2)) (1 / 2)) <= reach (V 1 (- (1 / 2)) (1 / 2)) /\
  vdot (V (1 / 3) (1 / 3) (- (1 / 3))) (V (1 / 3) (1 / 3) (- (1 / 3))) <= reach (V (1 / 3) (1 / 3) (- (1 / 3))).
Proof.
  split; [reflexivity|]. split; [exact tests_gs|]. unfold reach, vdot; cbn [vx vy vz]. unfold Rmax. repeat destruct (Rle_dec _ _); repeat split; lra.
Qed.
(** What every basis does have: some periodic image of each position lies in the cuboid. *)
Theorem C23_image_exists : forall u1 u2 u3 e1 e2 e3 p, unimodular u1 u2 u3 -> gram_schmidt (real u1) (real u2) (real u3) e1 e2 e3 -> in_box (V 1 1 1) p ->
  exists k : zvec, 0 <= vdot (vadd p (real k)) e1 <= vdot e1 e1 /\ 0 <= vdot (vadd p (real k)) e2 <= vdot e2 e2 /\ 0 <= vdot (vadd p (real k)) e3 <= vdot e3 e3.
Proof. exact first_cell. Qed.
Print Assumptions C23_image_exists.

(** Two axes reversed: the shift by one box is lost, as the cell covering the whole box has no face, and is skipped. *)
Theorem C23_reversed_axes_refuted : exists c y, unimodular (-1, 0, 0)%Z (0, -1, 0)%Z (0, 0, 1)%Z /\
  cuboid_new (real (-1, 0, 0)%Z) (real (0, -1, 0)%Z) (real (0, 0, 1)%Z) (V 1 1 1) = Ok c /\
  cu_transform1 c false (V (1 / 2) (1 / 2) (1 / 2)) = Ok y /\ ~ in_box (cu_size c) y.
Proof.
  assert (U : unimodular (-1, 0, 0)%Z (0, -1, 0)%Z (0, 0, 1)%Z) by reflexivity.
  destruct (escape _ _ _ (QV (-1) 0 0) (QV 0 (-1) 0) (QV 0 0 1) (QV (1 # 2) (1 # 2) (1 # 2)) U) as (c & y & A & B & C).
  - unfold qr; cbn. unfold Q2R; cbn.
    split; [f_equal; field|]. split; [exists 0; unfold vadd, vscale; cbn; f_equal; field|].
    split; [exists 0, 0; unfold vadd, vscale; cbn; f_equal; field|]. unfold vdot; cbn. repeat split; field.
  - vm_compute. reflexivity. - vm_compute. auto.
  - exists c, y. split; [exact U|]. split; [exact A|]. split; [|exact C].
    replace (V (1 / 2) (1 / 2) (1 / 2)) with (qr (QV (1 # 2) (1 # 2) (1 # 2))); [exact B|]. unfold qr, Q2R; cbn. f_equal; field.
Qed.
Print Assumptions C23_reversed_axes_refuted.
(** The position is changed while the loop over cells goes on: here it is shifted by two cells in turn, and lands outside. *)
Theorem C23_shifted_twice_refuted : exists c y, unimodular (-1, -1, 0)%Z (0, -1, 0)%Z (0, 0, 1)%Z /\
  cuboid_new (real (-1, -1, 0)%Z) (real (0, -1, 0)%Z) (real (0, 0, 1)%Z) (V 1 1 1) = Ok c /\
  cu_transform1 c false (V (9 / 20) (17 / 20) (7 / 20)) = Ok y /\ ~ in_box (cu_size c) y.
Proof.
  assert (U : unimodular (-1, -1, 0)%Z (0, -1, 0)%Z (0, 0, 1)%Z) by reflexivity.
  destruct (escape _ _ _ (QV (-1) (-1) 0) (QV (1 # 2) (-1 # 2) 0) (QV 0 0 1) (QV (9 # 20) (17 # 20) (7 # 20)) U) as (c & y & A & B & C).
  - unfold qr; cbn. unfold Q2R; cbn.
    split; [f_equal; field|]. split; [exists (-1 / 2); unfold vadd, vscale; cbn; f_equal; field|].
    split; [exists 0, 0; unfold vadd, vscale; cbn; f_equal; field|]. unfold vdot; cbn. repeat split; field.
  - vm_compute. reflexivity. - vm_compute. auto.
  - exists c, y. split; [exact U|]. split; [exact A|]. split; [|exact C].
    replace (V (9 / 20) (17 / 20) (7 / 20)) with (qr (QV (9 # 20) (17 # 20) (7 # 20))); [exact B|]. unfold qr, Q2R; cbn. f_equal; field.
Qed.
Print Assumptions C23_shifted_twice_refuted.

(** C56 *)
(** Remapping a catalog of a cubic box: there is one rotation m such that each position, taken from the lower corner of its
    box, is the rotated image of some periodic copy; velocities are rotated by the same m; the centre, the volume and the
    other columns are kept. *)
Theorem C56_catalog : forall c u1 u2 u3 b, unimodular u1 u2 u3 -> 0 < b -> boxsize c = V b b b -> vectors_ok (bc_cat c) ->
  (forall n l p, column (bc_cat c) n = Some (ColV l) -> moves (bc_cat c) n -> In p l -> contained (boxsize c) (boxcenter c) p) ->
  NoDup (names (bc_cat c)) ->
  exists c' m, remap c (RVectors [real u1; real u2; real u3]) = Ok c' /\ is_rotation m /\
    boxcenter c' = boxcenter c /\ volume (boxsize c') = volume (boxsize c) /\ names (bc_cat c') = names (bc_cat c) /\
    (forall n l, column (bc_cat c) n = Some (ColV l) -> moves (bc_cat c) n -> exists l', column (bc_cat c') n = Some (ColV l') /\
       Forall2 (fun p q => exists k : zvec, vsub q (vsub (boxcenter c') (vscale (1 / 2) (boxsize c'))) =
         mapply m (vadd (vsub p (vsub (boxcenter c) (vscale (1 / 2) (boxsize c)))) (vscale b (real k)))) l l') /\
    (forall n l, column (bc_cat c) n = Some (ColV l) -> In n (pc_vectors (bc_cat c)) -> In n (pc_invariants (bc_cat c)) ->
       column (bc_cat c') n = Some (ColV (map (mapply m) l))) /\
    (forall n x, column (bc_cat c) n = Some x -> ~ In n (pc_vectors (bc_cat c)) -> column (bc_cat c') n = Some x).
Proof. exact remap_thm. Qed.
Print Assumptions C56_catalog.
Example C56_case : let c := BoxCat (pv_cat [V 1 (-2) 3; V 5 5 5] [V 0 1 0; V 1 1 1]) (V 10 10 10) vzero in
  vectors_ok (bc_cat c) /\ NoDup (names (bc_cat c)) /\ moves (bc_cat c) "Position" /\
  (forall n l p, column (bc_cat c) n = Some (ColV l) -> moves (bc_cat c) n -> In p l -> contained (boxsize c) (boxcenter c) p).
Proof.
  cbn zeta. split. { intros n x [E|[E|[]]] _; injection E as <- <-; eauto. }
  split. { repeat constructor; cbn; intuition discriminate. }
  split. { split; cbn; intuition discriminate. }
  intros n l p K [_ NI] I. unfold column in K. cbn [bc_cat pv_cat pcat_new pc_data lookup] in K.
  destruct (String.eqb n "Position"); [|destruct (String.eqb n "Velocity") eqn:E; [|discriminate]].
  - injection K as <-. destruct I as [<-|[<-|[]]]; unfold contained; cbn; unfold Rabs; repeat destruct (Rcase_abs _); repeat split; lra.
  - exfalso. apply NI. apply String.eqb_eq in E. subst. cbn. auto.
Qed.
(** The separation of any two particles is then that of two periodic images of them. *)
Theorem C56_separations : forall m b p q p' q' o o' k k', is_rotation m ->
  vsub q o' = mapply m (vadd (vsub p o) (vscale b (real k))) -> vsub q' o' = mapply m (vadd (vsub p' o) (vscale b (real k'))) ->
  exists j : zvec, vnorm (vsub q q') = vnorm (vadd (vsub p p') (vscale b (real j))).
Proof. exact pair_image. Qed.
Print Assumptions C56_separations.
(** One vector alone, or none, is an error; with two, the third is (0, 0, 1)%Z. *)
Theorem C56_arguments : forall c u1 u2, remap c (RVectors []) = Err ValueError /\ remap c (RVectors [u1]) = Err NameError /\
  remap c (RVectors [u1; u2]) = remap c (RVectors [u1; u2; V 0 0 1]).
Proof. intros. repeat split. Qed.
Print Assumptions C56_arguments.
