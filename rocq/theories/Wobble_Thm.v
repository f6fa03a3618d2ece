(** C102: remapping with rounded numbers. *)
Require Import Reals Lra Lia ZArith List Bool SpecFloat.
From Verif Require Import Base Vec3 Remap_Model Remap_Spec Wobble_Model Wobble_Spec Wobble_Proof Wobble_Proof2 Wobble_Proof3.
Import ListNotations.
Open Scope R_scope.

(** Full property: with rounded numbers, every position of the box gets an image, near that of exact arithmetic.
    In double precision it is false: see the refutations below. *)

(** With real numbers the program is that of C21 to C23. *)
Theorem C102_same_program : forall u1 u2 u3 size, unimodular u1 u2 u3 -> positive (vec_of_gvec size) ->
  exists c c', gcuboid_new exact u1 u2 u3 size = Ok c /\ cuboid_new (real u1) (real u2) (real u3) (vec_of_gvec size) = Ok c' /\
  forall x, cu_transform1 c' false (vec_of_gvec x) = match gtransform1 exact c x with Ok y => Ok (vec_of_gvec y) | Err e => Err e end.
Proof. exact same_program. Qed.
Print Assumptions C102_same_program.
Example C102_case_same : unimodular (0, 1, 1)%Z (1, 0, 1)%Z (0, 1, 0)%Z /\ positive (vec_of_gvec (GV 2000 2000 2000)).
Proof. split; [reflexivity|unfold positive; cbn; lra]. Qed.

(** A position farther than the margin from the faces that decide (on its way through the cells) goes the same way as with real numbers:
    it is found if and only if it would be, and its image is that of real numbers up to the margin, times the size.
    This holds for whatever numbers are stored in the cuboid; missing: rounding of the numbers stored, and positions near faces. *)
Theorem C102_far_from_faces_partial : forall eps eta rnd c x n d s b q t, rounds eps eta rnd -> fine eps eta (length (gu_cells c)) -> stored n d s c -> 0 <= d -> 1 <= b ->
  walk (margin eps eta (length (gu_cells c)) n d b) b (gu_cells c) (fraction c x) q t ->
  if t then gtransform1 exact c x = Ok (image c q) /\
    exists y, gtransform1 (rounded rnd) c x = Ok y /\ near (s * margin eps eta (length (gu_cells c)) n d b + eta) y (image c q)
  else gtransform1 exact c x = Err CuboidError /\ gtransform1 (rounded rnd) c x = Err CuboidError.
Proof. exact far_from_faces. Qed.
Print Assumptions C102_far_from_faces_partial.
(** Two cells, three faces; rounding to a few parts in ten thousand. *)
Example C102_case_far : let c := GCuboid (GV 1 1 1) (GV (7 / 10) (7 / 10) 0) (GV (- (7 / 10)) (7 / 10) 0) (GV 0 0 1) (GV 1 1 1)
    [GCell (-1, 0, 0)%Z [GPlane (GV (7 / 10) (- (7 / 10)) 0) 0; GPlane (GV (7 / 10) (7 / 10) 0) (- (7 / 10))]; GCell (0, 0, 0)%Z [GPlane (GV (- (7 / 10)) (7 / 10) 0) 0]] in
  let rnd := fun x => x * (1 + 1 / 10000) in
  rounds (1 / 10000) 0 rnd /\ fine (1 / 10000) 0 (length (gu_cells c)) /\ stored 1 1 1 c /\
  walk (margin (1 / 10000) 0 (length (gu_cells c)) 1 1 2) 2 (gu_cells c) (fraction c (GV (9 / 10) (4 / 10) (1 / 2))) (GV (- (1 / 10)) (4 / 10) (1 / 2)) true.
Proof. exact far_case. Qed.

(** Hence no position of the box is lost if it is far from faces, with the exact numbers in the cuboid. *)
Theorem C102_found_partial : forall eps eta rnd u1 u2 u3 size (c : gcuboid R) x n d s b q t,
  unimodular u1 u2 u3 -> positive (vec_of_gvec size) -> gcuboid_new exact u1 u2 u3 size = Ok c -> in_box (vec_of_gvec size) (vec_of_gvec x) ->
  rounds eps eta rnd -> fine eps eta (length (gu_cells c)) -> stored n d s c -> 0 <= d -> 1 <= b ->
  walk (margin eps eta (length (gu_cells c)) n d b) b (gu_cells c) (fraction c x) q t ->
  exists y z, gtransform1 exact c x = Ok z /\ gtransform1 (rounded rnd) c x = Ok y /\ near (s * margin eps eta (length (gu_cells c)) n d b + eta) y z.
Proof. exact clear_found. Qed.
Print Assumptions C102_found_partial.
(** Axes in another order; all positions of the box. *)
Example C102_case_order : exists (c : gcuboid R), gcuboid_new exact (0, 1, 0)%Z (0, 0, 1)%Z (1, 0, 0)%Z (GV 1000 1000 1000) = Ok c /\
  fine (1 / 10000) (1 / 10000) (length (gu_cells c)) /\ stored 1 0 1000 c /\
  forall x, in_box (V 1000 1000 1000) (vec_of_gvec x) ->
    walk (margin (1 / 10000) (1 / 10000) (length (gu_cells c)) 1 0 1) 1 (gu_cells c) (fraction c x) (fraction c x) true.
Proof. exact found_case. Qed.

(** Wherever the position is and whatever the faces decide, the image is that of some periodic copy, up to the margin: rounding never bends an image. *)
Theorem C102_copy_or_error : forall eps eta rnd c x n d s r, rounds eps eta rnd -> fine eps eta (length (gu_cells c)) -> stored n d s c -> 0 <= d -> 0 <= r ->
  (forall k, In k (gu_cells c) -> within r (moved (GV 0 0 0) (gc_ipos k))) -> within 1 (fraction c x) ->
  gtransform1 (rounded rnd) c x = Err CuboidError \/
  exists y i, gtransform1 (rounded rnd) c x = Ok y /\
    near (s * margin eps eta (length (gu_cells c)) n d (1 + r * INR (length (gu_cells c))) + eta) y (image c (moved (fraction c x) i)).
Proof. exact transform_any. Qed.
Print Assumptions C102_copy_or_error.
(** The same two cells; a position on one of the faces. *)
Example C102_case_copy : let c := GCuboid (GV 1 1 1) (GV (7 / 10) (7 / 10) 0) (GV (- (7 / 10)) (7 / 10) 0) (GV 0 0 1) (GV 1 1 1)
    [GCell (-1, 0, 0)%Z [GPlane (GV (7 / 10) (- (7 / 10)) 0) 0; GPlane (GV (7 / 10) (7 / 10) 0) (- (7 / 10))]; GCell (0, 0, 0)%Z [GPlane (GV (- (7 / 10)) (7 / 10) 0) 0]] in
  stored 1 1 1 c /\ (forall k, In k (gu_cells c) -> within 1 (moved (GV 0 0 0) (gc_ipos k))) /\ within 1 (fraction c (GV (6 / 10) (6 / 10) (1 / 2))).
Proof.
  split; [apply far_case|]. assert (B : forall x b, - b <= x <= b -> Rabs x <= b) by (intros; apply Rabs_le; auto). split.
  - intros k [<- | [<- | []]]; unfold within; cbn; repeat split; apply B; lra.
  - unfold within, fraction; cbn; repeat split; apply B; lra.
Qed.

(** Double precision. The basis of the repository's tests, box of size 1: the position (3/8, 3/64, 27/64), in the box and exactly representable, is in no cell. *)
Theorem C102_lost_refuted : exists c x, unimodular (0, 1, 1)%Z (1, 0, 1)%Z (0, 1, 0)%Z /\
  gcuboid_new binary64 (0, 1, 1)%Z (1, 0, 1)%Z (0, 1, 0)%Z (GV (of_Z binary64 1) (of_Z binary64 1) (of_Z binary64 1)) = Ok c /\
  values x (V (3 / 8) (3 / 64) (27 / 64)) /\ in_box (V 1 1 1) (V (3 / 8) (3 / 64) (27 / 64)) /\
  gtransform1 binary64 c x = Err CuboidError.
Proof. exact lost_tests. Qed.
Print Assumptions C102_lost_refuted.
(** Another basis, and a position on a grid of eight cells a side. *)
Theorem C102_grid_lost_refuted : exists c x, unimodular (2, 1, 1)%Z (1, 1, 0)%Z (0, 0, 1)%Z /\
  gcuboid_new binary64 (2, 1, 1)%Z (1, 1, 0)%Z (0, 0, 1)%Z (GV (of_Z binary64 1) (of_Z binary64 1) (of_Z binary64 1)) = Ok c /\
  values x (V 0 (3 / 8) (5 / 8)) /\ in_box (V 1 1 1) (V 0 (3 / 8) (5 / 8)) /\
  gtransform1 binary64 c x = Err CuboidError.
Proof. exact lost_grid. Qed.
Print Assumptions C102_grid_lost_refuted.
(** One lost position makes the transform of the whole array fail, in any arithmetic. *)
Theorem C102_one_lost_all_lost : forall A c l x, In x l -> gtransform1 A c x = Err CuboidError -> gtransform A c l = Err CuboidError.
Proof. exact one_lost. Qed.
Print Assumptions C102_one_lost_all_lost.
(** Not all positions are lost: (3/8, 3/64, 26/64) has an image in double precision. *)
Example C102_case_found : exists c y, gcuboid_new binary64 (0, 1, 1)%Z (1, 0, 1)%Z (0, 1, 0)%Z (GV (of_Z binary64 1) (of_Z binary64 1) (of_Z binary64 1)) = Ok c /\
  gtransform1 binary64 c (GV (dyadic 3 3) (dyadic 3 6) (dyadic 26 6)) = Ok y.
Proof. exact found_tests. Qed.
