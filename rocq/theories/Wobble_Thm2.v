(** C102: remapping in IEEE double precision. *)
Require Import Reals Lra Lia ZArith List Bool SpecFloat.
From Verif Require Import Base Vec3 Remap_Model Remap_Spec Wobble_Model Wobble_Spec Wobble_Proof Wobble_Proof2 Wobble_Proof3 Wobble_Proof4 Wobble_Proof5 Wobble_Proof6 Round_Spec.
Import ListNotations.
Open Scope R_scope.

(** Rounding to double precision is accurate to 2^-53, or to 2^-1075 below underflow: the hypothesis of C102_far_from_faces_partial is met. *)
Theorem C102_double_rounds : rounds (/ 2 ^ 53) (powerRZ 2 (-1075)) double.
Proof. exact double_rounds. Qed.
Print Assumptions C102_double_rounds.

(** The transform in IEEE arithmetic (bit patterns, signed zeros, infinities) is that of real numbers rounded after every operation:
    same error, or same numbers, for every position, as long as sizes exclude overflow. *)
Theorem C102_double_precision : forall cf c f x, cuboid_holds 200 cf c -> vec_holds 200 f x -> (length (gu_cells c) <= 500)%nat ->
  gx (gu_boxsize c) <> 0 -> gy (gu_boxsize c) <> 0 -> gz (gu_boxsize c) <> 0 -> within (powerRZ 2 53) (fraction c x) ->
  match gtransform1 (rounded double) c x with
  | Ok y => exists z, gtransform1 binary64 cf f = Ok z /\ vec_holds 1023 z y
  | Err e => gtransform1 binary64 cf f = Err e
  end.
Proof. intros. apply transform_holds with (k := 200%Z) (l := 53%Z); try assumption; lia. Qed.
Print Assumptions C102_double_precision.

(** Hence in double precision: far from the faces that decide, a position goes the same way as with real numbers.
    Missing: rounding of the numbers stored in the cuboid, and positions near faces, which may be lost (C102_lost_refuted). *)
Theorem C102_double_far_partial : forall cf c f x n d s b q t, cuboid_holds 200 cf c -> vec_holds 200 f x -> (length (gu_cells c) <= 500)%nat -> b <= powerRZ 2 53 ->
  gx (gu_boxsize c) <> 0 -> gy (gu_boxsize c) <> 0 -> gz (gu_boxsize c) <> 0 -> stored n d s c -> 0 <= d -> 1 <= b ->
  let m := margin (/ 2 ^ 53) (powerRZ 2 (-1075)) (length (gu_cells c)) n d b in
  walk m b (gu_cells c) (fraction c x) q t ->
  if t then exists z y, gtransform1 binary64 cf f = Ok z /\ values z (vec_of_gvec y) /\ near (s * m + powerRZ 2 (-1075)) y (image c q)
  else gtransform1 binary64 cf f = Err CuboidError.
Proof. exact double_far. Qed.
Print Assumptions C102_double_far_partial.

(** Wherever the position is, double precision gives the image of some periodic copy, or an error. *)
Theorem C102_double_copy_or_error : forall cf c f x n d s r, cuboid_holds 200 cf c -> vec_holds 200 f x -> (length (gu_cells c) <= 500)%nat ->
  gx (gu_boxsize c) <> 0 -> gy (gu_boxsize c) <> 0 -> gz (gu_boxsize c) <> 0 -> stored n d s c -> 0 <= d -> 0 <= r ->
  (forall k, In k (gu_cells c) -> within r (moved (GV 0 0 0) (gc_ipos k))) -> within 1 (fraction c x) ->
  gtransform1 binary64 cf f = Err CuboidError \/
  exists z y i, gtransform1 binary64 cf f = Ok z /\ values z (vec_of_gvec y) /\
    near (s * margin (/ 2 ^ 53) (powerRZ 2 (-1075)) (length (gu_cells c)) n d (1 + r * INR (length (gu_cells c))) + powerRZ 2 (-1075)) y (image c (moved (fraction c x) i)).
Proof. exact double_copy. Qed.
Print Assumptions C102_double_copy_or_error.

(** Two cells, three faces; a position moved by the first cell and kept by the second. *)
Example C102_case_double :
  let o := dyadic 0 0 in let l := dyadic 1 0 in let h := dyadic 3 2 in let mh := dyadic (-3) 2 in
  let cf := GCuboid (GV l l l) (GV h h o) (GV mh h o) (GV o o l) (GV l l l)
    [GCell (-1, 0, 0)%Z [GPlane (GV h mh o) o; GPlane (GV h h o) mh]; GCell (0, 0, 0)%Z [GPlane (GV mh h o) o]] in
  let c := GCuboid (GV 1 1 1) (GV (3 / 4) (3 / 4) 0) (GV (- (3 / 4)) (3 / 4) 0) (GV 0 0 1) (GV 1 1 1)
    [GCell (-1, 0, 0)%Z [GPlane (GV (3 / 4) (- (3 / 4)) 0) 0; GPlane (GV (3 / 4) (3 / 4) 0) (- (3 / 4))]; GCell (0, 0, 0)%Z [GPlane (GV (- (3 / 4)) (3 / 4) 0) 0]] in
  cuboid_holds 200 cf c /\ vec_holds 200 (GV (dyadic 7 3) (dyadic 3 3) (dyadic 1 1)) (GV (7 / 8) (3 / 8) (1 / 2)) /\ stored 1 1 1 c /\
  walk (margin (/ 2 ^ 53) (powerRZ 2 (-1075)) 2 1 1 2) 2 (gu_cells c) (fraction c (GV (7 / 8) (3 / 8) (1 / 2))) (GV (- (1 / 8)) (3 / 8) (1 / 2)) true.
Proof. exact double_case. Qed.

(** A basis whose determinant is not 1 is rejected, whatever the arithmetic: no rounding enters. *)
Theorem C102_rejected : forall A u1 u2 u3 size, ~ unimodular u1 u2 u3 -> gcuboid_new A u1 u2 u3 size = Err ValueError.
Proof. intros A u1 u2 u3 size H. apply rejected. rewrite idet_zdet. exact H. Qed.
Print Assumptions C102_rejected.
Example C102_case_rejected : ~ unimodular (1, 1, 0)%Z (0, 1, 1)%Z (1, 0, 1)%Z.
Proof. discriminate. Qed.

(** What is stored need not be exact: if the stored numbers are within [delta] of the cuboid of real numbers, every position of the box which is far from its faces
    is found in double precision, with an image near the exact one. Missing: that the constructor always stores such numbers (with the same faces), and positions near faces. *)
Theorem C102_stored_found_partial : forall u1 u2 u3 size (c : gcuboid R) delta c' cf f x n d s b q t,
  unimodular u1 u2 u3 -> positive (vec_of_gvec size) -> gcuboid_new exact u1 u2 u3 size = Ok c -> in_box (vec_of_gvec size) (vec_of_gvec x) ->
  0 <= delta -> close delta c' c -> cuboid_holds 200 cf c' -> vec_holds 200 f x -> (length (gu_cells c) <= 500)%nat ->
  stored n d s c -> stored n d s c' -> 0 <= d -> 1 <= b <= powerRZ 2 53 ->
  let m := margin (/ 2 ^ 53) (powerRZ 2 (-1075)) (length (gu_cells c)) n d b in
  walk (m + (3 * b + 1) * delta) b (gu_cells c) (fraction c x) q t ->
  exists z y w, gtransform1 exact c x = Ok w /\ gtransform1 binary64 cf f = Ok z /\ values z (vec_of_gvec y) /\
    near (s * m + powerRZ 2 (-1075) + 3 * b * (s + n) * delta) y w.
Proof. exact stored_found. Qed.
Print Assumptions C102_stored_found_partial.

(** All hypotheses are met by what the constructor really stores, for a box of size 1 sheared by (1, 1, 0), (0, 1, 0), (0, 0, 1):
    every double-precision position of the box farther than 10^-13 from the diagonals x = y, x + y = 1 and from the corner is found,
    with an image within 10^-13 of that of real numbers. *)
Theorem C102_shear : exists (cf : gcuboid spec_float) (c : gcuboid R),
  gcuboid_new binary64 (1, 1, 0)%Z (0, 1, 0)%Z (0, 0, 1)%Z (GV (of_Z binary64 1) (of_Z binary64 1) (of_Z binary64 1)) = Ok cf /\
  gcuboid_new exact (1, 1, 0)%Z (0, 1, 0)%Z (0, 0, 1)%Z (GV 1 1 1) = Ok c /\
  forall f x, vec_holds 0 f x -> in_box (V 1 1 1) (vec_of_gvec x) ->
    / 10 ^ 13 < Rabs (gx x - gy x) -> gx x - gy x < 1 - / 10 ^ 13 -> / 10 ^ 13 < Rabs (gx x + gy x - 1) ->
    exists z y w, gtransform1 exact c x = Ok w /\ gtransform1 binary64 cf f = Ok z /\ values z (vec_of_gvec y) /\ near (/ 10 ^ 13) y w.
Proof. exists shear_double, shear_exact. split; [exact shear_double_new|]. split; [exact shear_new|exact shear_found]. Qed.
Print Assumptions C102_shear.
Example C102_case_shear : in_box (V 1 1 1) (V (7 / 8) (3 / 8) (1 / 2)) /\ / 10 ^ 13 < Rabs (7 / 8 - 3 / 8) /\ 7 / 8 - 3 / 8 < 1 - / 10 ^ 13 /\ / 10 ^ 13 < Rabs (7 / 8 + 3 / 8 - 1) /\
  value (dyadic 3 3) = Some (3 / 8).
Proof.
  rewrite !Rabs_right by lra. split; [unfold in_box; cbn; lra|]. assert (/ 10 ^ 13 < 1 / 8) by (apply Rlt_le_trans with (/ 10); [apply Rinv_lt_contravar; lra|lra]).
  repeat split; try lra. exact value_3_8.
Qed.
