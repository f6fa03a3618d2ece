(** Properties C12 to C17: box catalogs. Vocabulary in Box_Spec.v and Cutsky_Spec.v. *)
Require Import Reals Lra Lia ZArith List Bool String Sorted Permutation.
From Verif Require Import Base Vec3 Isometry_Model Isometry_Spec Isometry_Proof Sky_Model Cutsky_Model Cutsky_Spec Cutsky_Proof Box_Model Box_Spec
  Box_Proof Box_Proof2 Box_Proof3 Box_Proof4 Box_Proof5.
Import ListNotations.
Open Scope R_scope.

(** A catalog with two particles, used in the examples. *)
Definition two_particles : boxcat :=
  BoxCat (pcat_new [("Position"%string, ColV [V 1 0 0; V 0 (1 / 2) (-1)]); ("Velocity"%string, ColV [V 0 0 1; V 0 0 2]); ("Mass"%string, ColS [5; 7])]
                   "Position" "Velocity" [] []) (V 2 4 6) (V (1 / 2) 0 0).

(** C12. rotate by k quarter turns about x, y or z is k counter-clockwise quarter turns of everything: positions, velocities, centre. *)
Theorem C12_rotate : forall c k a ax, axis_means a ax -> vectors_ok (bc_cat c) ->
  exists c', rotate c k ax = Ok c' /\ boxsize c' = vabs (quarters a k (boxsize c)) /\ boxcenter c' = quarters a k (boxcenter c) /\
    names (bc_cat c') = names (bc_cat c) /\
    (forall n l, column (bc_cat c) n = Some (ColV l) -> In n (pc_vectors (bc_cat c)) -> column (bc_cat c') n = Some (ColV (map (quarters a k) l))) /\
    (forall n x, column (bc_cat c) n = Some x -> ~ In n (pc_vectors (bc_cat c)) -> column (bc_cat c') n = Some x).
Proof. exact rotate_thm. Qed.
Print Assumptions C12_rotate.
Example C12_case : axis_means Y (AxStr "y") /\ vectors_ok (bc_cat two_particles).
Proof.
  split; [cbn; auto|]. intros n x I J. cbn in I, J. destruct I as [I|[I|[I|[]]]]; injection I as <- <-; eauto.
  cbn in J. destruct J as [J|[J|[]]]; discriminate.
Qed.

(** A particle is in the box after the rotation exactly if it was before; volume and side lengths are kept. *)
Theorem C12_containment : forall a k size ctr p, 0 <= vx size -> 0 <= vy size -> 0 <= vz size ->
  contained (vabs (quarters a k size)) (quarters a k ctr) (quarters a k p) <-> contained size ctr p.
Proof. exact quarters_contained. Qed.
Print Assumptions C12_containment.
Theorem C12_volume_and_sides : forall a k size, 0 <= vx size -> 0 <= vy size -> 0 <= vz size ->
  volume (vabs (quarters a k size)) = volume size /\ Permutation (sides (vabs (quarters a k size))) (sides size).
Proof. exact quarters_volume. Qed.
Print Assumptions C12_volume_and_sides.
Theorem C12_turns_add : forall a k l p, quarters a k (quarters a l p) = quarters a (k + l) p.
Proof. exact quarters_add. Qed.
Print Assumptions C12_turns_add.
Theorem C12_full_turn : forall a k p, (k mod 4 = 0)%Z -> quarters a k p = p.
Proof. exact quarters_full. Qed.
Print Assumptions C12_full_turn.
Example C12_case2 : ((-8) mod 4 = 0)%Z /\ quarters Z 1 (V 1 2 3) <> V 1 2 3.
Proof. split; [reflexivity|]. unfold quarters; change (Z.to_nat (1 mod 4)) with 1%nat; cbn. intros H. apply (f_equal vx) in H. cbn in H. lra. Qed.

(** With the default axis (None) the rotation is about (1, 1, 1), and a box of volume 4 becomes a box of volume 2. *)
Theorem C12_default_axis_refuted : exists c c', volume (boxsize c) = 4 /\ rotate c 1 AxNone = Ok c' /\ volume (boxsize c') = 2.
Proof.
  destruct rotate_none as (c' & E & V). exists tall_box, c'. split; auto. unfold volume; cbn; ring.
Qed.
Print Assumptions C12_default_axis_refuted.

(** C13 *)
Theorem C13_translate : forall c sh ax v, shift_means sh ax v -> vectors_ok (bc_cat c) ->
  exists c', translate c sh ax = Ok c' /\ boxsize c' = boxsize c /\ boxcenter c' = vadd (boxcenter c) v /\
    names (bc_cat c') = names (bc_cat c) /\
    (forall n l, column (bc_cat c) n = Some (ColV l) -> moves (bc_cat c) n -> column (bc_cat c') n = Some (ColV (map (fun p => vadd p v) l))) /\
    (forall n x, column (bc_cat c) n = Some x -> ~ moves (bc_cat c) n -> column (bc_cat c') n = Some x).
Proof. exact translate_thm. Qed.
Print Assumptions C13_translate.
Example C13_case : shift_means (ShScalar 3) (AxStr "y") (V 0 3 0) /\ vectors_ok (bc_cat two_particles).
Proof. split; [constructor|apply C12_case]. Qed.
Theorem C13_recenter : forall c, vectors_ok (bc_cat c) ->
  exists c', recenter c = Ok c' /\ translate c (ShVec (vopp (boxcenter c))) AxNone = Ok c' /\ boxcenter c' = vzero /\ boxsize c' = boxsize c.
Proof. exact recenter_thm. Qed.
Print Assumptions C13_recenter.
Theorem C13_containment : forall size ctr p v, contained size (vadd ctr v) (vadd p v) <-> contained size ctr p.
Proof. exact contained_shift. Qed.
Print Assumptions C13_containment.

(** C14. Rows kept: exactly those with lo <= x < hi on each axis, in order; every column is cut in the same way. *)
Theorem C14_subbox_rows : forall c r0 r1 r2 unit n pos, rows_ok n (bc_cat c) ->
  column (bc_cat c) (pc_position (bc_cat c)) = Some (ColV pos) ->
  exists c' idx, subbox c (RList [r0; r1; r2]) unit = Ok c' /\ StronglySorted lt idx /\
    (forall i, In i idx <-> exists p, nth_error pos i = Some p /\
      within (abs_range unit (vx (boxsize c)) (vx (boxcenter c) - vx (boxsize c) / 2) r0) (vx p) /\
      within (abs_range unit (vy (boxsize c)) (vy (boxcenter c) - vy (boxsize c) / 2) r1) (vy p) /\
      within (abs_range unit (vz (boxsize c)) (vz (boxcenter c) - vz (boxsize c) / 2) r2) (vz p)) /\
    names (bc_cat c') = names (bc_cat c) /\
    (forall m x, column (bc_cat c) m = Some x -> column (bc_cat c') m = Some (pick_col idx x)).
Proof. exact subbox_rows. Qed.
Print Assumptions C14_subbox_rows.
Example C14_case : rows_ok 2 (bc_cat two_particles) /\
  exists pos, column (bc_cat two_particles) (pc_position (bc_cat two_particles)) = Some (ColV pos) /\ List.length pos = 2%nat.
Proof.
  split; [|eexists; split; reflexivity]. intros n x I. cbn in I. destruct I as [I|[I|[I|[]]]]; injection I as <- <-; reflexivity.
Qed.
Theorem C14_one_range : forall c lo hi unit, subbox c (ROne lo hi) unit = subbox c (RList [(lo, hi); (lo, hi); (lo, hi)]) unit.
Proof. exact subbox_one. Qed.
Print Assumptions C14_one_range.
Theorem C14_wrong_number_of_ranges : forall c l unit, List.length l <> 3%nat -> exists e, subbox c (RList l) unit = Err e.
Proof. exact subbox_wrong. Qed.
Print Assumptions C14_wrong_number_of_ranges.

(** The new box is the part of the old box within the (closed) ranges. *)
Theorem C14_new_box : forall c r0 r1 r2 unit c', subbox c (RList [r0; r1; r2]) unit = Ok c' ->
  forall p, contained (boxsize c') (boxcenter c') p <-> contained (boxsize c) (boxcenter c) p /\
    (let a0 := abs_range unit (vx (boxsize c)) (vx (boxcenter c) - vx (boxsize c) / 2) r0 in
     let a1 := abs_range unit (vy (boxsize c)) (vy (boxcenter c) - vy (boxsize c) / 2) r1 in
     let a2 := abs_range unit (vz (boxsize c)) (vz (boxcenter c) - vz (boxsize c) / 2) r2 in
     fst a0 <= vx p <= snd a0 /\ fst a1 <= vy p <= snd a1 /\ fst a2 <= vz p <= snd a2).
Proof. exact subbox_box. Qed.
Print Assumptions C14_new_box.

(** The sub-boxes of a grid hold together exactly the rows of the sub-box spanned by the grid, each once. *)
Theorem C14_grid_partition : forall c e0 e1 e2 unit n pos, rows_ok n (bc_cat c) ->
  column (bc_cat c) (pc_position (bc_cat c)) = Some (ColV pos) ->
  (unit = true -> 0 <= vx (boxsize c) /\ 0 <= vy (boxsize c) /\ 0 <= vz (boxsize c)) ->
  e0 <> [] -> e1 <> [] -> e2 <> [] -> StronglySorted Rle e0 -> StronglySorted Rle e1 -> StronglySorted Rle e2 ->
  exists whole cells, subbox c (RList (hull e0 e1 e2)) unit = Ok whole /\
    map_result (fun r => subbox c (RList r) unit) (grid e0 e1 e2) = Ok cells /\
    forall name, Permutation (flat_map (vvals name) cells) (vvals name whole) /\ Permutation (flat_map (svals name) cells) (svals name whole).
Proof. exact subbox_partition. Qed.
Print Assumptions C14_grid_partition.
Example C14_case2 : StronglySorted Rle [0; 1 / 2; 1] /\ List.length (grid [0; 1 / 2; 1] [0; 1] [0; 1 / 3; 2 / 3; 1]) = 6%nat.
Proof. split; [|reflexivity]. repeat constructor; lra. Qed.

(** C15. What holds: the rows returned are periodic images inside the enlarged box, all columns of a row staying together. *)
Theorem C15_rows_are_images_partial : forall c f c' pos, moves (bc_cat c) (pc_position (bc_cat c)) ->
  column (bc_cat c) (pc_position (bc_cat c)) = Some (ColV pos) -> pad c f = Ok c' ->
  exists rows, boxsize c' = vmul (boxsize c) f /\ boxcenter c' = boxcenter c /\ names (bc_cat c') = names (bc_cat c) /\
    (forall i v, In (i, v) rows -> lattice_shift (boxsize c) v /\ exists p, nth_error pos i = Some p /\ contained (boxsize c') (boxcenter c') (vadd p v)) /\
    (forall n l, column (bc_cat c) n = Some (ColV l) -> moves (bc_cat c) n -> column (bc_cat c') n = Some (ColV (pick_moved rows l))) /\
    (forall n x, column (bc_cat c) n = Some x -> ~ moves (bc_cat c) n -> column (bc_cat c') n = Some (pick_col (map fst rows) x)).
Proof. exact pad_rows. Qed.
Print Assumptions C15_rows_are_images_partial.
Example C15_case : moves (bc_cat one_particle) (pc_position (bc_cat one_particle)) /\ exists c', pad one_particle (V 1 1 1) = Ok c'.
Proof.
  split; [|destruct pad_triples as (c' & p & E & _); eauto]. unfold moves; cbn. split; auto. intros [H|[]]; discriminate.
Qed.

(** What fails: a particle at the centre of the box is lost for the default factor, and tripled for factor 1;
    no factor above 2 works, whatever the catalog. *)
Theorem C15_particle_lost_refuted : exists c c' p, column (bc_cat c) "Position" = Some (ColV [p]) /\ p = boxcenter c /\
  pad c (V (11 / 10) (11 / 10) (11 / 10)) = Ok c' /\ column (bc_cat c') "Position" = Some (ColV []).
Proof. destruct pad_drops as (c' & E & K). exists one_particle, c', (V 0 0 0). auto. Qed.
Print Assumptions C15_particle_lost_refuted.
Theorem C15_particle_tripled_refuted : exists c c' p q, column (bc_cat c) "Position" = Some (ColV [p]) /\ p = boxcenter c /\
  pad c (V 1 1 1) = Ok c' /\ column (bc_cat c') "Position" = Some (ColV [q; q; q]).
Proof. destruct pad_triples as (c' & q & E & K). exists one_particle, c', (V 0 0 0), q. auto. Qed.
Print Assumptions C15_particle_tripled_refuted.
Theorem C15_factor_above_two_refuted : forall c f, 2 < vx f -> pad c f = Err ValueError.
Proof. exact pad_above_two. Qed.
Print Assumptions C15_factor_above_two_refuted.

(** C16. Whenever a list is returned: every cut is the box-to-sky map of a sub-box inside the box at the external margin, the sub-boxes are
    the internal margin apart, and their number is as requested or the largest possible. *)
Theorem C16_cuts_disjoint_inside : forall c dr rr de em im no l, isometry_for_cutsky c dr rr de em im no = Ok (IsoList l) ->
  forall b o, cutsky_to_box dr rr de = Ok (b, o) -> 0 < vx b -> 0 < vy b -> 0 < vz b ->
  exists centers, Forall2 (fun s x => forall p, transform s false p = transform o false (vsub p x)) l centers /\
    (forall x, In x centers -> inside1 (vx (boxsize c)) (vx (boxcenter c)) (vx b) (margin (mg0 em)) (vx x) /\
       inside1 (vy (boxsize c)) (vy (boxcenter c)) (vy b) (margin (mg1 em)) (vy x) /\
       inside1 (vz (boxsize c)) (vz (boxcenter c)) (vz b) (margin (mg2 em)) (vz x)) /\
    (forall i j x y, i <> j -> nth_error centers i = Some x -> nth_error centers j = Some y -> apart b im x y) /\
    (forall n, no = Some n -> List.length l = n) /\
    (no = None -> 0 <= margin (mg0 im) -> 0 <= margin (mg1 im) -> 0 <= margin (mg2 im) ->
      forall n0 n1 n2, fits (vx (boxsize c)) (vx b) (margin (mg0 em)) (margin (mg0 im)) n0 ->
       fits (vy (boxsize c)) (vy b) (margin (mg1 em)) (margin (mg1 im)) n1 -> fits (vz (boxsize c)) (vz b) (margin (mg2 em)) (margin (mg2 im)) n2 ->
       (n0 * n1 * n2 <= List.length l)%nat).
Proof. exact ifc_list. Qed.
Print Assumptions C16_cuts_disjoint_inside.
Theorem C16_particles_apart : forall b im x y p q, apart b im x y -> contained b x p -> contained b y q ->
  margin (mg0 im) <= Rabs (vx p - vx q) \/ margin (mg1 im) <= Rabs (vy p - vy q) \/ margin (mg2 im) <= Rabs (vz p - vz q).
Proof. exact apart_points. Qed.
Print Assumptions C16_particles_apart.
Theorem C16_single_cut : forall c dr rr de em im s, isometry_for_cutsky c dr rr de em im (Some 1%nat) = Ok (IsoOne s) ->
  forall b o, cutsky_to_box dr rr de = Ok (b, o) -> forall p, transform s false p = transform o false (vsub p (boxcenter c)).
Proof. exact ifc_one. Qed.
Print Assumptions C16_single_cut.

(** It succeeds when the requested number fits, and raises ValueError when it does not, for margins that are both None,
    or both given with a positive external margin. *)
Theorem C16_fits_or_error_partial : forall c dr rr de em im b o no, cutsky_to_box dr rr de = Ok (b, o) -> 0 < vx b -> 0 < vy b -> 0 < vz b ->
  usable (vx (boxsize c)) (vx b) (mg0 em) (mg0 im) -> usable (vy (boxsize c)) (vy b) (mg1 em) (mg1 im) -> usable (vz (boxsize c)) (vz b) (mg2 em) (mg2 im) ->
  let fit n0 n1 n2 := fits (vx (boxsize c)) (vx b) (margin (mg0 em)) (margin (mg0 im)) n0 /\
     fits (vy (boxsize c)) (vy b) (margin (mg1 em)) (margin (mg1 im)) n1 /\ fits (vz (boxsize c)) (vz b) (margin (mg2 em)) (margin (mg2 im)) n2 in
  (forall n, no = Some n -> (2 <= n)%nat -> (exists n0 n1 n2, fit n0 n1 n2 /\ (n <= n0 * n1 * n2)%nat) ->
     exists l, isometry_for_cutsky c dr rr de em im no = Ok (IsoList l)) /\
  (forall n, no = Some n -> (2 <= n)%nat -> (forall n0 n1 n2, fit n0 n1 n2 -> (n0 * n1 * n2 < n)%nat) ->
     isometry_for_cutsky c dr rr de em im no = Err ValueError) /\
  (no = None -> exists l, isometry_for_cutsky c dr rr de em im no = Ok (IsoList l)).
Proof. exact ifc_usable. Qed.
Print Assumptions C16_fits_or_error_partial.
Example C16_case : usable 10 3 (Some (1 / 2)) (Some (1 / 4)) /\ usable 10 6 None None /\
  exists b o, cutsky_to_box (0, 3) (0, 180) (-90, 90) = Ok (b, o) /\ b = V 3 6 6.
Proof.
  split; [right; exists (1 / 2), (1 / 4); repeat split; auto; unfold fits; cbn; lra|]. split; [left; repeat split; lra|].
  destruct (ctb_ok (0, 3) (0, 180) (-90, 90)) as (s & E & _). exists (ctb_boxsize (0, 3) (0, 180) (-90, 90)), s. split; auto.
  rewrite ctb_half. f_equal; ring.
Qed.

(** Otherwise it can fail although the cuts fit: with only one of the margins given ("AssertionError"), or with a zero external margin
    (division by zero, NaN centres). *)
Theorem C16_one_margin_refuted : exists b o, cutsky_to_box (0, 3) (0, 180) (-90, 90) = Ok (b, o) /\
  fits 10 (vx b) (1 / 2) 0 1 /\ fits 10 (vy b) (1 / 2) 0 1 /\ fits 10 (vz b) (1 / 2) 0 1 /\
  isometry_for_cutsky cube10 (0, 3) (0, 180) (-90, 90) (all_margin (Some (1 / 2))) (all_margin None) None = Err AssertionError.
Proof. exact ifc_one_margin. Qed.
Print Assumptions C16_one_margin_refuted.
Theorem C16_zero_external_refuted : exists b o, cutsky_to_box (0, 6) (0, 180) (-90, 90) = Ok (b, o) /\
  fits 10 (vx b) 0 1 1 /\ fits 20 (vy b) 0 1 1 /\ fits 20 (vz b) 0 1 1 /\
  isometry_for_cutsky slab20 (0, 6) (0, 180) (-90, 90) (all_margin (Some 0)) (all_margin (Some 1)) None = Err ZeroDivision.
Proof. exact ifc_zero_external. Qed.
Print Assumptions C16_zero_external_refuted.

(** C17 *)
Theorem C17_selected_rows : forall c s mr ma rdd n pos, wf n (bc_cat c) ->
  column (bc_cat c) (pc_position (bc_cat c)) = Some (ColV pos) ->
  (forall p, In p pos -> transform s false p <> vzero) ->
  (forall f, mr = Some f -> forall l, List.length l = n -> List.length (f l) = n) ->
  (forall f, ma = Some f -> forall l l', List.length l = n -> List.length l' = n -> List.length (f l l') = n) ->
  NoDup (rdd_names rdd) ->
  exists c' idx sky, cutsky_from_isometry1 c s mr ma rdd = Ok c' /\ StronglySorted lt idx /\
    (forall i p, nth_error pos i = Some p -> exists d ra dec, nth_error sky i = Some (d, ra, dec) /\
       0 < d /\ 0 <= ra < 360 /\ -90 <= dec <= 90 /\ transform s false p = sky_point d ra dec) /\
    (forall i, In i idx <-> (i < n)%nat /\
       (forall f, mr = Some f -> nth_error (f (map (fun x => fst (fst x)) sky)) i = Some true) /\
       (forall f, ma = Some f -> nth_error (f (map (fun x => snd (fst x)) sky) (map snd sky)) i = Some true)) /\
    (forall m l, column (bc_cat c) m = Some (ColV l) -> moves (bc_cat c) m -> ~ In m (rdd_names rdd) ->
       column c' m = Some (ColV (pick idx (map (transform s false) l)))) /\
    (forall m l, column (bc_cat c) m = Some (ColV l) -> In m (pc_vectors (bc_cat c)) -> In m (pc_invariants (bc_cat c)) -> ~ In m (rdd_names rdd) ->
       column c' m = Some (ColV (pick idx (map (transform s true) l)))) /\
    (forall m x, column (bc_cat c) m = Some x -> ~ In m (pc_vectors (bc_cat c)) -> ~ In m (rdd_names rdd) -> column c' m = Some (pick_col idx x)) /\
    (forall a b d, rdd = Some (a, b, d) -> column c' a = Some (ColS (pick idx (map (fun x => snd (fst x)) sky))) /\
       column c' b = Some (ColS (pick idx (map snd sky))) /\ column c' d = Some (ColS (pick idx (map (fun x => fst (fst x)) sky)))).
Proof. exact cfi1_thm. Qed.
Print Assumptions C17_selected_rows.
Example C17_case : wf 2 (bc_cat two_particles) /\ (forall p, In p [V 1 0 0; V 0 (1 / 2) (-1)] -> transform iso_new false p <> vzero) /\ NoDup (rdd_names rdd_default).
Proof.
  split; [|split].
  - split; [apply C14_case|]. split; [apply C12_case|]. cbn. repeat split; auto. intros [H|[]]; discriminate.
  - intros p H K. destruct H as [<-|[<-|[]]]; [apply (f_equal vx) in K|apply (f_equal vz) in K]; revert K; unfold transform, iso_new; cbn; vunfold; cbn; lra.
  - repeat constructor; cbn; intuition discriminate.
Qed.
Theorem C17_one_isometry : forall c s mr ma rdd r,
  cutsky_from_isometry c (IsoOne s) mr ma rdd = Ok r <-> exists x, r = [x] /\ cutsky_from_isometry1 c s mr ma rdd = Ok x.
Proof. exact cfi_one. Qed.
Print Assumptions C17_one_isometry.

(** A list of isometries gives the list of results, but with the default column names whatever [rdd] is. *)
Theorem C17_list_of_isometries_partial : forall c l mr ma rdd r, cutsky_from_isometry c (IsoList l) mr ma rdd = Ok r ->
  Forall2 (fun s x => cutsky_from_isometry1 c s mr ma rdd_default = Ok x) l r.
Proof. exact cfi_list. Qed.
Print Assumptions C17_list_of_isometries_partial.
Theorem C17_list_rdd_ignored_refuted : exists c r x, column (bc_cat c) "RA" = None /\
  cutsky_from_isometry c (IsoList [iso_new]) None None None = Ok [r] /\ column r "RA" = Some (ColS x).
Proof. destruct cfi_list_rdd as (r & x & E & K). exists far_particle, r, x. auto. Qed.
Print Assumptions C17_list_rdd_ignored_refuted.
