(** Properties C67 and C74: the steps of from_box_to_desi_cutsky.py. *)
Require Import Reals ZArith String List Bool Lra Lia Arith Sorted Permutation.
From Verif Require Import Base Vec3 Isometry_Model Isometry_Spec Sky_Model Cutsky_Model Box_Model Box_Spec Box_Proof Box_Proof2 Box_Proof4 Rsd_Model Remap_Model Remap_Spec Remap_Thm
  Lattice_Model Lattice_Spec Lattice_Thm Mask_Model Mask_Spec Mask_Proof Mask_Proof3 Sample_Model Sample_Spec Sample_Thm Spline_Model Spline_Spec Spline_Thm Region_Model Region_Spec Region_Thm Script_Model.
From Verif Require Blind_Thm2.
From Verif Require Import Rsd_Thm.
Import ListNotations.
Open Scope R_scope.

(** ** C74 *)
(** (x, y, z) -> (z, x, y). *)
Definition depth_first (p : vec) : vec := V (vz p) (vx p) (vy p).
Lemma two_turns : forall p, quarters X 1 (quarters Y 1 p) = depth_first p.
Proof. intros [x y z]. unfold quarters. change (Z.to_nat (1 mod 4)) with 1%nat. cbn. unfold depth_first. cbn. f_equal; ring. Qed.
Lemma map_cols_In : forall f d d' n x, map_cols f d = Ok d' -> In (n, x) d' -> exists y, In (n, y) d /\ f n y = Ok x.
Proof.
  induction d as [|[m y] d IH]; intros d' n x H K; cbn in H; [injection H as <-; destruct K|].
  destruct (f m y) as [y'|] eqn:E; [|discriminate]. cbn [bind] in H. destruct (map_cols f d) as [d''|] eqn:E2; [|discriminate]. cbn [bind] in H. injection H as <-.
  destruct K as [K|K]; [injection K as <- <-; exists y; cbn; auto|]. destruct (IH _ n x eq_refl K) as (y0 & A & B). exists y0. cbn. auto.
Qed.
Lemma remap_keeps : forall c a c', remap c a = Ok c' -> vectors_ok (bc_cat c') /\ pc_vectors (bc_cat c') = pc_vectors (bc_cat c).
Proof.
  intros c a c' H. unfold remap in H. destruct (remap_cuboid (boxsize c) a) as [cu|]; [|discriminate]. cbn [bind] in H. destruct (map_cols _ _) as [d|] eqn:E; [|discriminate].
  cbn [bind] in H. injection H as <-. cbn [bc_cat pc_vectors]. split; auto. intros n x K V. cbn [pc_data pc_vectors] in *. destruct (map_cols_In _ _ _ _ _ E K) as (y & _ & F).
  cbn beta in F. assert (M : mem n (pc_vectors (bc_cat c)) = true) by (apply existsb_exists; exists n; split; auto; apply String.eqb_refl). rewrite M in F.
  destruct y as [l|l]; cbn in F; [|discriminate]. destruct (mem n (pc_invariants (bc_cat c))).
  - destruct (cu_transform cu true l); [|discriminate]. cbn [bind] in F. injection F as <-. eauto.
  - destruct (cu_transform cu false _); [|discriminate]. cbn [bind] in F. injection F as <-. eauto.
Qed.
Lemma rotate_keeps : forall c k ax c', rotate c k ax = Ok c' -> vectors_ok (bc_cat c') /\ pc_vectors (bc_cat c') = pc_vectors (bc_cat c).
Proof.
  intros c k ax c' H. unfold rotate in H. destruct (iso_ok _) as [s|]; [|discriminate]. cbn [bind] in H. unfold transform_vectors in H. destruct (map_cols _ _) as [d|] eqn:E; [|discriminate].
  cbn [bind] in H. injection H as <-. cbn [bc_cat pc_vectors]. split; auto. intros n x K V. cbn [pc_data pc_vectors] in *. destruct (map_cols_In _ _ _ _ _ E K) as (y & _ & F).
  cbn beta in F. assert (M : mem n (pc_vectors (bc_cat c)) = true) by (apply existsb_exists; exists n; split; auto; apply String.eqb_refl). rewrite M in F.
  destruct y as [l|l]; cbn in F; [|discriminate]. injection F as <-. eauto.
Qed.

(** The box is the one remapped with the second entry of the dictionary, its coordinates taken in the order (z, x, y): sizes, center, positions, velocities;
    other columns are kept. *)
Theorem C74_turned : forall lattice k0 l0 k1 u1 u2 u3 us d c c1, lattice = Ok ((k0, l0) :: (k1, (u1, u2, u3) :: us) :: d) -> remap c (RVectors [real u1; real u2; real u3]) = Ok c1 ->
  0 <= vx (boxsize c1) -> 0 <= vy (boxsize c1) -> 0 <= vz (boxsize c1) ->
  exists c', remap_the_box lattice c = Ok c' /\ boxsize c' = depth_first (boxsize c1) /\ boxcenter c' = depth_first (boxcenter c1) /\ names (bc_cat c') = names (bc_cat c1) /\
    (forall n l, column (bc_cat c1) n = Some (ColV l) -> In n (pc_vectors (bc_cat c)) -> column (bc_cat c') n = Some (ColV (map depth_first l))) /\
    (forall n x, column (bc_cat c1) n = Some x -> ~ In n (pc_vectors (bc_cat c)) -> column (bc_cat c') n = Some x).
Proof.
  intros lattice k0 l0 k1 u1 u2 u3 us d c c1 -> H Sx Sy Sz. unfold remap_the_box. cbn [bind map nth_error snd].
  change (vec_of u1) with (real u1). change (vec_of u2) with (real u2). change (vec_of u3) with (real u3). rewrite H. cbn [bind].
  destruct (remap_keeps _ _ _ H) as [W1 P1]. destruct (rotate_thm c1 1 Y (AxStr "y") (or_introl eq_refl) W1) as (c2 & E2 & S2 & C2 & N2 & A2 & B2). rewrite E2. cbn [bind].
  destruct (rotate_keeps _ _ _ _ E2) as [W2 P2]. destruct (rotate_thm c2 1 X (AxStr "x") (or_introl eq_refl) W2) as (c3 & E3 & S3 & C3 & N3 & A3 & B3).
  exists c3. split; [exact E3|]. split; [|split; [|split; [|split] ] ].
  - rewrite S3, S2. destruct (boxsize c1) as [x y z]. cbn in Sx, Sy, Sz. unfold quarters. change (Z.to_nat (1 mod 4)) with 1%nat. cbn. unfold depth_first, vabs. cbn.
    rewrite ?Rabs_Ropp, ?Rabs_Rabsolu, ?(Rabs_right x), ?(Rabs_right y), ?(Rabs_right z) by lra. rewrite ?Rabs_Ropp, ?(Rabs_right x), ?(Rabs_right y), ?(Rabs_right z) by lra. reflexivity.
  - rewrite C3, C2. apply two_turns.
  - congruence.
  - intros n l K V. rewrite <- P1 in V. assert (V2 : In n (pc_vectors (bc_cat c2))) by (rewrite P2; auto). rewrite (A3 _ _ (A2 _ _ K V) V2), map_map. do 2 f_equal. apply map_ext. apply two_turns.
  - intros n x K V. rewrite <- P1 in V. assert (V2 : ~ In n (pc_vectors (bc_cat c2))) by (rewrite P2; auto). apply B3; auto.
Qed.
Print Assumptions C74_turned.
(** Objects in the remapped box are in the turned box. *)
Theorem C74_contained : forall size center p, contained (depth_first size) (depth_first center) (depth_first p) <-> contained size center p.
Proof. intros [a b c] [x y z] [p q r]. unfold contained, depth_first. cbn. tauto. Qed.
Print Assumptions C74_contained.

(** In exact arithmetic all the bases that are asked for have the same size: there is no second entry. Which basis is used depends on rounding errors. *)
Lemma norm_square : forall v, vnorm v * vnorm v = vdot v v.
Proof. intros v. unfold vnorm. apply sqrt_sqrt. destruct v; unfold vdot; cbn; nra. Qed.
Lemma scaled_norm : forall b e, 0 <= b -> vnorm (vmul (V b b b) e) = b * vnorm e.
Proof.
  intros b [x y z] B. unfold vnorm, vmul, vdot. cbn. replace (b * x * (b * x) + b * y * (b * y) + b * z * (b * z)) with (Rsqr b * (x * x + y * y + z * z)) by (unfold Rsqr; ring).
  rewrite sqrt_mult_alt by apply Rle_0_sqr. rewrite sqrt_Rsqr by auto. reflexivity.
Qed.
Lemma zdot_IZR : forall u v : zvec, exists k : BinNums.Z, vdot (real u) (real v) = IZR k.
Proof. intros [[a b] c] [[d e] f]. exists (a * d + b * e + c * f)%Z. unfold vdot. cbn. rewrite !plus_IZR, !mult_IZR. reflexivity. Qed.
Lemma only_size : forall u1 u2 u3 c, unimodular u1 u2 u3 -> cuboid_new (real u1) (real u2) (real u3) (V 5500 5500 5500) = Ok c ->
  fits (Some [(8000, Some 10000); (4000, Some 5000); (2000, Some 4000)]) (vx (cu_size c)) (vy (cu_size c)) (vz (cu_size c)) -> bounded 1 u1 ->
  cu_size c = V (5500 * sqrt 3) (5500 * sqrt (2 / 3)) (5500 ^ 3 / (5500 * sqrt 3 * (5500 * sqrt (2 / 3)))).
Proof.
  intros u1 u2 u3 c U E F B. destruct (C21_orthogonal_edges u1 u2 u3 (V 5500 5500 5500) U ltac:(repeat split; cbn; lra)) as (c' & e1 & e2 & e3 & E' & G & _ & _ & _ & _ & Sz).
  destruct (C21_volume_partial u1 u2 u3 5500 U ltac:(lra)) as (c'' & E'' & Vol). rewrite E in E', E''. injection E' as <-. injection E'' as <-.
  rewrite !scaled_norm in Sz by lra. set (s1 := vnorm e1) in *. set (s2 := vnorm e2) in *. set (s3 := vnorm e3) in *.
  pose proof (norm_square e1) as Q1. pose proof (norm_square e2) as Q2. fold s1 in Q1. fold s2 in Q2.
  assert (P1 : 0 <= s1) by apply sqrt_pos. assert (P2 : 0 <= s2) by apply sqrt_pos.
  rewrite Sz in F. cbn [vx vy vz] in F. pose proof (F 0%nat _ _ eq_refl eq_refl) as F1. pose proof (F 1%nat _ _ eq_refl eq_refl) as F2. unfold in_range in F1, F2. cbn in F1, F2.
  destruct G as (-> & (a & Ea) & _ & D12 & _ & _).
  assert (N1 : vdot (real u1) (real u1) = 3).
  { destruct u1 as [[x y] z]. cbn in B. assert (K : exists k : BinNums.Z, vdot (real (x, y, z)) (real (x, y, z)) = IZR k /\ (0 <= k <= 3)%Z).
    { exists (x * x + y * y + z * z)%Z. split; [unfold vdot; cbn; rewrite !plus_IZR, !mult_IZR; reflexivity|nia]. }
    destruct K as (k & Ek & Bk). rewrite Ek in Q1 |- *. assert (IZR 2 < IZR k) by (cbn; nra). apply lt_IZR in H. assert (k = 3)%Z by lia. subst k. reflexivity. }
  assert (N2 : vdot e2 e2 = 2 / 3).
  { destruct (zdot_IZR u1 u2) as [d Ed]. destruct (zdot_IZR u2 u2) as [m Em].
    assert (A3 : IZR d + a * 3 = 0) by (rewrite <- Ed, <- N1; rewrite <- D12, Ea; destruct (real u1), (real u2); unfold vdot, vadd, vscale; cbn; ring).
    assert (Q : vdot e2 e2 = IZR m + a * IZR d).
    { rewrite <- Em, <- Ed. transitivity (vdot (real u2) e2 + a * vdot (real u1) e2); [rewrite Ea at 1; destruct (real u1), (real u2), e2; unfold vdot, vadd, vscale; cbn; ring|].
      rewrite D12, Rmult_0_r, Rplus_0_r, Ea. destruct (real u1), (real u2); unfold vdot, vadd, vscale; cbn; ring. }
    assert (T : 3 * vdot e2 e2 = IZR (3 * m - d * d)) by (rewrite Q, minus_IZR, !mult_IZR; replace a with (- IZR d / 3) by lra; field).
    assert (IZR 1 < IZR (3 * m - d * d)) by (rewrite <- T, <- Q2; cbn; nra). assert (IZR (3 * m - d * d) < IZR 3) by (rewrite <- T, <- Q2; cbn; nra).
    apply lt_IZR in H. apply lt_IZR in H0. assert (X : (3 * m - d * d = 2)%Z) by lia. rewrite X in T. lra. }
  assert (S1 : s1 = sqrt 3) by (rewrite <- N1, <- Q1; symmetry; apply sqrt_square; auto).
  assert (S2 : s2 = sqrt (2 / 3)) by (rewrite <- N2, <- Q2; symmetry; apply sqrt_square; auto).
  rewrite Sz in Vol |- *. unfold volume in Vol. cbn [vx vy vz] in Vol. rewrite S1, S2 in *. assert (0 < sqrt 3) by (apply sqrt_lt_R0; lra). assert (0 < sqrt (2 / 3)) by (apply sqrt_lt_R0; lra).
  f_equal. apply (Rmult_eq_reg_l (5500 * sqrt 3 * (5500 * sqrt (2 / 3)))).
  - rewrite Vol. field. lra.
  - assert (0 < 5500 * sqrt 3 * (5500 * sqrt (2 / 3))); [|lra]. repeat apply Rmult_lt_0_compat; lra.
Qed.
Theorem C74_choice_refuted : forall enum c, (forall l : list ipos, Permutation (enum l) l) -> remap_the_box (script_lattice enum) c = Err IndexError.
Proof.
  intros enum c He. destruct (C25_enumeration enum 1 (Some 1%nat) (V 5500 5500 5500) (Some [(8000, Some 10000); (4000, Some 5000); (2000, Some 4000)]) false He) as (d & E & ND & H & _); [repeat split; cbn; lra|].
  unfold remap_the_box, script_lattice. rewrite E. cbn [bind]. destruct d as [|[k0 us0] [|[k1 us1] d] ]; [reflexivity|reflexivity|]. exfalso.
  assert (K : forall box us, In (box, us) ((k0, us0) :: (k1, us1) :: d) -> box = (5500 * sqrt 3, 5500 * sqrt (2 / 3), 5500 ^ 3 / (5500 * sqrt 3 * (5500 * sqrt (2 / 3))))).
  { intros box us I. destruct (H box us I) as (Ne & _ & B). destruct us as [|[[u1 u2] u3] us]; [easy|]. destruct (B u1 u2 u3 (or_introl eq_refl)) as (B1 & _ & _ & U & cu & Ec & F & Ky).
    cbn in Ky. rewrite Ky. rewrite (only_size _ _ _ _ U Ec F B1). reflexivity. }
  inversion ND as [|? ? Nin _]; subst. apply Nin. cbn. left. rewrite (K k0 us0), (K k1 us1); cbn; auto.
Qed.
Print Assumptions C74_choice_refuted.
Example C74_case : let c := BoxCat (pv_cat [V 1 (-2) 3; V 5 5 5] [V 0 1 0; V 1 1 1]) (V 10 10 10) vzero in unimodular (1, 1, 1)%Z (1, 0, 0)%Z (0, 1, 0)%Z /\
  exists c1, remap c (RVectors [real (1, 1, 1)%Z; real (1, 0, 0)%Z; real (0, 1, 0)%Z]) = Ok c1.
Proof.
  intros c. split; [reflexivity|]. destruct C56_case as (W & ND & _ & I). fold c in W, ND, I. destruct (C56_catalog c (1, 1, 1)%Z (1, 0, 0)%Z (0, 1, 0)%Z 10 eq_refl ltac:(lra) eq_refl W I ND) as (c1 & m & E & _). eauto.
Qed.

(** ** C67: redshift-space positions on the sky *)
(** The function never returns: cartesian_to_sky has no argument [wrap]. *)
Theorem C67_rsd_refuted : forall c dmin dmax f ra dec, exists e, apply_rsd_and_cutsky c dmin dmax f ra dec = Err e.
Proof.
  intros c dmin dmax f ra dec. unfold apply_rsd_and_cutsky. destruct (box_to_cutsky _ _ _) as [[[dr rr] er]|]; cbn [bind]; [|eauto]. destruct (isometry_for_cutsky _ _ _ _ _ _ _) as [s|]; cbn [bind]; [|eauto].
  destruct (cutsky_from_isometry _ _ _ _ _) as [[|cat [|]]|]; cbn [bind]; eauto. destruct (rsd_position _ _ _); cbn [bind]; [|eauto]. exists TypeError. reflexivity.
Qed.
Print Assumptions C67_rsd_refuted.
Theorem C67_wrap_refuted : forall pos, call_cartesian_to_sky ["wrap"]%string pos = Err TypeError /\ call_cartesian_to_sky [] pos = map_result (cartesian_to_sky true) pos.
Proof. intros pos. split; reflexivity. Qed.
Print Assumptions C67_wrap_refuted.

(** ** C67: the radial mask *)
(** [idx] are the rows of [c] that are in [c'], in the same order, with the same columns. *)
Definition rows_kept (idx : list nat) (c c' : pcat) : Prop :=
  StronglySorted lt idx /\ names c' = names c /\ forall n x, column c n = Some x -> column c' n = Some (pick_col idx x).
Lemma kept_rows : forall mask c n, List.length mask = n -> rows_ok n c -> exists c', Box_Model.select_rows mask c = Ok c' /\ rows_kept (trues mask) c c'.
Proof.
  intros mask c n L W. destruct (select_rows_spec mask c n L W) as (c' & E & N & _ & _ & _ & _ & K & _). exists c'. split; auto. split; [apply trues_from_sorted|]. split; auto.
Qed.
(** The catalog with (smeared) redshifts [z]. *)
Definition with_z (smear : option (list R -> list R)) (c : pcat) (z : list R) : pcat := match smear with Some _ => with_data c (set_col "Z" (ColS z) (pc_data c)) | None => c end.
Definition smeared (smear : option (list R -> list R)) (z0 z : list R) : Prop :=
  match smear with Some f => List.length z = List.length z0 /\ forall i, (i < List.length z0)%nat -> nth i z 0 = nth i z0 0 + nth i (f z0) 0 | None => z = z0 end.
Theorem C67_radial : forall make fuel distance table zmin zmax smear u c n z0 m, rows_ok n c -> column c "Z" = Some (ColS z0) -> List.length u = n ->
  (forall f, smear = Some f -> List.length (f z0) = List.length z0) -> nz_mask make fuel distance table zmin zmax = Ok m ->
  exists z c' idx, apply_radial_mask make fuel distance table zmin zmax smear u c = Ok c' /\ smeared smear z0 z /\ rows_kept idx (with_z smear c z) c' /\
    (forall i, In i idx <-> (i < n)%nat /\ nth i u 0 <= smask_prob m (nth i z 0)).
Proof.
  intros make fuel distance table zmin zmax smear u c n z0 m W Z0 Lu Lf Em. unfold column in Z0.
  assert (L0 : List.length z0 = n) by (exact (W "Z"%string (ColS z0) (lookup_In _ _ _ Z0))).
  unfold apply_radial_mask. rewrite Em. cbn [bind]. assert (G0 : get_num "Z" (pc_data c) = Ok z0) by (unfold get_num; rewrite Z0; reflexivity). rewrite G0. cbn [bind].
  set (z := match smear with Some f => map (fun x => fst x + snd x) (combine z0 (f z0)) | None => z0 end).
  assert (Lz : List.length z = n) by (unfold z; destruct smear as [f|]; auto; rewrite map_length, combine_length, (Lf f eq_refl); lia).
  assert (Sm : smeared smear z0 z).
  { unfold smeared, z in *. destruct smear as [f|]; auto. split; [lia|]. intros i Hi. rewrite nth_indep with (d' := (fun x => fst x + snd x) (0, 0)) by (rewrite map_length, combine_length, (Lf f eq_refl); lia).
    rewrite map_nth with (f := fun x => fst x + snd x). rewrite combine_nth by (symmetry; apply (Lf f eq_refl)). reflexivity. }
  assert (Ec : match smear with Some f => with_data c (set_col "Z" (ColS (map (fun x => fst x + snd x) (combine z0 (f z0)))) (pc_data c)) | None => c end = with_z smear c z) by (unfold with_z, z; destruct smear; reflexivity).
  rewrite Ec. assert (G : get_num "Z" (pc_data (with_z smear c z)) = Ok z).
  { unfold get_num, with_z. destruct smear as [f|]; [cbn [with_data pc_data]; rewrite set_col_lookup; reflexivity|rewrite Z0; reflexivity]. }
  rewrite G. cbn [bind]. assert (W' : rows_ok n (with_z smear c z)).
  { unfold with_z. destruct smear as [f|]; auto. intros nm x K. cbn [with_data pc_data] in K. apply set_col_In in K. destruct K as [[_ ->]|K]; [exact Lz|apply (W nm x K)]. }
  assert (Lm : List.length (mask_call (map (smask_prob m) z) u) = n) by (unfold mask_call; rewrite map_length, combine_length, map_length; lia).
  destruct (kept_rows _ _ _ Lm W') as (c' & E & K). exists z, c', (trues (mask_call (map (smask_prob m) z) u)). split; [exact E|]. split; auto. split; auto.
  intros i. rewrite trues_In. destruct (lt_dec i n) as [Hi|Hi].
  - assert (X : nth_error (mask_call (map (smask_prob m) z) u) i = Some (Rleb (nth i u 0) (smask_prob m (nth i z 0)))).
    { rewrite nth_error_nth' with (d := false) by lia. f_equal. unfold mask_call. rewrite nth_indep with (d' := (fun x => Rleb (snd x) (fst x)) (smask_prob m 0, 0)) by (rewrite map_length, combine_length, map_length; lia).
      rewrite map_nth with (f := fun x => Rleb (snd x) (fst x)). rewrite combine_nth by (rewrite map_length; lia). cbn [fst snd]. rewrite map_nth. reflexivity. }
    rewrite X. split; [intros Q; injection Q as Q; apply Rleb_true in Q; auto|intros [_ Q]; apply Rleb_true in Q; rewrite Q; reflexivity].
  - split; [|tauto]. intros X. exfalso. apply Hi. rewrite <- Lm. apply nth_error_Some. congruence.
Qed.
Print Assumptions C67_radial.
Lemma nz_mask_new : forall make fuel distance table zmin zmax m, nz_mask make fuel distance table zmin zmax = Ok m -> exists nbar,
  (2 <= List.length table)%nat /\ zip_result fdiv (map snd table) (shells (map distance (fst (fst (hd (0, 0, 0) table)) :: map (fun x => snd (fst x)) table))) = Ok nbar /\
  smask_new make fuel (map (fun x => (fst (fst x) + snd (fst x)) / 2) table) nbar (Some (zmin, zmax)) None 2 = Ok m.
Proof.
  intros make fuel distance table zmin zmax m H. destruct table as [|[[a b] n] [|y t] ]; try discriminate. unfold nz_mask in H.
  destruct (zip_result fdiv _ _) as [nbar|] eqn:E; [|discriminate]. cbn [bind] in H. exists nbar. cbn [hd fst]. split; [cbn; lia|]. split; auto.
Qed.
(** Nothing is kept outside of the redshift range (unless the number drawn is exactly 0). *)
Theorem C67_range : forall make fuel distance table zmin zmax m z u, splines make -> nz_mask make fuel distance table zmin zmax = Ok m -> 0 < u -> u <= smask_prob m z -> zmin <= z <= zmax.
Proof.
  intros make fuel distance table zmin zmax m z u _ H U P. destruct (nz_mask_new _ _ _ _ _ _ _ H) as (nbar & _ & _ & E).
  destruct (Rlt_dec z zmin) as [A|A]; [rewrite (C73_outside make _ _ _ _ _ _ _ z E) in P by (left; auto); lra|].
  destruct (Rlt_dec zmax z) as [B|B]; [rewrite (C73_outside make _ _ _ _ _ _ _ z E) in P by (right; auto); lra|]. lra.
Qed.
Print Assumptions C67_range.
(** In the middle of a bin in the range, the probability is proportional to the number of the bin over its volume, at most 1, when bins touch. *)
Theorem C67_density : forall make fuel distance table zmin zmax m i a b n, splines make -> nz_mask make fuel distance table zmin zmax = Ok m -> nth_error table i = Some (a, b, n) ->
  (forall j x y, nth_error table j = Some x -> nth_error table (S j) = Some y -> snd (fst x) = fst (fst y)) -> zmin <= (a + b) / 2 <= zmax ->
  smask_prob m ((a + b) / 2) = Rmin (s_norm m * (n / shell_volume distance a b)) 1 /\ shell_volume distance a b <> 0.
Proof.
  intros make fuel distance table zmin zmax m i a b n Sp H Hi T Rg. destruct (nz_mask_new _ _ _ _ _ _ _ H) as (nbar & L2 & Ez & E).
  assert (Li : (i < List.length table)%nat) by (apply nth_error_Some; congruence).
  assert (Ni : nth i table (0, 0, 0) = (a, b, n)) by (apply nth_error_nth; auto).
  set (e := fst (fst (hd (0, 0, 0) table)) :: map (fun x => snd (fst x)) table) in *.
  assert (Le : List.length e = (1 + List.length table)%nat) by (unfold e; cbn; rewrite map_length; auto).
  assert (Nm : forall j, (j < List.length table)%nat -> nth (1 + j) e 0 = snd (fst (nth j table (0, 0, 0)))).
  { intros j Hj. unfold e. cbn [Nat.add nth]. exact (map_nth (fun x : R * R * R => snd (fst x)) table (0, 0, 0) j). }
  assert (Na : nth i e 0 = a).
  { destruct i as [|i]; [unfold e; cbn [nth]; destruct table; [cbn in Li; lia|]; cbn in Ni |- *; subst; reflexivity|].
    change (S i) with (1 + i)%nat. rewrite (Nm i) by lia. assert (X : nth_error table i = Some (nth i table (0, 0, 0))) by (apply nth_error_nth'; lia). rewrite (T i _ _ X Hi). reflexivity. }
  assert (Nb : nth (1 + i) e 0 = b) by (rewrite Nm by auto; rewrite Ni; reflexivity).
  unfold zip_result in Ez. destruct (Nat.eqb _ _) eqn:Eq; [|discriminate].
  assert (Hd : fdiv n (shell_volume distance a b) = Ok (nth i nbar 0) /\ List.length nbar = List.length table).
  { assert (Lc : List.length (combine (map snd table) (shells (map distance e))) = List.length table) by (rewrite combine_length, map_length, shells_length, map_length, Le; cbn; lia).
    pose proof (Blind_Thm2.map_result_length _ _ _ Ez) as Ln. rewrite Lc in Ln. split; [|lia].
    pose proof (Blind_Thm2.map_result_forall2 _ _ _ Ez) as F. assert (G : forall (l : list (R * R)) l', Forall2 (fun x y => fdiv (fst x) (snd x) = Ok y) l l' -> forall k, (k < List.length l)%nat -> fdiv (fst (nth k l (0, 0))) (snd (nth k l (0, 0))) = Ok (nth k l' 0)).
    { clear. induction 1; intros k Hk; cbn in Hk; [lia|]. destruct k; cbn; auto. apply IHForall2. lia. }
    specialize (G _ _ F i ltac:(lia)). rewrite combine_nth in G by (rewrite map_length, shells_length, map_length, Le; reflexivity). cbn [fst snd] in G.
    rewrite shells_nth in G by (rewrite Le; lia). rewrite Na in G. change (S i) with (1 + i)%nat in G. rewrite Nb in G.
    assert (Sn : nth i (map snd table) 0 = n) by (transitivity (snd (nth i table (0, 0, 0))); [exact (map_nth (@snd (R * R) R) table (0, 0, 0) i)|rewrite Ni; reflexivity]). rewrite Sn in G. exact G. }
  destruct Hd as [Hd Ln]. unfold fdiv in Hd. destruct (Req_EM_T _ 0) as [|Nz]; [discriminate|]. injection Hd as Hd. split; auto.
  set (zm := map (fun x => (fst (fst x) + snd (fst x)) / 2) table) in *.
  assert (Nz' : nth i zm 0 = (a + b) / 2).
  { unfold zm. rewrite nth_indep with (d' := (fun x : R * R * R => (fst (fst x) + snd (fst x)) / 2) (0, 0, 0)) by (rewrite map_length; auto). rewrite map_nth with (f := fun x : R * R * R => (fst (fst x) + snd (fst x)) / 2). rewrite Ni. reflexivity. }
  destruct (C73_nodes make Sp fuel zm nbar (Some (zmin, zmax)) None 2%nat m i E) as [P _]; [unfold zm; rewrite map_length; auto|rewrite Nz'; auto|].
  rewrite Nz', <- Hd in P. exact P.
Qed.
Print Assumptions C67_density.
(** With a gap between bins, the volume of a bin is counted from the end of the previous one. *)
Theorem C67_gap_refuted : exists table i a b n, nth_error table i = Some (a, b, n) /\ (forall x, In x table -> fst (fst x) < snd (fst x)) /\
  forall distance : R -> R, nth i (shells (map distance (fst (fst (hd (0, 0, 0) table)) :: map (fun x => snd (fst x)) table))) 0 = shell_volume distance (a - 1) b.
Proof.
  exists [(0, 1, 5); (2, 3, 7)], 1%nat, 2, 3, 7. split; [reflexivity|]. split; [intros x [<-|[<-|[] ] ]; cbn; lra|]. intros distance. cbn. unfold shell_volume. replace (2 - 1) with 1 by ring. ring.
Qed.
Print Assumptions C67_gap_refuted.
(** With the default zmin = 0 no table is accepted, unless the middle of its first bin is not above 0. *)
Theorem C67_default_refuted : forall make fuel distance table zmax smear u c, 0 < fst (fst (hd (0, 0, 0) table)) + snd (fst (hd (0, 0, 0) table)) ->
  exists e, apply_radial_mask make fuel distance table 0 zmax smear u c = Err e.
Proof.
  intros make fuel distance table zmax smear u c P. unfold apply_radial_mask. destruct (nz_mask make fuel distance table 0 zmax) as [m|e] eqn:E; [|cbn; eauto]. exfalso.
  destruct (nz_mask_new _ _ _ _ _ _ _ E) as (nbar & L & _ & H). destruct table as [|[[a b] n] t]; [cbn in L; lia|]. cbn [hd fst snd] in P. unfold smask_new in H. destruct (forallb _ nbar); [|discriminate].
  cbn [map fst snd] in H. rewrite (proj2 (Rleb_false ((a + b) / 2) 0)) in H by lra. discriminate.
Qed.
Print Assumptions C67_default_refuted.
(** Drawn redshifts are in the range, and as many as asked for. *)
Theorem C67_redshifts : forall make fuel distance table zmin zmax draws rounds sizes out, splines make -> generate_redshifts make fuel distance table zmin zmax draws rounds sizes = Ok out ->
  map (@List.length R) out = sizes /\ ((forall k r x, In x (draws k r) -> 0 < snd x) -> forall l z, In l out -> In z l -> zmin <= z <= zmax).
Proof.
  intros make fuel distance table zmin zmax draws rounds sizes out Sp H. unfold generate_redshifts in H. destruct (nz_mask make fuel distance table zmin zmax) as [m|] eqn:E; [|discriminate]. cbn [bind] in H.
  split; [exact (C31_sizes _ _ _ _ _ _ H)|]. intros U l z Hl Hz. destruct (C31_kept _ _ _ _ _ _ H l z Hl Hz) as (k & r & u & _ & Hd & Hk). apply (C67_range make fuel distance table zmin zmax m z u Sp E).
  - apply (U k r (z, u) Hd).
  - exact Hk.
Qed.
Print Assumptions C67_redshifts.

(** ** C67: footprints *)
Theorem C67_footprint : forall desi installed region c n ra dec din px pin, rows_ok n c -> column c "RA" = Some (ColS ra) -> column c "DEC" = Some (ColS dec) ->
  desi (combine ra dec) = Ok din -> List.length din = n -> is_in_photometric_region installed (combine ra dec) region = Ok (px, pin) ->
  exists c' idx, apply_photo_desi_footprint desi installed region c = Ok (c', pick idx px) /\ rows_kept idx c c' /\
    forall i, In i idx <-> nth_error din i = Some true /\ nth_error pin i = Some true.
Proof.
  intros desi installed region c n ra dec din px pin W Cr Cd Ed Ld Ep. unfold column in Cr, Cd.
  assert (Lr : List.length ra = n) by (exact (W _ _ (lookup_In _ _ _ Cr))). assert (Le : List.length dec = n) by (exact (W _ _ (lookup_In _ _ _ Cd))).
  unfold apply_photo_desi_footprint, get_num. rewrite Cr, Cd. cbn [bind]. rewrite Ed, Ep. cbn [bind].
  assert (Lp : List.length px = n /\ List.length pin = n).
  { unfold is_in_photometric_region in Ep. destruct (one_of _ _); [|discriminate]. destruct installed as [g|].
    - destruct (convert _ _); [|discriminate]. cbn [bind] in Ep. injection Ep as <- <-. rewrite !map_length, combine_length. lia.
    - destruct (String.eqb _ _); [discriminate|]. injection Ep as <- <-. rewrite !map_length, combine_length. lia. }
  destruct Lp as [Lp Lq]. assert (M : forall a b, List.length a = List.length b -> exists l, mask_and a b = Ok l /\ List.length l = List.length a /\ forall i, nth_error l i = Some true <-> nth_error a i = Some true /\ nth_error b i = Some true).
  { clear. unfold mask_and. induction a as [|x a IH]; intros [|y b] L; try discriminate; cbn [map2_result].
    - exists []. split; auto. split; auto. intros [|i]; cbn; split; intros H; try discriminate; destruct H; discriminate.
    - injection L as L. destruct (IH b L) as (l & E & Ll & K). cbn [bind]. rewrite E. cbn [bind]. exists (andb x y :: l). split; auto. split; [cbn; auto|]. intros [|i]; cbn [nth_error]; auto.
      split; [intros H; injection H as H; apply andb_true_iff in H; destruct H as [-> ->]; auto|intros [H1 H2]; injection H1 as ->; injection H2 as ->; reflexivity]. }
  destruct (M din pin ltac:(lia)) as (mask & Em & Lm & K). rewrite Em. cbn [bind]. rewrite (select_pick mask px) by lia. cbn [bind].
  destruct (kept_rows mask c n ltac:(lia) W) as (c' & E & R). rewrite E. cbn [bind]. exists c', (trues mask). split; auto. split; auto. intros i. rewrite trues_In. apply K.
Qed.
Print Assumptions C67_footprint.
(** Three bins of equal density, seen with the parabola through three points. *)
Lemma case_mask : exists m, nz_mask three 0%nat (fun x => x) [(0, 1, 5); (1, 2, 35); (2, 3, 95)] 1 2 = Ok m /\ smask_prob m (3 / 2) = 1 /\ smask_prob m (1 / 2) = 0.
Proof.
  destruct (C73_flat three three_splines 0%nat [1 / 2; 3 / 2; 5 / 2] 5 (through (1 / 2) (3 / 2) (5 / 2) 5 5 5) 2%nat 1 2) as (m & Hm & _ & Hp); cbn [hd last map]; try lra; auto; [apply three_ok; lra|].
  exists m. cbn [map] in Hm. split; [|split; [apply Hp; lra|] ].
  - unfold nz_mask. cbn [map fst snd]. replace ((0 + 1) / 2) with (1 / 2) by lra. replace ((1 + 2) / 2) with (3 / 2) by lra. replace ((2 + 3) / 2) with (5 / 2) by lra.
    replace (shells [0; 1; 2; 3]) with [1; 7; 19] by (unfold shells; cbn; repeat (f_equal; try ring)).
    unfold zip_result. cbn [List.length Nat.eqb combine map_result fst snd map]. unfold fdiv. cbn [fst snd].
    repeat (destruct (Req_EM_T _ 0) as [Q|_]; [exfalso; lra|cbn [bind] ]).
    replace (5 / 1) with 5 by field. replace (35 / 7) with 5 by field. replace (95 / 19) with 5 by field. exact Hm.
  - apply (C73_outside three 0%nat [1 / 2; 3 / 2; 5 / 2] [5; 5; 5] (Some (1, 2)) None 2%nat m (1 / 2) Hm). left. lra.
Qed.
Example C67_case_radial : exists m z c' idx, let c := PCat [("Z", ColS [3 / 2; 1 / 2; 3 / 2]); ("RA", ColS [10; 20; 30])]%string "Position" "Velocity" [] [] in
  nz_mask three 0%nat (fun x => x) [(0, 1, 5); (1, 2, 35); (2, 3, 95)] 1 2 = Ok m /\ apply_radial_mask three 0%nat (fun x => x) [(0, 1, 5); (1, 2, 35); (2, 3, 95)] 1 2 None [1 / 2; 1 / 2; 1 / 3] c = Ok c' /\
  z = [3 / 2; 1 / 2; 3 / 2] /\ rows_kept idx c c' /\ In 0%nat idx /\ ~ In 1%nat idx /\ In 2%nat idx.
Proof.
  destruct case_mask as (m & Hm & P1 & P0). set (c := PCat [("Z", ColS [3 / 2; 1 / 2; 3 / 2]); ("RA", ColS [10; 20; 30])]%string "Position" "Velocity" [] []).
  destruct (C67_radial three 0%nat (fun x => x) [(0, 1, 5); (1, 2, 35); (2, 3, 95)] 1 2 None [1 / 2; 1 / 2; 1 / 3] c 3%nat [3 / 2; 1 / 2; 3 / 2] m) as (z & c' & idx & E & Sm & K & I); auto; try easy.
  { intros nm x [Q|[Q|[] ] ]; injection Q as <- <-; reflexivity. }
  cbn in Sm. subst z. exists m, [3 / 2; 1 / 2; 3 / 2], c', idx. cbn zeta. split; auto. split; auto. split; auto. split; auto.
  rewrite !I. cbn [nth]. rewrite P1, P0. repeat split; try lia; try lra.
Qed.
Example C67_case_density : forall j x y, nth_error [(0, 1, 5); (1, 2, 35); (2, 3, 95)] j = Some x -> nth_error [(0, 1, 5); (1, 2, 35); (2, 3, 95)] (S j) = Some y -> snd (fst x) = fst (fst y).
Proof. intros [|[|[|j] ] ] x y Hx Hy; cbn in Hx, Hy; try discriminate; injection Hx as <-; try (injection Hy as <-; reflexivity); destruct j; discriminate. Qed.
