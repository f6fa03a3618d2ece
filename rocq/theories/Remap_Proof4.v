(** Proofs about remapping: sizes and catalogs. *)
Require Import Reals Lra Lia ZArith List Bool String.
From Verif Require Import Base Vec3 Isometry_Model Isometry_Proof Sky_Model Sky_Proof Cutsky_Model Box_Model Box_Spec Box_Proof Box_Proof2 Box_Proof3
  Remap_Model Remap_Spec Remap_Proof Remap_Proof2 Remap_Proof3.
Import ListNotations.
Open Scope R_scope.

Lemma cuboid_shape : forall u1 u2 u3 size, unimodular u1 u2 u3 -> positive size ->
  exists c e1 e2 e3, cuboid_new (real u1) (real u2) (real u3) size = Ok c /\ gram_schmidt (real u1) (real u2) (real u3) e1 e2 e3 /\
    e1 = vscale (vnorm e1) (cu_n1 c) /\ e2 = vscale (vnorm e2) (cu_n2 c) /\ e3 = vscale (vnorm e3) (cu_n3 c) /\
    is_rotation (M (cu_n1 c) (cu_n2 c) (cu_n3 c)) /\
    cu_size c = V (vnorm (vmul size e1)) (vnorm (vmul size e2)) (vnorm (vmul size e3)).
Proof.
  intros u1 u2 u3 size U P. pose proof (unimodular_det3 _ _ _ U) as D. destruct (gs_exists _ _ _ D) as (e1 & e2 & e3 & G).
  exists (cuboid_of e1 e2 e3 size), e1, e2, e3. split; [apply (cuboid_ok _ _ _ _ _ _ size D G)|]. split; auto.
  assert (D' := D). rewrite det3_eq in D'. pose proof (gs_ortho _ _ _ _ _ _ G D') as O.
  assert (S : forall e, 0 < vnorm e -> e = vscale (vnorm e) (nrm e)).
  { intros e Pe. unfold nrm. rewrite vscale_scale. replace (vnorm e * / vnorm e) with 1 by (field; lra). destruct e; unfold vscale; cbn; f_equal; ring. }
  assert (N : forall e, 0 < vnorm e -> vnorm (vmul size (nrm e)) * vnorm e = vnorm (vmul size e)).
  { intros e Pe. rewrite (S e Pe) at 3. replace (vmul size (vscale (vnorm e) (nrm e))) with (vscale (vnorm e) (vmul size (nrm e))).
    2:{ unfold vmul, vscale; cbn. f_equal; ring. } rewrite vnorm_scale, Rabs_pos_eq by lra. ring. }
  cbn [cuboid_of cu_n1 cu_n2 cu_n3 cu_size]. unfold vmul at 1; cbn [vx vy vz].
  rewrite !N by (apply vnorm_pos', O). repeat split; try (apply S, vnorm_pos', O). all: apply (nrm_rotation _ _ _ _ _ _ O D').
Qed.

Lemma cuboid_volume : forall u1 u2 u3 b, unimodular u1 u2 u3 -> 0 < b -> exists c, cuboid_new (real u1) (real u2) (real u3) (V b b b) = Ok c /\
  volume (cu_size c) = volume (V b b b).
Proof.
  intros u1 u2 u3 b U B. pose proof (unimodular_det3 _ _ _ U) as D. destruct (gs_exists _ _ _ D) as (e1 & e2 & e3 & G).
  exists (cuboid_of e1 e2 e3 (V b b b)). split; [apply (cuboid_ok _ _ _ _ _ _ _ D G)|].
  assert (D' := D). rewrite det3_eq in D'. pose proof (gs_ortho _ _ _ _ _ _ G D') as O. pose proof (volume_one _ _ _ _ _ _ O D') as VO.
  unfold volume; cbn [cuboid_of cu_size vmul vx vy vz]. rewrite !isotropic_norm, !nrm_unit by (lra || apply vnorm_pos', O).
  replace (b * 1 * vnorm e1 * (b * 1 * vnorm e2) * (b * 1 * vnorm e3)) with (b * b * b * (vnorm e1 * vnorm e2 * vnorm e3)) by ring. rewrite VO. ring.
Qed.

Definition sheared : zvec * zvec * zvec := ((1, 1, 0), (0, 1, 0), (0, 0, 1))%Z.
Lemma sheared_gs : gram_schmidt (V 1 1 0) (V 0 1 0) (V 0 0 1) (V 1 1 0) (V (- (1 / 2)) (1 / 2) 0) (V 0 0 1).
Proof.
  split; auto. split; [exists (- (1 / 2)); unfold vadd, vscale; cbn; f_equal; lra|].
  split; [exists 0, 0; unfold vadd, vscale; cbn; f_equal; lra|]. unfold vdot; cbn. repeat split; lra.
Qed.
Lemma sheared_volume : exists c, cuboid_new (V 1 1 0) (V 0 1 0) (V 0 0 1) (V 1 2 1) = Ok c /\ volume (V 1 2 1) = 2 /\ volume (cu_size c) = 5 / 2.
Proof.
  destruct (cuboid_shape (1, 1, 0)%Z (0, 1, 0)%Z (0, 0, 1)%Z (V 1 2 1)) as (c & e1 & e2 & e3 & E & G & _ & _ & _ & _ & S).
  - reflexivity. - unfold positive; cbn; lra.
  - exists c. split; [exact E|]. split; [unfold volume; cbn; ring|].
    assert (D : mdet (M (V 1 1 0) (V 0 1 0) (V 0 0 1)) = 1) by (unfold mdet, vdot, vcross; cbn; ring).
    destruct (gs_unique _ _ _ _ _ _ _ _ _ D G sheared_gs) as (-> & -> & ->). rewrite S.
    unfold volume, vnorm, vdot, vmul; cbn [vx vy vz]. rewrite <- !sqrt_mult_alt by nra.
    match goal with |- sqrt ?x = _ => replace x with ((5 / 2) * (5 / 2)) by field end. apply sqrt_square. lra.
Qed.

(** Catalogs. *)
Lemma lower_corner : forall size center p, contained size center p -> in_box size (vsub p (vsub center (vscale (1 / 2) size))).
Proof.
  intros [a b c] [x y z] [p q r] (A & B & C). cbn in *. apply Rabs_le_between in A, B, C || idtac.
  unfold in_box, vsub, vscale, vadd, vopp; cbn. unfold Rabs in *. repeat destruct (Rcase_abs _); repeat split; lra.
Qed.

Lemma forall2_map_r : forall {A B C} (P : A -> C -> Prop) (f : B -> C) l m, Forall2 (fun a b => P a (f b)) l m -> Forall2 P l (map f m).
Proof. intros A B C P f l m H; induction H; cbn; auto. Qed.
Lemma forall2_map_l : forall {A B C} (P : B -> C -> Prop) (f : A -> B) l m, Forall2 P (map f l) m -> Forall2 (fun a c => P (f a) c) l m.
Proof. intros A B C P f l. induction l; intros m H; inversion H; subst; auto. Qed.
Lemma forall2_impl : forall {A B} (P Q : A -> B -> Prop) l m, (forall a b, P a b -> Q a b) -> Forall2 P l m -> Forall2 Q l m.
Proof. intros A B P Q l m I H; induction H; auto. Qed.
Lemma map_result_map : forall {A B} (f : A -> result B) g l, (forall a, f a = Ok (g a)) -> map_result f l = Ok (map g l).
Proof. intros A B f g l H. induction l; cbn; auto. rewrite H, IHl. auto. Qed.

Lemma remap_thm : forall c u1 u2 u3 b, unimodular u1 u2 u3 -> 0 < b -> boxsize c = V b b b -> vectors_ok (bc_cat c) ->
  (forall n l p, column (bc_cat c) n = Some (ColV l) -> moves (bc_cat c) n -> In p l -> contained (boxsize c) (boxcenter c) p) ->
  NoDup (names (bc_cat c)) ->
  exists c' m, remap c (RVectors [real u1; real u2; real u3]) = Ok c' /\ is_rotation m /\
    boxcenter c' = boxcenter c /\ volume (boxsize c') = volume (boxsize c) /\ names (bc_cat c') = names (bc_cat c) /\
    (forall n l, column (bc_cat c) n = Some (ColV l) -> moves (bc_cat c) n -> exists l', column (bc_cat c') n = Some (ColV l') /\
       Forall2 (fun p q => exists k : zvec, vsub q (vsub (boxcenter c') (vscale (1 / 2) (boxsize c'))) =
         mapply m (vadd (vsub p (vsub (boxcenter c) (vscale (1 / 2) (boxsize c)))) (vscale b (real k)))) l l') /\
    (forall n l, column (bc_cat c) n = Some (ColV l) -> In n (pc_vectors (bc_cat c)) -> In n (pc_invariants (bc_cat c)) ->
       column (bc_cat c') n = Some (ColV (map (mapply m) l))) /\
    (forall n x, column (bc_cat c) n = Some x -> ~ In n (pc_vectors (bc_cat c)) -> column (bc_cat c') n = Some x).
Proof.
  intros c u1 u2 u3 b U B EB W C ND. pose proof (unimodular_det3 _ _ _ U) as D. destruct (gs_exists _ _ _ D) as (e1 & e2 & e3 & G).
  assert (D' := D). rewrite det3_eq in D'. pose proof (gs_ortho _ _ _ _ _ _ G D') as O.
  set (cu := cuboid_of e1 e2 e3 (V b b b)). set (m := M (nrm e1) (nrm e2) (nrm e3)).
  assert (Ec := cuboid_ok _ _ _ _ _ _ (V b b b) D G). fold cu in Ec.
  assert (PB : positive (V b b b)) by (unfold positive; cbn; auto).
  set (off := vsub (boxcenter c) (vscale (1 / 2) (boxsize c))). set (coff := vsub (boxcenter c) (vscale (1 / 2) (cu_size cu))).
  assert (PM : forall x, project cu x = mapply m x).
  { intros x. unfold project, mapply, m; cbn [cu cuboid_of cu_n1 cu_n2 cu_n3 row0 row1 row2]. rewrite !rdot_eq. f_equal; apply vdot_comm. }
  assert (RS : forall x, vmul x (cu_resize cu) = vscale b x).
  { intros x. unfold cu; cbn [cuboid_of cu_resize]. rewrite !isotropic_norm, !nrm_unit by (lra || apply vnorm_pos', O). unfold vmul, vscale; cbn. f_equal; ring. }
  assert (ROW : forall p, contained (boxsize c) (boxcenter c) p -> exists y, cu_transform1 cu false (vsub p off) = Ok y /\
     exists k : zvec, y = mapply m (vadd (vsub p off) (vscale b (real k)))).
  { intros p Hp. apply lower_corner in Hp. fold off in Hp. rewrite EB in Hp.
    destruct (transform_ok u1 u2 u3 e1 e2 e3 (V b b b) (vsub p off) U G PB Hp) as (k & E & _). fold cu in E. eexists. split; [exact E|]. exists k.
    rewrite RS, PM. unfold mapply. cbn [m row0 row1 row2]. unfold vscale, vdot, vadd, vdiv; cbn [vx vy vz]. f_equal; field; lra. }
  assert (LK : forall n x, In (n, x) (pc_data (bc_cat c)) -> column (bc_cat c) n = Some x).
  { intros n x I. unfold column. unfold names in ND. revert I ND. generalize (pc_data (bc_cat c)). induction d as [|[n' x'] d IH]; [intros []|].
    cbn. intros I N. inversion N as [|? ? NI N']; subst. destruct I as [I|I].
    - injection I as -> ->. rewrite String.eqb_refl. auto.
    - destruct (String.eqb n n') eqn:En; [|auto]. apply String.eqb_eq in En. subst. exfalso. apply NI. apply in_map_iff. exists (n', x). auto. }
  unfold remap. cbn [remap_cuboid]. rewrite EB, Ec. cbn [bind]. rewrite <- EB. fold off coff.
  destruct (map_cols_ok (fun n x => if mem n (pc_vectors (bc_cat c)) then remap_col cu off coff (mem n (pc_invariants (bc_cat c))) x else Ok x) (pc_data (bc_cat c))) as [d Ed].
  { intros n x I. destruct (mem n (pc_vectors (bc_cat c))) eqn:Mv; [|eauto]. apply mem_In in Mv. destruct (W _ _ I Mv) as [l ->].
    destruct (mem n (pc_invariants (bc_cat c))) eqn:Mi; cbn [remap_col].
    - unfold cu_transform. rewrite (map_result_map _ (project cu)) by reflexivity. cbn [bind]. eauto.
    - assert (Mi' : ~ In n (pc_invariants (bc_cat c))) by (intros H; apply mem_In in H; congruence).
      destruct (map_result_all (cu_transform1 cu false) (fun _ _ => True) (map (fun x => vsub x off) l)) as (l' & El & _).
      { intros a Ia. apply in_map_iff in Ia. destruct Ia as (p & <- & Ip). destruct (ROW p) as (y & Ey & _); eauto. eapply C; eauto. split; auto. }
      unfold cu_transform. rewrite El. cbn [bind]. eauto. }
  rewrite Ed. cbn [bind]. eexists. exists m. split; [reflexivity|]. cbn [boxcenter boxsize bc_cat].
  apply map_cols_spec in Ed. destruct Ed as [N L]. unfold names, column; cbn [pc_data pc_vectors pc_invariants].
  split; [apply (nrm_rotation _ _ _ _ _ _ O D')|]. split; [auto|].
  split. { destruct (cuboid_volume u1 u2 u3 b U B) as (c2 & E2 & V2). rewrite Ec in E2. injection E2 as <-. rewrite EB. auto. }
  split; [auto|]. split; [|split].
  - intros n l K [I NI]. specialize (L n). rewrite K in L. destruct L as (x' & F & ->). assert (I' := I). apply mem_In in I. rewrite I in F.
    assert (Mi : mem n (pc_invariants (bc_cat c)) = false) by (destruct (mem n _) eqn:Q; auto; apply mem_In in Q; tauto). rewrite Mi in F. cbn [remap_col] in F.
    destruct (map_result_all (cu_transform1 cu false) (fun x y => exists k : zvec, y = mapply m (vadd x (vscale b (real k)))) (map (fun x => vsub x off) l)) as (l' & El & Fl).
    { intros a Ia. apply in_map_iff in Ia. destruct Ia as (p & <- & Ip). apply ROW. eapply C; eauto. split; auto. }
    unfold cu_transform in F. rewrite El in F. cbn [bind] in F. injection F as <-. eexists. split; [reflexivity|].
    apply forall2_map_r. apply forall2_map_l in Fl. eapply forall2_impl; [|exact Fl]. intros p y (k & ->). exists k. fold coff off.
    generalize (mapply m (vadd (vsub p off) (vscale b (real k)))). intros w. destruct w, coff; unfold vsub, vadd, vopp; cbn. f_equal; ring.
  - intros n l K I J. specialize (L n). rewrite K in L. destruct L as (x' & F & ->). apply mem_In in I. apply mem_In in J. rewrite I, J in F. cbn [remap_col] in F.
    unfold cu_transform in F. rewrite (map_result_map _ (project cu)) in F by reflexivity. cbn [bind] in F. injection F as <-. do 2 f_equal. apply map_ext. auto.
  - intros n x K NI. specialize (L n). rewrite K in L. destruct L as (x' & F & ->).
    assert (Mv : mem n (pc_vectors (bc_cat c)) = false) by (destruct (mem n _) eqn:Q; auto; apply mem_In in Q; tauto). rewrite Mv in F. congruence.
Qed.

(** Separations are kept up to a shift of the periodic box. *)
Lemma pair_image : forall m b p q p' q' o o' k k', is_rotation m ->
  vsub q o' = mapply m (vadd (vsub p o) (vscale b (real k))) -> vsub q' o' = mapply m (vadd (vsub p' o) (vscale b (real k'))) ->
  exists j : zvec, vnorm (vsub q q') = vnorm (vadd (vsub p p') (vscale b (real j))).
Proof.
  intros m b p q p' q' o o' [[k0 k1] k2] [[l0 l1] l2] Hr E E'. exists (k0 - l0, k1 - l1, k2 - l2)%Z.
  rewrite <- (rot_preserves_norm m (vadd (vsub p p') (vscale b (real (k0 - l0, k1 - l1, k2 - l2)%Z)))) by auto. f_equal.
  replace (vsub q q') with (vsub (vsub q o') (vsub q' o')) by (destruct q, q', o'; unfold vsub, vadd, vopp; cbn; f_equal; ring).
  rewrite E, E'. cbv beta iota delta [real]. rewrite !minus_IZR. destruct m as [[] [] []]. unfold mapply, vsub, vadd, vopp, vscale, vdot; cbn. f_equal; ring.
Qed.

(** The non-trivial, concrete cuboid of the tests of the repository. *)
Lemma tests_gs : gram_schmidt (V 0 1 1) (V 1 0 1) (V 0 1 0) (V 0 1 1) (V 1 (- (1 / 2)) (1 / 2)) (V (1 / 3) (1 / 3) (- (1 / 3))).
Proof.
  split; auto. split; [exists (- (1 / 2)); unfold vadd, vscale; cbn; f_equal; lra|].
  split; [exists (- (2 / 3)), (1 / 3); unfold vadd, vscale; cbn; f_equal; lra|]. unfold vdot; cbn. repeat split; lra.
Qed.
