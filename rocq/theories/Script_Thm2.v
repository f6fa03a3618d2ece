(** Property C74, continued: which of the bases that remap_the_box may use keep objects in the box. *)
Require Import Reals ZArith QArith Qreals String List Bool Lra Lia.
From Verif Require Import Base Vec3 Isometry_Model Box_Model Box_Spec Remap_Model Remap_Spec Remap_Proof Remap_Proof2 Remap_Proof3 Remap_Thm Lattice_Model Lattice_Spec Lattice_Thm Script_Model Script_Thm.
Import ListNotations.
Open Scope R_scope.

(** The ranges of sizes that are asked for, and the bases that meet them. *)
Definition wanted : option (list (R * option R)) := Some [(8000, Some 10000); (4000, Some 5000); (2000, Some 4000)].
Definition candidate (u1 u2 u3 : zvec) : Prop := bounded 1 u1 /\ bounded 1 u2 /\ bounded 1 u3 /\ unimodular u1 u2 u3 /\
  exists c, cuboid_new (real u1) (real u2) (real u3) (V 5500 5500 5500) = Ok c /\ fits wanted (vx (cu_size c)) (vy (cu_size c)) (vz (cu_size c)).
(** The dictionary of the script has only such bases. *)
Lemma candidates : forall enum d box us u1 u2 u3, (forall l : list ipos, Permutation.Permutation (enum l) l) -> script_lattice enum = Ok d -> In (box, us) d -> In (u1, u2, u3) us -> candidate u1 u2 u3.
Proof.
  intros enum d box us u1 u2 u3 He E I J. destruct (C25_enumeration enum 1 (Some 1%nat) (V 5500 5500 5500) wanted false He) as (d' & E' & _ & H & _); [repeat split; cbn; lra|].
  change (script_lattice enum = Ok d') in E'. rewrite E in E'. injection E' as <-. destruct (H box us I) as (_ & _ & B). destruct (B u1 u2 u3 J) as (B1 & B2 & B3 & U & cu & Ec & F & _).
  split; auto. split; auto. split; auto. split; auto. exists cu. auto.
Qed.

Lemma edge_ranges : forall u1 u2 u3 e1 e2 e3 c, unimodular u1 u2 u3 -> gram_schmidt (real u1) (real u2) (real u3) e1 e2 e3 -> cuboid_new (real u1) (real u2) (real u3) (V 5500 5500 5500) = Ok c ->
  (fits wanted (vx (cu_size c)) (vy (cu_size c)) (vz (cu_size c)) <-> 8000 <= 5500 * vnorm e1 <= 10000 /\ 4000 <= 5500 * vnorm e2 <= 5000 /\ 2000 <= 5500 * vnorm e3 <= 4000).
Proof.
  intros u1 u2 u3 e1 e2 e3 c U G E. pose proof (unimodular_det3 _ _ _ U) as D. rewrite (cuboid_ok _ _ _ _ _ _ _ D G) in E. injection E as <-.
  rewrite det3_eq in D. pose proof (gs_ortho _ _ _ _ _ _ G D) as O.
  assert (P1 := vnorm_pos' _ (o_11 _ _ _ _ _ _ O)). assert (P2 := vnorm_pos' _ (o_22 _ _ _ _ _ _ O)). assert (P3 := vnorm_pos' _ (o_33 _ _ _ _ _ _ O)).
  cbn [cuboid_of cu_size vmul vx vy vz]. rewrite !isotropic_norm by lra. rewrite !nrm_unit by auto. rewrite !Rmult_1_r. unfold fits, wanted. split.
  - intros F. pose proof (F 0%nat _ _ eq_refl eq_refl) as F1. pose proof (F 1%nat _ _ eq_refl eq_refl) as F2. pose proof (F 2%nat _ _ eq_refl eq_refl) as F3. unfold in_range in *. cbn in *. auto.
  - intros (F1 & F2 & F3) [|[|[|i] ] ] r s Hr Hs; cbn in Hr, Hs; try (injection Hr as <-; injection Hs as <-; unfold in_range; cbn; auto). destruct i; discriminate.
Qed.

(** With the first vector (1, 1, 1), every object of a cubic box (corner at 0) lands in the new box. *)
Theorem C74_inside : forall u2 u3 b, candidate (1, 1, 1)%Z u2 u3 -> 0 < b ->
  exists c, cuboid_new (real (1, 1, 1)%Z) (real u2) (real u3) (V b b b) = Ok c /\ forall x, in_box (V b b b) x -> exists y, cu_transform1 c false x = Ok y /\ in_box (cu_size c) y.
Proof.
  intros u2 u3 b (_ & B2 & B3 & U & c & E & F) P.
  destruct (C21_orthogonal_edges (1, 1, 1)%Z u2 u3 (V 5500 5500 5500) U ltac:(repeat split; cbn; lra)) as (c' & e1 & e2 & e3 & _ & G & _).
  apply (edge_ranges _ _ _ _ _ _ _ U G E) in F. destruct F as (_ & F2 & _). pose proof (norm_square e2) as Q2.
  assert (R2 : 1 / 2 < vdot e2 e2 < 9 / 10) by (rewrite <- Q2; assert (0 <= vnorm e2) by apply sqrt_pos; split; nra).
  apply (C23_lands_in_cuboid_partial (1, 1, 1)%Z u2 u3 e1 e2 e3 (V b b b) U G); [repeat split; auto| | |]; clear c c' E F2 Q2.
  - destruct G as (-> & _). unfold reach, vdot. cbn [real vx vy vz]. rewrite !Rmax_right by lra. lra.
  - destruct G as (-> & (a & ->) & _ & D & _). destruct u2 as [[x y] z]. cbn in B2.
    assert (Bx : (x = -1 \/ x = 0 \/ x = 1)%Z) by lia. assert (By : (y = -1 \/ y = 0 \/ y = 1)%Z) by lia. assert (Bz : (z = -1 \/ z = 0 \/ z = 1)%Z) by lia. clear B2 B3 U.
    unfold vdot, reach in *. cbn [real vadd vscale vx vy vz] in *.
    assert (Ea : a = - (IZR x + IZR y + IZR z) / 3) by lra. subst a.
    destruct Bx as [->|[->| -> ] ], By as [->|[->| -> ] ], Bz as [->|[->| -> ] ]; cbn in *; try lra; unfold Rmax; repeat destruct (Rle_dec _ _); lra.
  - destruct G as (-> & (a & Ea) & (b' & c' & Eb) & D & D3 & D4). destruct u2 as [[x y] z], u3 as [[x3 y3] z3]. cbn in B2. apply (f_equal IZR) in U. cbn [zdet] in U. rewrite ?plus_IZR, ?minus_IZR, ?mult_IZR in U. rewrite ?plus_IZR, ?minus_IZR, ?mult_IZR in U.
    assert (Bx : (x = -1 \/ x = 0 \/ x = 1)%Z) by lia. assert (By : (y = -1 \/ y = 0 \/ y = 1)%Z) by lia. assert (Bz : (z = -1 \/ z = 0 \/ z = 1)%Z) by lia. clear B2 B3.
    destruct e3 as [p q r]. unfold vadd, vscale in Eb. cbn [real vx vy vz] in Eb. injection Eb as Ep Eq Er.
    subst e2. unfold vdot, reach in *. cbn [real vadd vscale vx vy vz] in *.
    assert (Ea : a = - (IZR x + IZR y + IZR z) / 3) by lra. subst a.
    assert (Sum : p + q + r = 0) by lra. assert (Ort : IZR x * p + IZR y * q + IZR z * r = 0).
    { assert (T : IZR x * p + IZR y * q + IZR z * r + - (IZR x + IZR y + IZR z) / 3 * (p + q + r) = 0) by lra. rewrite Sum in T. lra. }
    assert (Det : 1 * (IZR y * r - IZR z * q) - 1 * (IZR x * r - IZR z * p) + 1 * (IZR x * q - IZR y * p) = 1) by (rewrite Ep, Eq, Er; etransitivity; [|exact U]; ring).
    clear U Ep Eq Er D D3 D4 b' c'.
    destruct Bx as [->|[->| -> ] ], By as [->|[->| -> ] ], Bz as [->|[->| -> ] ]; cbn in *; try lra;
      (assert (p = -1 / 2 \/ p = 0 \/ p = 1 / 2) as [->|[->| -> ] ] by (first [left; lra|right; left; lra|right; right; lra]);
       assert (q = -1 / 2 \/ q = 0 \/ q = 1 / 2) as [->|[->| -> ] ] by (first [left; lra|right; left; lra|right; right; lra]);
       assert (r = -1 / 2 \/ r = 0 \/ r = 1 / 2) as [->|[->| -> ] ] by (first [left; lra|right; left; lra|right; right; lra]); try lra; unfold Rmax; repeat destruct (Rle_dec _ _); lra).
Qed.
Print Assumptions C74_inside.
Example C74_case_inside : candidate (1, 1, 1)%Z (1, 0, 0)%Z (0, 1, 0)%Z.
Proof.
  assert (U : unimodular (1, 1, 1)%Z (1, 0, 0)%Z (0, 1, 0)%Z) by reflexivity.
  assert (G : gram_schmidt (real (1, 1, 1)%Z) (real (1, 0, 0)%Z) (real (0, 1, 0)%Z) (V 1 1 1) (V (2 / 3) (- (1 / 3)) (- (1 / 3))) (V 0 (1 / 2) (- (1 / 2)))).
  { split; [reflexivity|]. split; [exists (- (1 / 3)); unfold vadd, vscale; cbn; f_equal; field|]. split; [exists (- (1 / 2)), (1 / 2); unfold vadd, vscale; cbn; f_equal; field|].
    unfold vdot; cbn. repeat split; field. }
  split; [cbn; lia|]. split; [cbn; lia|]. split; [cbn; lia|]. split; [exact U|].
  destruct (C21_orthogonal_edges (1, 1, 1)%Z (1, 0, 0)%Z (0, 1, 0)%Z (V 5500 5500 5500) U ltac:(repeat split; cbn; lra)) as (c & _ & _ & _ & E & _). exists c. split; [exact E|].
  apply (edge_ranges _ _ _ _ _ _ _ U G E). 
  assert (N : forall v, 0 <= vnorm v /\ vnorm v * vnorm v = vdot v v) by (intros v; split; [apply sqrt_pos|apply norm_square]).
  destruct (N (V 1 1 1)) as [A1 B1], (N (V (2 / 3) (- (1 / 3)) (- (1 / 3)))) as [A2 B2], (N (V 0 (1 / 2) (- (1 / 2)))) as [A3 B3]. unfold vdot in B1, B2, B3. cbn [vx vy vz] in B1, B2, B3.
  repeat split; nra.
Qed.

(** With other candidates they do not. *)
Lemma escape_b : forall u1 u2 u3 q1 q2 q3 x b, 0 < b -> unimodular u1 u2 u3 -> gram_schmidt (real u1) (real u2) (real u3) (qr q1) (qr q2) (qr q3) ->
  fst (qloop (qcells q1 q2 q3) x) = true -> qltb (qdot (snd (qloop (qcells q1 q2 q3) x)) q1) 0 = true \/ qltb (qdot q1 q1) (qdot (snd (qloop (qcells q1 q2 q3) x)) q1) = true ->
  exists c y, cuboid_new (real u1) (real u2) (real u3) (V b b b) = Ok c /\ cu_transform1 c false (vscale b (qr x)) = Ok y /\ ~ in_box (cu_size c) y.
Proof.
  intros u1 u2 u3 q1 q2 q3 x b Pb U G T F. pose proof (unimodular_det3 _ _ _ U) as D.
  assert (D' := D). rewrite det3_eq in D'. pose proof (gs_ortho _ _ _ _ _ _ G D') as O.
  assert (P1 := vnorm_pos' _ (o_11 _ _ _ _ _ _ O)). assert (P2 := vnorm_pos' _ (o_22 _ _ _ _ _ _ O)). assert (P3 := vnorm_pos' _ (o_33 _ _ _ _ _ _ O)).
  exists (cuboid_of (qr q1) (qr q2) (qr q3) (V b b b)). eexists. split; [apply (cuboid_ok _ _ _ _ _ _ _ D G)|].
  split.
  - unfold cu_transform1. rewrite vdiv_ok by (cbn; lra). cbn [bind].
    replace (vdiv (vscale b (qr x)) (cu_boxsize (cuboid_of (qr q1) (qr q2) (qr q3) (V b b b)))) with (qr x).
    2:{ destruct x. unfold vdiv, vscale, qr; cbn. f_equal; field; lra. }
    cbn [cuboid_of cu_cells]. rewrite (loop_R _ _ x (cells_R q1 q2 q3 P1 P2 P3)), T. reflexivity.
  - set (p := snd (qloop (qcells q1 q2 q3) x)) in *. unfold in_box, project. cbn [vmul vx vy vz cuboid_of cu_size cu_resize cu_n1].
    intros (B & _). rewrite isotropic_norm, nrm_unit, !Rmult_1_r, rdot_eq in B by (auto; lra). rewrite vdot_comm in B.
    destruct B as [B1 B2]. assert (B1' : 0 <= vdot (nrm (qr q1)) (qr p)) by nra. assert (B3 : 0 <= vnorm (qr q1) - vdot (nrm (qr q1)) (qr p)) by nra.
    apply (side_lo _ _ P1) in B1'. apply (side_hi _ _ P1) in B3.
    rewrite !qr_dot in *. rewrite !qltb_R, RMicromega.Q2R_0, !Rltb_true in F. destruct F; lra.
Qed.
Theorem C74_inside_refuted : forall b, 0 < b -> candidate (-1, -1, -1)%Z (-1, -1, 0)%Z (-1, 0, 0)%Z /\ exists c x y, cuboid_new (real (-1, -1, -1)%Z) (real (-1, -1, 0)%Z) (real (-1, 0, 0)%Z) (V b b b) = Ok c /\
  in_box (V b b b) x /\ cu_transform1 c false x = Ok y /\ ~ in_box (cu_size c) y.
Proof.
  intros b Pb. assert (U : unimodular (-1, -1, -1)%Z (-1, -1, 0)%Z (-1, 0, 0)%Z) by reflexivity.
  assert (G : gram_schmidt (real (-1, -1, -1)%Z) (real (-1, -1, 0)%Z) (real (-1, 0, 0)%Z) (qr (QV (-1) (-1) (-1))) (qr (QV (-1 # 3) (-1 # 3) (2 # 3))) (qr (QV (-1 # 2) (1 # 2) 0))).
  { unfold qr; cbn. unfold Q2R; cbn. split; [f_equal; field|]. split; [exists (- (2 / 3)); unfold vadd, vscale; cbn; f_equal; field|].
    split; [exists 0, (- (1 / 2)); unfold vadd, vscale; cbn; f_equal; field|]. unfold vdot; cbn. repeat split; field. }
  split.
  - split; [cbn; lia|]. split; [cbn; lia|]. split; [cbn; lia|]. split; [exact U|].
    destruct (C21_orthogonal_edges (-1, -1, -1)%Z (-1, -1, 0)%Z (-1, 0, 0)%Z (V 5500 5500 5500) U ltac:(repeat split; cbn; lra)) as (c & _ & _ & _ & E & _). exists c. split; [exact E|].
    apply (edge_ranges _ _ _ _ _ _ _ U G E).
    assert (N : forall v, 0 <= vnorm v /\ vnorm v * vnorm v = vdot v v) by (intros v; split; [apply sqrt_pos|apply norm_square]).
    destruct (N (qr (QV (-1) (-1) (-1)))) as [A1 B1], (N (qr (QV (-1 # 3) (-1 # 3) (2 # 3)))) as [A2 B2], (N (qr (QV (-1 # 2) (1 # 2) 0))) as [A3 B3]. 
    set (s1 := vnorm _) in A1, B1. set (s2 := vnorm _) in A2, B2. set (s3 := vnorm _) in A3, B3. fold s1 s2 s3. unfold vdot, qr, Q2R in B1, B2, B3. cbn in B1, B2, B3.
    clearbody s1 s2 s3. assert (B1' : s1 * s1 = 3) by lra. assert (B2' : s2 * s2 = 2 / 3) by lra. assert (B3' : s3 * s3 = 1 / 2) by lra. clear B1 B2 B3. repeat split; nra.
  - destruct (escape_b _ _ _ _ _ _ (QV (9 # 20) (9 # 20) (9 # 20)) b Pb U G) as (c & y & A & B & C); [vm_compute; reflexivity|vm_compute; auto|].
    exists c, (vscale b (qr (QV (9 # 20) (9 # 20) (9 # 20)))), y. split; [exact A|]. split; [|split; [exact B|exact C] ]. unfold in_box, qr, Q2R, vscale. cbn. repeat split; nra.
Qed.
Print Assumptions C74_inside_refuted.
