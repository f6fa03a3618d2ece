(** Properties C40, C41 and C57: redshift space distortions of Eulerian and Lagrangian mocks, Zel'dovich displacements. Vocabulary in
    Mock_Spec.v and Rsd_Spec.v. *)
Require Import Reals ZArith List Bool Lra Lia Permutation String.
From Verif Require Import Base Vec3 Isometry_Model Isometry_Spec Isometry_Proof Sky_Model Cutsky_Model Box_Model Rsd_Model Rsd_Spec Rsd_Proof Density_Proof Mock_Model Mock_Spec Fourier_Proof Mock_Thm Rsd_Thm.
Import ListNotations.
Open Scope R_scope.

(** The points of the mesh are where they should, whichever coordinates pmesh gives as negative. *)
Lemma slab_ok : forall neg b n i, 0 < b -> (i < n)%nat -> transform_rslab (slab_x neg b n i) b = INR i * (b / INR n).
Proof.
  intros neg b n i B L. assert (N : 0 < INR n) by (apply lt_0_INR; lia). assert (I1 : INR i + 1 <= INR n) by (rewrite <- S_INR; apply le_INR; lia). pose proof (pos_INR i).
  unfold transform_rslab, slab_x. assert (E : INR i * b / INR n = INR i * (b / INR n)) by (unfold Rdiv; ring). rewrite E. assert (D : 0 < b / INR n) by (apply Rdiv_lt_0_compat; auto).
  assert (U : INR i * (b / INR n) < b). { apply Rlt_le_trans with (INR n * (b / INR n)); [nra|]. right. field. lra. }
  destruct (neg n i).
  - destruct (Rltb _ 0) eqn:F; [ring|]. apply Rltb_false in F. lra.
  - destruct (Rltb _ 0) eqn:F; [|ring]. apply Rltb_true in F. nra.
Qed.
Lemma point_node : forall neg box center n x, solid box -> within n x -> point neg box (corner box center) n x = node box center n x.
Proof. intros neg box center n x (B1 & B2 & B3) (W1 & W2 & W3). unfold point, node, corner. cbn [vx vy vz]. rewrite !slab_ok by auto. f_equal; ring. Qed.
Lemma k2_zero : forall w, vdot w w = 0 -> w = vzero.
Proof. intros [a b c] H. unfold vdot in H. cbn in H. assert (a = 0) by nra. assert (b = 0) by nra. assert (c = 0) by nra. subst. auto. Qed.
Lemma c2r_scale : forall n (t : idx -> R) c x, c2r n (fun k => cscale (t k) (c k)) x = Rsum (map (fun k => t k * re (cmul (c k) (expi (phase n k x)))) (cells n)).
Proof. intros. unfold c2r. apply Rsum_map_ext. intros k _. cbn. ring. Qed.
Lemma fixed_mu2 : forall w u, vdot u u = 1 -> fixed_kernel w u = mu2 w u.
Proof.
  intros w u U. unfold fixed_kernel, mu2, safe_k2. cbv zeta. rewrite U. destruct (Req_EM_T (vdot w w) 0) as [Z|Z].
  - apply k2_zero in Z. subst. unfold vdot, vzero. cbn [vx vy vz]. unfold Rdiv. replace (0 * vx u + 0 * vy u + 0 * vz u) with 0 by ring. rewrite !Rmult_0_l. ring.
  - assert (P : 0 < vdot w w) by (pose proof (Rle_0_sqr (vx w)); pose proof (Rle_0_sqr (vy w)); pose proof (Rle_0_sqr (vz w)); unfold Rsqr, vdot in *; lra).
    rewrite Rmult_1_r, Rpow_div_distr || unfold Rdiv. rewrite ?Rpow_mult_distr. replace ((/ sqrt (vdot w w)) ^ 2) with (/ vdot w w); [field; lra|].
    rewrite <- (Rmult_1_r 1) at 1 || idtac. simpl. rewrite Rmult_1_r, <- Rinv_mult. rewrite sqrt_sqrt by lra. auto.
Qed.
(** C40. With a fixed line of sight, each mode is enhanced by f mu^2 (and keeps its phase). *)
Theorem C40_fixed : forall freq neg box center n delta_k delta f los u, solid box -> los_means los u ->
  exists out, eulerian_set_rsd freq neg box center n delta_k delta f (Some los) = Ok out /\
    forall x, within n x -> out x = delta x + growth f (node box center n x) * weighted freq box n (fun k => mu2 k u) delta_k x.
Proof.
  intros freq neg box center n delta_k delta f los u SB LM. destruct (los_means_ok _ _ LM) as [G U]. unfold eulerian_set_rsd. rewrite G. cbn [bind]. eexists. split; [reflexivity|].
  intros x W. assert (E : c2r n (fun k => cscale (fixed_kernel (wave freq box n k) u) (delta_k k)) x = weighted freq box n (fun k => mu2 k u) delta_k x).
  { rewrite c2r_scale. unfold weighted. apply Rsum_map_ext. intros k _. rewrite fixed_mu2 by auto. auto. }
  destruct f as [f|f]; cbn [growth].
  - rewrite E. ring.
  - rewrite E, point_node, distance_vnorm by auto. unfold vnorm. ring.
Qed.
Print Assumptions C40_fixed.
Lemma pairs_sum : forall (l : list idx) (w : idx -> vec) (s : idx -> R) (v : idx -> R) (r : vec) (r2 f : R),
  Rsum (map (fun p : nat * nat => let '(i, j) := p in let factor := 1 + (if Nat.eqb i j then 0 else 1) in
    (factor * f) * (Rsum (map (fun k => component (w k) i * component (w k) j / s k * v k) l) * (component r i * component r j / r2))) pairs) =
  f * Rsum (map (fun k => vdot (w k) r ^ 2 / s k / r2 * v k) l).
Proof.
  intros l w s v r r2 f. unfold pairs. cbn [map Rsum Nat.eqb component]. induction l as [|k l IH]; cbn [map Rsum fold_right] in *; [ring|]. unfold Rsum in *. cbn [fold_right] in *. rewrite Rmult_plus_distr_l, <- IH. unfold vdot, Rdiv. ring.
Qed.
(** With a local line of sight, the same with the direction of the cell, for fields without modes on the planes that the code
    takes for the Nyquist ones. What is missing is these modes (see below for meshes with an odd number of cells). *)
Theorem C40_local_partial : forall freq neg box center n delta_k delta f, solid box -> (forall x, within n x -> node box center n x <> vzero) ->
  (forall k, within n k -> ~ below_half n k -> delta_k k = Cx 0 0) ->
  exists out, eulerian_set_rsd freq neg box center n delta_k delta f None = Ok out /\
    forall x, within n x -> out x = delta x + growth f (node box center n x) * weighted freq box n (fun k => mu2 k (node box center n x)) delta_k x.
Proof.
  intros freq neg box center n delta_k delta f SB OB BH. unfold eulerian_set_rsd.
  pose (num := match f with FNum f => f | FFun _ => 1 end).
  destruct (tabulate_ok n (fun x => let r2 := vx (point neg box (corner box center) n x) ^ 2 + vy (point neg box (corner box center) n x) ^ 2 + vz (point neg box (corner box center) n x) ^ 2 in
        if Req_EM_T r2 0 then Err ZeroDivision else
        Ok (Rsum (map (fun p : nat * nat =>
          let '(i, j) := p in
          let factor := 1 + (if Nat.eqb i j then 0 else 1) in
          let factor := match f with FNum f => factor * f | FFun _ => factor end in
          factor * (c2r n (fun k => cscale (local_kernel n k (wave freq box n k) i j) (delta_k k)) x * (component (point neg box (corner box center) n x) i * component (point neg box (corner box center) n x) j / r2))) pairs))) 0
        (fun x => num * weighted freq box n (fun k => mu2 k (node box center n x)) delta_k x)) as [h [H1 H2]].
  - intros x W. cbv zeta. rewrite point_node by auto. set (r := node box center n x). assert (R0 : r <> vzero) by (apply OB; auto).
    assert (R2 : vx r ^ 2 + vy r ^ 2 + vz r ^ 2 = vdot r r) by (unfold vdot; ring). rewrite R2. destruct (Req_EM_T (vdot r r) 0) as [Z|Z]; [apply k2_zero in Z; contradiction|]. f_equal.
    transitivity (Rsum (map (fun p : nat * nat => let '(i, j) := p in let factor := 1 + (if Nat.eqb i j then 0 else 1) in
      (factor * num) * (Rsum (map (fun k => component (wave freq box n k) i * component (wave freq box n k) j / safe_k2 (wave freq box n k) * re (cmul (delta_k k) (expi (phase n k x)))) (cells n)) * (component r i * component r j / vdot r r))) pairs)).
    + apply Rsum_map_ext. intros [i j] _. cbv zeta. f_equal; [unfold num; destruct f; ring|]. f_equal. rewrite c2r_scale. apply Rsum_map_ext. intros k K. apply cells_In in K.
      destruct (at_half n k 0) eqn:H0; [|destruct (at_half n k 1) eqn:H1; [|destruct (at_half n k 2) eqn:H2]].
      1-3: rewrite (BH k K); [cbn; ring|]; intros (b0 & b1 & b2); unfold at_half, index in *; apply Nat.eqb_eq in H0 || apply Nat.eqb_eq in H1 || apply Nat.eqb_eq in H2; contradiction.
      assert (M : forall a, at_half n k a = false). { intro a. destruct a as [|[|a]]; auto. }
      unfold local_kernel, local_mask. rewrite !M. cbn [negb andb orb]. ring.
    + rewrite pairs_sum. f_equal. unfold weighted. apply Rsum_map_ext. intros k _. f_equal. unfold mu2, safe_k2. cbv zeta. destruct (Req_EM_T (vdot (wave freq box n k) (wave freq box n k)) 0) as [Zk|Zk].
      * rewrite (k2_zero _ Zk). unfold vdot, vzero. cbn [vx vy vz]. unfold Rdiv. replace (0 * vx r + 0 * vy r + 0 * vz r) with 0 by ring. ring.
      * field. split; auto.
  - cbv beta zeta in H1 |- *. rewrite H1. cbn [bind]. eexists. split; [reflexivity|]. intros x W. destruct f as [f|f]; cbn [growth]; rewrite H2 by auto; unfold num.
    + auto. + rewrite point_node, distance_vnorm by auto. unfold vnorm. ring.
Qed.
Print Assumptions C40_local_partial.
Lemma mu2_scale : forall t k r, 0 < t -> mu2 k (vscale t r) = mu2 k r.
Proof.
  intros t k r T. unfold mu2. replace (vdot k (vscale t r)) with (t * vdot k r) by (unfold vdot, vscale; cbn [vx vy vz]; ring).
  replace (vdot (vscale t r) (vscale t r)) with (t * t * vdot r r) by (unfold vdot, vscale; cbn [vx vy vz]; ring). unfold Rdiv. rewrite !Rinv_mult.
  transitivity (vdot k r ^ 2 * (/ vdot k k * / vdot r r) * (t * / t) * (t * / t)); [ring|]. rewrite Rinv_r by lra. ring.
Qed.
(** So that a fixed line of sight in the direction of a cell gives in this cell what a local one does. *)
Theorem C40_fixed_is_local_partial : forall freq neg box center n delta_k delta f x, solid box -> (forall x, within n x -> node box center n x <> vzero) ->
  (forall k, within n k -> ~ below_half n k -> delta_k k = Cx 0 0) -> within n x ->
  exists fixed local, eulerian_set_rsd freq neg box center n delta_k delta f (Some (AxVec (node box center n x))) = Ok fixed /\
    eulerian_set_rsd freq neg box center n delta_k delta f None = Ok local /\ fixed x = local x.
Proof.
  intros freq neg box center n delta_k delta f x SB OB BH W. destruct (C40_local_partial freq neg box center n delta_k delta f SB OB BH) as [local [L1 L2]].
  destruct (local_los_ok _ (OB x W)) as [u [_ [SD U]]]. destruct (C40_fixed freq neg box center n delta_k delta f _ u SB (lm_vec _ u SD U)) as [fixed [F1 F2]].
  exists fixed, local. split; auto. split; auto. rewrite F2, L2 by auto. f_equal. f_equal. apply Rsum_map_ext. intros k _. f_equal. destruct SD as [t [T <-]]. apply mu2_scale; auto.
Qed.
Print Assumptions C40_fixed_is_local_partial.

(** A cell at the observer has no line of sight: NaN with the default center and an even mesh. *)
Theorem C40_observer_refuted : forall freq neg box n delta_k delta f, solid box -> nonempty n -> Nat.even (ix n) = true -> Nat.even (iy n) = true -> Nat.even (iz n) = true ->
  eulerian_set_rsd freq neg box vzero n delta_k delta f None = Err ZeroDivision.
Proof.
  intros freq neg box n delta_k delta f SB (N1 & N2 & N3) E1 E2 E3. unfold eulerian_set_rsd, tabulate. cbv beta zeta.
  assert (H : forall m, (0 < m)%nat -> Nat.even m = true -> (Nat.div m 2 < m)%nat /\ INR (Nat.div m 2) = INR m / 2).
  { intros m M E. apply Nat.even_spec in E. destruct E as [q ->]. rewrite Nat.mul_comm, Nat.div_mul by lia. split; [lia|]. rewrite mult_INR. simpl (INR 2). field. }
  destruct (H _ N1 E1) as [L1 I1]. destruct (H _ N2 E2) as [L2 I2]. destruct (H _ N3 E3) as [L3 I3]. set (x := I (Nat.div (ix n) 2) (Nat.div (iy n) 2) (Nat.div (iz n) 2)).
  assert (W : within n x) by (repeat split; auto).
  assert (Z : point neg box (corner box vzero) n x = vzero).
  { rewrite point_node by auto. unfold node, x, vzero. cbn [ix iy iz vx vy vz]. rewrite I1, I2, I3. assert (0 < INR (ix n)) by (apply lt_0_INR; auto). assert (0 < INR (iy n)) by (apply lt_0_INR; auto). assert (0 < INR (iz n)) by (apply lt_0_INR; auto). f_equal; field; lra. }
  match goal with |- context [forallb ?g (cells n)] => assert (F : forallb g (cells n) = false) end.
  { apply not_true_iff_false. intro F. rewrite forallb_forall in F. specialize (F x (proj2 (cells_In n x) W)). cbv beta in F. rewrite Z in F. unfold vzero in F. cbn [vx vy vz] in F. replace (0 ^ 2 + 0 ^ 2 + 0 ^ 2) with 0 in F by ring. destruct (Req_EM_T 0 0); [discriminate|contradiction]. }
  rewrite F. auto.
Qed.
Print Assumptions C40_observer_refuted.
(** On an odd mesh the frequency (n - 1) / 2 is taken for a Nyquist frequency: products with other axes are lost, and a wave
    perpendicular to the line of sight is distorted. *)
Definition tilted (k : idx) : cplx := if (Nat.eqb (ix k) 1 && Nat.eqb (iy k) 2 || Nat.eqb (ix k) 2 && Nat.eqb (iy k) 1)%bool then Cx 1 0 else Cx 0 0.
Lemma tilted_c2r : forall t, c2r (I 3 3 1) (fun k => cscale (t k) (tilted k)) (I 0 0 0) = t (I 1 2 0)%nat + t (I 2 1 0)%nat.
Proof.
  intro t. rewrite c2r_scale. assert (P : forall k, expi (phase (I 3 3 1) k (I 0 0 0)) = C1).
  { intro k. replace (phase (I 3 3 1) k (I 0 0 0)) with 0 by (unfold phase; cbn; field). apply expi_0. }
  cbn [cells ix iy iz seq flat_map map app]. rewrite !P. unfold tilted, C1, cmul. cbn [ix iy iz Nat.eqb andb orb re im Rsum fold_right]. unfold Rsum. cbn [fold_right]. ring.
Qed.
Theorem C40_odd_mesh_refuted : exists box center n delta_k out, solid box /\ hermitian n delta_k /\ (forall k, within n k -> delta_k k <> Cx 0 0 -> vdot (wave signed box n k) (node box center n (I 0 0 0)) = 0) /\
  eulerian_set_rsd signed (fun _ _ => false) box center n delta_k (fun _ => 0) (FNum 1) None = Ok out /\ out (I 0 0 0) = 1.
Proof.
  exists (V 1 1 1), (V (3 / 2) (3 / 2) (1 / 2)), (I 3 3 1), tilted.
  assert (SB : solid (V 1 1 1)) by (repeat split; cbn; lra).
  assert (NZ : forall x, within (I 3 3 1) x -> node (V 1 1 1) (V (3 / 2) (3 / 2) (1 / 2)) (I 3 3 1) x <> vzero).
  { intros x _ E. apply (f_equal vx) in E. cbn in E. pose proof (pos_INR (ix x)). lra. }
  destruct (tabulate_ok (I 3 3 1) (fun x => let r2 := vx (point (fun _ _ => false) (V 1 1 1) (corner (V 1 1 1) (V (3 / 2) (3 / 2) (1 / 2))) (I 3 3 1) x) ^ 2 + vy (point (fun _ _ => false) (V 1 1 1) (corner (V 1 1 1) (V (3 / 2) (3 / 2) (1 / 2))) (I 3 3 1) x) ^ 2 + vz (point (fun _ _ => false) (V 1 1 1) (corner (V 1 1 1) (V (3 / 2) (3 / 2) (1 / 2))) (I 3 3 1) x) ^ 2 in
        if Req_EM_T r2 0 then Err ZeroDivision else
        Ok (Rsum (map (fun p : nat * nat =>
          let '(i, j) := p in
          let factor := 1 + (if Nat.eqb i j then 0 else 1) in
          let factor := factor * 1 in
          factor * (c2r (I 3 3 1) (fun k => cscale (local_kernel (I 3 3 1) k (wave signed (V 1 1 1) (I 3 3 1) k) i j) (tilted k)) x * (component (point (fun _ _ => false) (V 1 1 1) (corner (V 1 1 1) (V (3 / 2) (3 / 2) (1 / 2))) (I 3 3 1) x) i * component (point (fun _ _ => false) (V 1 1 1) (corner (V 1 1 1) (V (3 / 2) (3 / 2) (1 / 2))) (I 3 3 1) x) j / r2))) pairs))) 0
        (fun x => Rsum (map (fun p : nat * nat =>
          let '(i, j) := p in
          let factor := 1 + (if Nat.eqb i j then 0 else 1) in
          let factor := factor * 1 in
          factor * (c2r (I 3 3 1) (fun k => cscale (local_kernel (I 3 3 1) k (wave signed (V 1 1 1) (I 3 3 1) k) i j) (tilted k)) x * (component (node (V 1 1 1) (V (3 / 2) (3 / 2) (1 / 2)) (I 3 3 1) x) i * component (node (V 1 1 1) (V (3 / 2) (3 / 2) (1 / 2)) (I 3 3 1) x) j / vdot (node (V 1 1 1) (V (3 / 2) (3 / 2) (1 / 2)) (I 3 3 1) x) (node (V 1 1 1) (V (3 / 2) (3 / 2) (1 / 2)) (I 3 3 1) x)))) pairs))) as [h [H1 H2]].
  { intros x W. cbv zeta. rewrite point_node by auto. set (r := node _ _ _ x). assert (R0 : r <> vzero) by (apply NZ; auto).
    assert (R2 : vx r ^ 2 + vy r ^ 2 + vz r ^ 2 = vdot r r) by (unfold vdot; ring). rewrite R2. destruct (Req_EM_T (vdot r r) 0) as [Z|Z]; [apply k2_zero in Z; contradiction|]. auto. }
  exists (fun x => 0 + h x). split; auto. split; [|split; [|split]].
  - intros [[|[|[|a] ] ] [|[|[|b] ] ] [|c] ] (W1 & W2 & W3); cbn [ix iy iz] in *; try lia; unfold opposite, tilted; cbn; f_equal; ring.
  - intros [[|[|[|a] ] ] [|[|[|b] ] ] [|c] ] (W1 & W2 & W3) NE; cbn [ix iy iz] in *; try lia; unfold tilted in NE; cbn in NE; try (elim NE; reflexivity); unfold node, wave, signed, vdot; cbn; field.
  - unfold eulerian_set_rsd. cbv beta zeta in H1 |- *. rewrite H1. auto.
  - rewrite H2 by (repeat split; cbn; lia). cbv beta zeta. unfold node, vdot. cbn [ix iy iz vx vy vz component pairs map].
    rewrite !tilted_c2r. assert (K : forall a b, (a = 1 \/ a = 2)%nat -> b = (3 - a)%nat -> safe_k2 (wave signed (V 1 1 1) (I 3 3 1) (I a b 0)) = 8 * (PI * PI) /\ vx (wave signed (V 1 1 1) (I 3 3 1) (I a b 0)) ^ 2 = 4 * (PI * PI) /\ vy (wave signed (V 1 1 1) (I 3 3 1) (I a b 0)) ^ 2 = 4 * (PI * PI) /\ vz (wave signed (V 1 1 1) (I 3 3 1) (I a b 0)) = 0).
    { intros a b [-> | ->] ->; unfold safe_k2, wave, signed, vdot; cbn [ix iy iz vx vy vz Nat.leb Nat.mul Nat.add Nat.sub Z.of_nat Pos.of_succ_nat Pos.succ Z.sub Z.add Z.opp Z.pos_sub Pos.pred_double Z.pred_double]; cbv zeta; pose proof PI_RGT_0; (destruct (Req_EM_T _ 0) as [Q|Q]; [exfalso; nra|]); repeat split; field. }
    destruct (K 1%nat 2%nat ltac:(auto) ltac:(auto)) as (K1 & K2 & K3 & K4). destruct (K 2%nat 1%nat ltac:(auto) ltac:(auto)) as (M1 & M2 & M3 & M4). unfold local_kernel. rewrite K1, M1. cbn [component]. rewrite K4, M4.
    unfold local_mask, at_half. cbn [index ix iy iz Nat.eqb Nat.div Nat.divmod fst negb andb orb]. unfold Rsum. cbn [fold_right INR].
    assert (PP : PI * PI <> 0) by (pose proof PI_RGT_0; nra). rewrite <- !Rsqr_pow2 in *. unfold Rsqr in *. rewrite K2, K3, M2, M3. field. pose proof PI_RGT_0. repeat split; lra.
Qed.
Print Assumptions C40_odd_mesh_refuted.
(** A wave along the first axis, on a mesh of 4 cells per side that does not contain the observer. *)
Example C40_case : let delta_k := fun k : idx => if (Nat.eqb (iy k) 0 && Nat.eqb (iz k) 0 && (Nat.eqb (ix k) 1 || Nat.eqb (ix k) 3))%bool then Cx 1 0 else Cx 0 0 in
  solid (V 1 1 1) /\ (forall x, within (I 4 4 4) x -> node (V 1 1 1) (V 5 0 0) (I 4 4 4) x <> vzero) /\
  (forall k, within (I 4 4 4) k -> ~ below_half (I 4 4 4) k -> delta_k k = Cx 0 0) /\ hermitian (I 4 4 4) delta_k /\ los_means (AxStr "z") (V 0 0 1).
Proof.
  intro delta_k. split; [repeat split; cbn; lra|]. split; [|split; [|split; [|constructor] ] ].
  - intros x _ E. apply (f_equal vx) in E. cbn in E. pose proof (pos_INR (ix x)). lra.
  - intros [a b c] (W1 & W2 & W3) B. unfold delta_k. cbn [ix iy iz]. destruct (Nat.eqb b 0) eqn:E1; auto. destruct (Nat.eqb c 0) eqn:E2; auto. destruct (Nat.eqb a 1 || Nat.eqb a 3)%bool eqn:E3; auto. elim B. apply Nat.eqb_eq in E1, E2. apply orb_true_iff in E3. unfold below_half. cbn.
    destruct E3 as [E3|E3]; apply Nat.eqb_eq in E3; subst; repeat split; discriminate.
  - intros [a b c] (W1 & W2 & W3). cbn [ix iy iz] in *. unfold delta_k, opposite. cbn [ix iy iz]. destruct a as [|[|[|[|a] ] ] ]; [| | | |lia]; destruct b as [|[|[|[|b] ] ] ]; [| | | |lia| | | | |lia| | | | |lia| | | | |lia]; destruct c as [|[|[|[|c] ] ] ]; try lia; cbn; f_equal; ring.
Qed.

(** C41. Sampled positions are displaced ones, up to whole box lengths, in the box; the displacement kept is the one applied. *)
Theorem C41_in_box : forall box center n delta nbar poisson parts uniform readout pos disps, solid box ->
  lagrangian_sample box center n delta nbar poisson parts uniform readout = Ok (pos, disps) ->
  exists initial, poisson_sample box center n delta nbar poisson parts uniform = Ok initial /\ List.length disps = List.length initial /\
    row_by_row (fun p d q => d = V (readout 0%nat p) (readout 1%nat p) (readout 2%nat p) /\ same_place box (vadd p d) q /\ between (lower box center) (upper box center) q) initial disps pos.
Proof.
  intros box center n delta nbar poisson parts uniform readout pos disps (B1 & B2 & B3) H. unfold lagrangian_sample in H. destruct (poisson_sample _ _ _ _ _ _ _ _) as [initial|] eqn:E; [|discriminate]. cbn [bind] in H. cbv zeta in H.
  apply ok_inj in H. apply pair_equal_spec in H. destruct H as [<- <-]. exists initial. split; auto. rewrite !map_length. split; auto. split; [rewrite !map_length; auto|].
  intros i p v q Hp Hv Hq. rewrite !nth_error_map, Hp in Hv, Hq. cbn in Hv, Hq. injection Hv as <-. injection Hq as <-. split; auto. set (d := V _ _ _). unfold same_place, between, wrap, corner, lower, upper, vadd. cbn [vx vy vz].
  assert (M : forall t o b, 0 < b -> (exists a : BinNums.Z, Rmod (t - o) b + o = t + IZR a * b) /\ o <= Rmod (t - o) b + o < o + b).
  { intros t o b Hb. pose proof (Rmod_range (t - o) b Hb). split; [|lra]. destruct (Rmod_congr (t - o) b Hb) as [k K]. exists (- k)%Z. rewrite opp_IZR. lra. }
  destruct (M (vx p + vx d) (vx center - vx box / 2) (vx box) B1) as [[a A1] A2]. destruct (M (vy p + vy d) (vy center - vy box / 2) (vy box) B2) as [[b Q1] Q2]. destruct (M (vz p + vz d) (vz center - vz box / 2) (vz box) B3) as [[c C1] C2].
  unfold d in *. cbn [vx vy vz] in *. split; [exists a, b, c; auto|]. repeat split; lra.
Qed.
Print Assumptions C41_in_box.
Lemma lagrangian_as_box : forall pos disps f los, lagrangian_set_rsd pos disps f los = rsd_position (pv_cat pos disps) f los.
Proof.
  intros. unfold lagrangian_set_rsd, rsd_position. change (position (pv_cat pos disps)) with (Ok pos). change (velocity (pv_cat pos disps)) with (Ok disps). cbn [bind]. auto.
Qed.
(** With a fixed line of sight, redshift space distortions move objects by f times the displacement along it. *)
Theorem C41_rsd_fixed : forall pos disps f los u, List.length disps = List.length pos -> los_means los u ->
  exists out, lagrangian_set_rsd pos disps (FNum f) (Some los) = Ok out /\ row_by_row (moved_along u f) pos disps out.
Proof. intros. rewrite lagrangian_as_box. apply C20_fixed_line_of_sight; auto. Qed.
Print Assumptions C41_rsd_fixed.
(** With the local one, along the direction of the object. *)
Theorem C41_rsd_local : forall pos disps f, List.length disps = List.length pos -> (forall p, In p pos -> p <> vzero) ->
  exists out, lagrangian_set_rsd pos disps (FNum f) None = Ok out /\ row_by_row (moved_radially f) pos disps out.
Proof. intros. rewrite lagrangian_as_box. apply C20_local_line_of_sight; auto. Qed.
Print Assumptions C41_rsd_local.
(** A growth factor given as a function of distance, as documented, raises unless there are one or three objects. *)
Theorem C41_callable_raises_refuted : forall pos disps f los, List.length disps = List.length pos ->
  (los = None -> forall p, In p pos -> p <> vzero) -> (forall a, los = Some a -> exists u, los_means a u) ->
  List.length pos <> 1%nat -> List.length pos <> 3%nat -> lagrangian_set_rsd pos disps (FFun f) los = Err ValueError.
Proof. intros. rewrite lagrangian_as_box. eapply C20_callable_raises_refuted; eauto; reflexivity. Qed.
Print Assumptions C41_callable_raises_refuted.
(** Positions in redshift space are not wrapped: objects leave the box. *)
Theorem C41_leaves_box_refuted : exists box center n uniform readout pos disps out,
  solid box /\ lagrangian_sample box center n (fun _ => 0) (fun _ => 1) (fun l => map (fun _ => 1%nat) l) [cells n] uniform readout = Ok (pos, disps) /\
  lagrangian_set_rsd pos disps (FNum 1) (Some (AxStr "x")) = Ok out /\ exists q, In q out /\ ~ between (lower box center) (upper box center) q.
Proof.
  exists (V 1 1 1), (V (1 / 2) (1 / 2) (1 / 2)), (I 1 1 1), (fun m => repeat (V 0 0 0) m), (fun i _ => match i with O => 1 | _ => 0 end).
  assert (SB : solid (V 1 1 1)) by (repeat split; cbn; lra). assert (ST : stream (fun m => repeat (V 0 0 0) m)).
  { intro m. split; [apply repeat_length|]. intros u U. apply repeat_spec in U. subst. unfold between. cbn. lra. }
  destruct (proj2 (C39_negative_density (V 1 1 1) (V (1 / 2) (1 / 2) (1 / 2)) (I 1 1 1) (fun _ => 0) (fun _ => 1) (fun l => map (fun _ => 1%nat) l) [cells (I 1 1 1)] (fun m => repeat (V 0 0 0) m) SB ltac:(repeat split; cbn; lia))) as [p0 P0].
  { intros x _. lra. }
  assert (NE : nonempty (I 1 1 1)) by (repeat split; cbn; lia). assert (PE : Permutation (List.concat [cells (I 1 1 1)]) (cells (I 1 1 1))) by (cbn [List.concat]; rewrite app_nil_r; auto).
  assert (PL : forall l : list R, List.length (map (fun _ => 1%nat) l) = List.length l) by (intro; apply map_length).
  destruct (C39_number _ _ _ _ _ _ _ _ _ SB NE PE ST PL P0) as [L F].
  assert (L1 : List.length p0 = 1%nat) by (rewrite L; reflexivity). destruct p0 as [|p p0]; [discriminate|]. destruct p0; [|discriminate]. inversion F as [|? ? Bp _]; subst.
  destruct (displaced (V 1 1 1) (V (1 / 2) (1 / 2) (1 / 2)) (fun i _ => match i with O => 1 | _ => 0 end) p) as [q d] eqn:D.
  exists [q], [d]. assert (LS : lagrangian_sample (V 1 1 1) (V (1 / 2) (1 / 2) (1 / 2)) (I 1 1 1) (fun _ => 0) (fun _ => 1) (fun l => map (fun _ => 1%nat) l) [cells (I 1 1 1)] (fun m => repeat (V 0 0 0) m) (fun i _ => match i with O => 1 | _ => 0 end) = Ok ([q], [d])).
  { unfold lagrangian_sample. rewrite P0. cbn [bind map]. rewrite D. reflexivity. }
  destruct (C41_in_box _ _ _ _ _ _ _ _ _ _ _ SB LS) as [i0 [I1 [_ [_ RR] ] ] ]. rewrite P0 in I1. injection I1 as <-. destruct (RR 0%nat p d q eq_refl eq_refl eq_refl) as (Ed & _ & Bq).
  destruct (C41_rsd_fixed [q] [d] 1 (AxStr "x") (V 1 0 0) eq_refl lm_x) as [out [O1 [OL OR] ] ]. exists out. split; auto. split; auto. split; auto. destruct out as [|o out]; [discriminate|]. exists o. split; [left; auto|].
  destruct (OR 0%nat q d o eq_refl eq_refl eq_refl) as [_ ->]. subst d. intros [X _]. destruct Bq as [Bq _]. unfold lower, upper, vadd, vscale, vdot in *. cbn [vx vy vz] in *. lra.
Qed.
Print Assumptions C41_leaves_box_refuted.
Example C41_case : List.length [V 0 0 1] = List.length [V 1 0 0] /\ los_means (AxStr "z") (V 0 0 1) /\ (forall p, In p [V 1 0 0] -> p <> vzero).
Proof. split; auto. split; [constructor|]. intros p [<-|[]] E. apply (f_equal vx) in E. cbn in E. lra. Qed.

(** C57. The divergence of the displacement field is minus the density contrast, mode by mode, for the modes below the planes taken
    for the Nyquist ones. *)
Theorem C57_divergence_partial : forall freq box n delta_k k, below_half n k -> wave freq box n k <> vzero ->
  divergence (wave freq box n k) (fun i => displacement_k freq box n delta_k i k) = cscale (-1) (delta_k k).
Proof.
  intros freq box n delta_k k (H0 & H1 & H2) NZ. unfold divergence, displacement_k, safe_k2. cbv zeta. set (w := wave freq box n k) in *.
  assert (W : vdot w w <> 0) by (intro Z; apply k2_zero in Z; contradiction). destruct (Req_EM_T (vdot w w) 0); [contradiction|].
  unfold at_half, index. rewrite (proj2 (Nat.eqb_neq _ _) H0), (proj2 (Nat.eqb_neq _ _) H1), (proj2 (Nat.eqb_neq _ _) H2). unfold component, cscale, cadd, cmul. cbn [re im]. unfold vdot in *. apply cplx_eq; cbn [re im]; field; auto.
Qed.
Print Assumptions C57_divergence_partial.
(** It is irrotational, and has no mean. *)
Theorem C57_irrotational_partial : forall freq box n delta_k k i j, below_half n k -> (i < 3)%nat -> (j < 3)%nat ->
  cscale (component (wave freq box n k) i) (displacement_k freq box n delta_k j k) = cscale (component (wave freq box n k) j) (displacement_k freq box n delta_k i k).
Proof.
  intros freq box n delta_k k i j (H0 & H1 & H2) Li Lj. assert (A : forall a, (a < 3)%nat -> at_half n k a = false).
  { intros a La. unfold at_half. destruct a as [|[|[|a] ] ]; try lia; apply Nat.eqb_neq; auto. }
  unfold displacement_k. cbv zeta. rewrite !A by auto. unfold cscale, cmul. cbn [re im]. apply cplx_eq; cbn [re im]; unfold Rdiv; ring.
Qed.
Print Assumptions C57_irrotational_partial.
Theorem C57_zero_mean : forall freq box n delta_k i, proper_freq freq -> nonempty n -> Rsum (map (displacement freq box n delta_k i) (cells n)) = 0.
Proof.
  intros freq box n delta_k i PF NE. unfold displacement. rewrite sum_c2r by auto. unfold displacement_k. rewrite wave_zero by auto. cbv zeta. unfold component, vzero. destruct i as [|[|i] ]; cbn; unfold Rdiv; ring.
Qed.
Print Assumptions C57_zero_mean.
(** On an odd mesh, the waves of frequency (n - 1) / 2 are not displaced at all. *)
Theorem C57_odd_mesh_refuted : exists box n k delta_k, solid box /\ within n k /\ (2 * signed (ix n) (ix k) <> Z.of_nat (ix n))%Z /\ wave signed box n k <> vzero /\
  delta_k k <> Cx 0 0 /\ divergence (wave signed box n k) (fun i => displacement_k signed box n delta_k i k) = Cx 0 0.
Proof.
  exists (V 1 1 1), (I 5 5 5), (I 2 0 0), (fun _ => Cx 1 0). split; [repeat split; cbn; lra|]. split; [repeat split; cbn; lia|]. split; [cbn; lia|]. split; [|split].
  - intro E. apply (f_equal vx) in E. unfold wave, signed, vzero in E. cbn in E. pose proof PI_RGT_0. lra.
  - intro E. injection E as E. lra.
  - unfold divergence, displacement_k, at_half, index, wave, signed. cbn -[PI safe_k2]. apply cplx_eq; cbn -[PI safe_k2]; unfold Rdiv; ring.
Qed.
Print Assumptions C57_odd_mesh_refuted.
Example C57_case : below_half (I 4 4 4) (I 1 3 0) /\ wave signed (V 1 1 1) (I 4 4 4) (I 1 3 0) <> vzero.
Proof. split; [repeat split; discriminate|]. intro E. apply (f_equal vx) in E. unfold wave, signed, vzero in E. cbn in E. pose proof PI_RGT_0. lra. Qed.
