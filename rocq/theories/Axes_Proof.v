(** Lemmas on relabelled axes. *)
Require Import Reals Lra Lia ZArith String List Bool Permutation.
From Verif Require Import Base Vec3 Isometry_Model Isometry_Spec Isometry_Proof Sky_Model Sky_Spec Sky_Proof Cutsky_Model Box_Model Box_Spec Box_Proof Unit_Spec Unit_Proof Rsd_Model Rsd_Spec Rsd_Proof Mock_Model Density_Proof Fourier_Proof Undo_Proof Axes_Spec.
Import ListNotations.
Open Scope R_scope.

(** Sums over the mesh. *)
Lemma in_cells : forall n x, In x (cells n) <-> (ix x < ix n /\ iy x < iy n /\ iz x < iz n)%nat.
Proof.
  intros n [a b c]. unfold cells. rewrite in_flat_map. cbn [ix iy iz]. split.
  - intros (a' & A & H). apply in_flat_map in H as (b' & B & H). apply in_map_iff in H as (c' & E & C). injection E as -> -> ->. rewrite in_seq in A, B, C. lia.
  - intros (A & B & C). exists a. rewrite in_seq. split; [lia|]. apply in_flat_map. exists b. rewrite in_seq. split; [lia|]. apply in_map_iff. exists c. rewrite in_seq. split; auto; lia.
Qed.
Definition back_l (l : labels) : labels := match l with LYZX => LZXY | LZXY => LYZX | l => l end.
Lemma idx_back : forall l x, idx_l l (idx_l (back_l l) x) = x /\ idx_l (back_l l) (idx_l l x) = x.
Proof. intros [] []; split; reflexivity. Qed.
Lemma cells_l : forall l n, Permutation (map (idx_l l) (cells n)) (cells (idx_l l n)).
Proof.
  intros l n. apply NoDup_Permutation.
  - apply FinFun.Injective_map_NoDup; [|apply cells_nodup]. intros a b H. rewrite <- (proj2 (idx_back l a)), H. apply idx_back.
  - apply cells_nodup.
  - intros x. rewrite in_map_iff. split.
    + intros (y & <- & H). apply in_cells in H. apply in_cells. destruct l, n, y; cbn in *; lia.
    + intros H. exists (idx_l (back_l l) x). split; [apply idx_back|]. apply in_cells in H. apply in_cells. destruct l, n, x; cbn in *; lia.
Qed.
Lemma cell_l : forall l n x, In x (cells n) -> In (idx_l l x) (cells (idx_l l n)).
Proof. intros l n x H. eapply Permutation_in; [apply cells_l|]. apply in_map. auto. Qed.
Lemma sum_l : forall l n (f f' : idx -> R), field_l l n f f' -> Rsum (map f' (cells (idx_l l n))) = Rsum (map f (cells n)).
Proof. intros l n f f' H. rewrite <- (Rsum_perm _ _ (Permutation_map f' (cells_l l n))), map_map. apply Rsum_map_ext. exact H. Qed.
Lemma size_l : forall l n, size (idx_l l n) = size n.
Proof. intros [] []; unfold size; cbn; ring. Qed.
Lemma phase_l : forall l n k x, phase (idx_l l n) (idx_l l k) (idx_l l x) = phase n k x.
Proof. intros [] [] [] []; unfold phase; cbn; ring. Qed.
Lemma c2r_l : forall l n c c', field_l l n c c' -> field_l l n (c2r n c) (c2r (idx_l l n) c').
Proof. intros l n c c' H x _. unfold c2r. apply (sum_l l n (fun k => re (cmul (c k) (expi (phase n k x)))) (fun k => re (cmul (c' k) (expi (phase (idx_l l n) k (idx_l l x)))))). intros k K. rewrite phase_l, H by auto. auto. Qed.
Lemma vdot_l : forall l a b, vdot (vec_l l a) (vec_l l b) = vdot a b.
Proof. intros [] [] []; unfold vdot; cbn; ring. Qed.
Lemma wave_l : forall l freq box n k, wave freq (vec_l l box) (idx_l l n) (idx_l l k) = vec_l l (wave freq box n k).
Proof. intros [] freq [] [] []; reflexivity. Qed.
Lemma point_l : forall l neg box off n x, point neg (vec_l l box) (vec_l l off) (idx_l l n) (idx_l l x) = vec_l l (point neg box off n x).
Proof. intros [] neg [] [] [] []; reflexivity. Qed.
Lemma corner_l : forall l box center, corner (vec_l l box) (vec_l l center) = vec_l l (corner box center).
Proof. intros [] [] []; reflexivity. Qed.
Lemma distance_l : forall l p, distance (vec_l l p) = distance p.
Proof. intros [] []; unfold distance; cbn; f_equal; ring. Qed.
Definition old (l : labels) (i : nat) : nat := pick3 (fun a b c => match i with O => a | 1%nat => b | _ => c end) l 0%nat 1%nat 2%nat.
Lemma component_l : forall l v i, component (vec_l l v) i = component v (old l i).
Proof. intros [] [] [|[|i]]; reflexivity. Qed.
Lemma index_l : forall l v i, index (idx_l l v) i = index v (old l i).
Proof. intros [] [] [|[|i]]; reflexivity. Qed.
Lemma tabulate_l : forall {A} l n (f f' : idx -> result A) d, field_l l n f f' -> result_l l n (tabulate n f d) (tabulate (idx_l l n) f' d).
Proof.
  intros A l n f f' d H. unfold tabulate. assert (E : forallb (fun x => is_ok (f' x)) (cells (idx_l l n)) = forallb (fun x => is_ok (f x)) (cells n)).
  { apply eq_true_iff_eq. rewrite !forallb_forall. split; intros K x X0.
    - rewrite <- (H x X0). apply K. apply cell_l; auto.
    - rewrite <- (proj1 (idx_back l x)) in *. assert (X1 : In (idx_l (back_l l) x) (cells n)) by (apply in_cells in X0; apply in_cells; destruct l, n, x; cbn in *; lia). rewrite (H _ X1). apply K; auto. }
  rewrite E. destruct (forallb (fun x => is_ok (f x)) (cells n)); cbn [result_l]; auto. intros x X0. rewrite (H x X0). auto.
Qed.
Lemma mean_l : forall l n f f', field_l l n f f' -> mean (idx_l l n) f' = mean n f.
Proof. intros l n f f' H. unfold mean. rewrite (sum_l l n f f' H), size_l. auto. Qed.

(** Catalogs. *)
Lemma lookup_as : forall f vs n d, lookup n (map (fun x => (fst x, if mem (fst x) vs then vectors_as f (snd x) else snd x)) d) = option_map (fun x => if mem n vs then vectors_as f x else x) (lookup n d).
Proof. intros f vs n. induction d as [|[m x] d IH]; cbn; auto. destruct (String.eqb n m) eqn:E; auto. apply String.eqb_eq in E. subst. auto. Qed.
Lemma get_as : forall f vs n d, mem n vs = true -> get_vec n (map (fun x => (fst x, if mem (fst x) vs then vectors_as f (snd x) else snd x)) d) = result_map (map f) (get_vec n d).
Proof. intros f vs n d H. unfold get_vec. rewrite lookup_as, H. destruct (lookup n d) as [[|]|]; reflexivity. Qed.
Lemma select_as : forall {A B} (f : A -> B) m x, select m (map f x) = result_map (map f) (select m x).
Proof. intros A B f. induction m as [|b m IH]; intros [|a x]; auto. cbn [map select]. rewrite IH. destruct (select m x); cbn; auto. destruct b; auto. Qed.
Lemma select_rows_as : forall f m c, select_rows m (pcat_as f c) = result_map (pcat_as f) (select_rows m c).
Proof.
  intros f m [d p v vs is]. unfold select_rows, pcat_as. cbn [pc_data pc_position pc_velocity pc_vectors pc_invariants].
  assert (X : map_cols (fun _ x => select_col m x) (map (fun x => (fst x, if mem (fst x) vs then vectors_as f (snd x) else snd x)) d) = result_map (map (fun x => (fst x, if mem (fst x) vs then vectors_as f (snd x) else snd x))) (map_cols (fun _ x => select_col m x) d)).
  { clear p v is. induction d as [|[n x] d IH]; auto. cbn [map map_cols fst snd]. rewrite IH. 
    assert (Y : select_col m (if mem n vs then vectors_as f x else x) = result_map (fun x => if mem n vs then vectors_as f x else x) (select_col m x)) by (destruct (mem n vs); [|destruct (select_col m x); reflexivity]; destruct x as [x|x]; cbn [vectors_as select_col]; [rewrite select_as|]; destruct (select m x); reflexivity).
    rewrite Y. destruct (select_col m x); cbn [result_map bind]; auto. destruct (map_cols (fun _ x => select_col m x) d); reflexivity. }
  rewrite X. destruct (map_cols (fun _ x => select_col m x) d); reflexivity.
Qed.
Lemma tcat_as : forall f s s' c, (forall ti p, transform s' ti (f p) = f (transform s ti p)) -> tcat s' (pcat_as f c) = pcat_as f (tcat s c).
Proof.
  intros f s s' [d p v vs is] H. unfold tcat, pcat_as. cbn [pc_data pc_position pc_velocity pc_vectors pc_invariants]. assert (X : forall a b, a = b -> PCat a p v vs is = PCat b p v vs is) by (intros; subst; auto). apply X. rewrite !map_map.
  apply map_ext. intros [n x]. unfold tcol. cbn [fst snd pc_vectors pc_invariants]. destruct (mem n vs); auto. destruct x as [x|x]; auto. cbn [vectors_as]. rewrite !map_map. do 2 f_equal. apply map_ext. intros q. apply H.
Qed.
Lemma vectors_as_ok : forall f c, vectors_ok c -> vectors_ok (pcat_as f c).
Proof. intros f c W n x I0 J. cbn [pcat_as pc_data pc_vectors] in *. apply in_map_iff in I0 as ([m y] & E & I0). cbn [fst snd] in E. injection E as -> <-. destruct (W n y I0 J) as [k ->]. destruct (mem n (pc_vectors c)); cbn; eauto. Qed.
Lemma quarters_l : forall l a k p, quarters (axis_l l a) (sense l * k) (vec_l l p) = vec_l l (quarters a k p).
Proof.
  intros l a k p. unfold quarters. pose proof (Z.mod_pos_bound k 4 ltac:(lia)). assert (N : ((-1 * k) mod 4 = (4 - k mod 4) mod 4)%Z). { rewrite (Z.div_mod k 4) at 1 by lia. replace (-1 * (4 * (k / 4) + k mod 4))%Z with ((4 - k mod 4) + (- (k / 4) - 1) * 4)%Z by ring. apply Z.mod_add. lia. }
  assert (k mod 4 = 0 \/ k mod 4 = 1 \/ k mod 4 = 2 \/ k mod 4 = 3)%Z as [E|[E|[E|E]]] by lia;
  destruct l; cbn [sense]; rewrite ?Z.mul_1_l, ?N, E; 
  repeat match goal with |- context [Z.to_nat ?x] => let y := eval compute in (Z.to_nat x) in change (Z.to_nat x) with y end; destruct a, p; cbn; f_equal; ring.
Qed.

(** Turns. *)
Lemma norm_dot : forall p, vx p ^ 2 + vy p ^ 2 + vz p ^ 2 = vdot p p.
Proof. intros []; unfold vdot; cbn; ring. Qed.
Lemma distance_dot : forall p, distance p = sqrt (vdot p p).
Proof. intros p. unfold distance. rewrite <- norm_dot. auto. Qed.
Lemma projection_is : forall v d, vector_projection1 v d = if Req_EM_T (sqrt (vdot d d)) 0 then Err ZeroDivision else Ok (vscale (vdot v d / sqrt (vdot d d) / sqrt (vdot d d)) d).
Proof. intros v d. unfold vector_projection1. rewrite norm_dot. destruct (Req_EM_T (sqrt (vdot d d)) 0) as [|N]; auto. destruct v as [a b c], d as [x y z]. set (t := sqrt _) in *. cbn [vx vy vz]. unfold vscale. cbn [vx vy vz]. f_equal. unfold vdot. cbn [vx vy vz]. f_equal; field; auto. Qed.
Lemma los_is : forall p, local_los p = if Req_EM_T (sqrt (vdot p p)) 0 then Err ZeroDivision else Ok (vscale (/ sqrt (vdot p p)) p).
Proof. intros p. unfold local_los. rewrite distance_dot. destruct (Req_EM_T (sqrt (vdot p p)) 0); auto. destruct p as [a b c]; unfold vscale, Rdiv; cbn [vx vy vz]. do 2 f_equal; ring. Qed.
Section Turn.
  Variable q : mat.
  Hypothesis Q : orthogonal q.
  Lemma turn_projection : forall v d, vector_projection1 (mapply q v) (mapply q d) = result_map (mapply q) (vector_projection1 v d).
  Proof. intros v d. rewrite !projection_is, !Q. destruct (Req_EM_T _ 0); cbn [result_map]; auto. rewrite mapply_scale. auto. Qed.
  Lemma turn_distance : forall p, distance (mapply q p) = distance p.
  Proof. intros p. rewrite !distance_dot, Q. auto. Qed.
  Lemma turn_los : forall p, local_los (mapply q p) = result_map (mapply q) (local_los p).
  Proof. intros p. rewrite !los_is, !Q. destruct (Req_EM_T _ 0); cbn [result_map]; auto. rewrite mapply_scale. auto. Qed.
  Lemma turn_map2 : forall f, (forall a b, f (mapply q a) (mapply q b) = result_map (mapply q) (f a b)) ->
    forall la lb, map2_result f (map (mapply q) la) (map (mapply q) lb) = result_map (map (mapply q)) (map2_result f la lb).
  Proof. intros f F. induction la as [|a la IH]; intros [|b lb]; auto. cbn [map map2_result]. rewrite F, IH. destruct (f a b); cbn; auto. destruct (map2_result f la lb); auto. Qed.
  Lemma turn_repeat : forall v n, repeat (mapply q v) n = map (mapply q) (repeat v n).
  Proof. intros v. induction n; cbn; congruence. Qed.
  Lemma turn_projections : forall vs ds, vector_projection (map (mapply q) vs) (map (mapply q) ds) = result_map (map (mapply q)) (vector_projection vs ds).
  Proof.
    intros vs [|d [|d2 ds]]; unfold vector_projection; cbn [map].
    - destruct vs as [|v [|w vs]]; reflexivity.
    - rewrite map_length, turn_repeat. apply turn_map2, turn_projection.
    - destruct vs as [|v [|w vs]]; cbn [map]; try reflexivity.
      + cbn [length]. rewrite map_length, turn_repeat. apply (turn_map2 _ turn_projection (repeat v _) (d :: d2 :: ds)).
      + apply (turn_map2 _ turn_projection (v :: w :: vs) (d :: d2 :: ds)).
  Qed.
  Lemma turn_map : forall l, map_result local_los (map (mapply q) l) = result_map (map (mapply q)) (map_result local_los l).
  Proof. induction l as [|a l IH]; auto. cbn [map map_result]. rewrite turn_los, IH. destruct (local_los a); cbn; auto. destruct (map_result local_los l); auto. Qed.
  Lemma turn_same : forall v u, same_direction v u -> same_direction (mapply q v) (mapply q u).
  Proof. intros v u H. unfold same_direction in *. destruct H as (t & T & <-). exists t. split; auto. rewrite mapply_scale. auto. Qed.
End Turn.
Lemma position_as : forall f c, declared c -> position (pcat_as f c) = result_map (map f) (position c).
Proof. intros f c [D _]. apply get_as; auto. Qed.
Lemma velocity_as : forall f c, declared c -> velocity (pcat_as f c) = result_map (map f) (velocity c).
Proof. intros f c [_ D]. apply get_as; auto. Qed.
Lemma turn_rsd : forall q c f los los', orthogonal q -> declared c -> 
  match los, los' with Some a, Some a' => exists u, los_means a u /\ los_means a' (mapply q u) | None, None => True | _, _ => False end ->
  rsd_position (pcat_as (mapply q) c) (FNum f) los' = result_map (map (mapply q)) (rsd_position c (FNum f) los).
Proof.
  intros q c f los los' Q D L. unfold rsd_position. rewrite position_as, velocity_as by auto. destruct (position c) as [pos|]; cbn [bind result_map]; auto.
  assert (E : match los' with None => map_result local_los (map (mapply q) pos) | Some a => do v <- get_los a; Ok [v] end
            = result_map (map (mapply q)) (match los with None => map_result local_los pos | Some a => do v <- get_los a; Ok [v] end)).
  { destruct los as [a|], los' as [a'|]; try contradiction; [|apply turn_map; auto]. destruct L as (u & A & A'). rewrite (proj1 (los_means_ok _ _ A)), (proj1 (los_means_ok _ _ A')). auto. }
  rewrite E. destruct (match los with None => _ | Some a => _ end) as [ls|]; cbn [bind result_map]; auto. destruct (velocity c) as [vel|]; cbn [bind result_map]; auto.
  rewrite turn_projections by auto. destruct (vector_projection vel ls) as [r|]; cbn [bind result_map]; auto.
  replace (map (vscale f) (map (mapply q) r)) with (map (mapply q) (map (vscale f) r)) by (rewrite !map_map; apply map_ext; intros; apply mapply_scale).
  apply turn_map2. intros a b. cbn. rewrite mapply_add. auto.
Qed.
Lemma full_turn_turn : forall d, full_turn d = turn d.
Proof. reflexivity. Qed.
Lemma pole_angle : forall angle p, vx p <> 0 \/ vy p <> 0 -> wrap_angle false (arctan2 (vy (about_pole angle p)) (vx (about_pole angle p))) = wrap_angle false (arctan2 (vy p) (vx p) + angle).
Proof.
  intros a [x y z] H. cbn [about_pole vx vy vz] in *. set (x' := cos a * x - sin a * y). set (y' := sin a * x + cos a * y).
  assert (N : x' * x' + y' * y' = x * x + y * y) by (unfold x', y'; pose proof (sin2_cos2 a) as S; unfold Rsqr in S; replace ((cos a * x - sin a * y) * (cos a * x - sin a * y) + (sin a * x + cos a * y) * (sin a * x + cos a * y)) with ((sin a * sin a + cos a * cos a) * (x * x + y * y)) by ring; rewrite S; ring).
  assert (P : 0 < x * x + y * y) by (destruct H; nra). assert (H' : x' <> 0 \/ y' <> 0) by (destruct (Req_dec x' 0); auto; right; intro E; rewrite E in N; nra).
  destruct (arctan2_spec _ _ H) as [C S], (arctan2_spec _ _ H') as [C' S']. rewrite N in C', S'. pose proof (sqrt_lt_R0 _ P) as R0. set (rho := sqrt _) in *.
  set (t := arctan2 y x) in *. set (t' := arctan2 y' x') in *.
  assert (A : cos t' = cos (t + a)) by (rewrite cos_plus; apply (Rmult_eq_reg_l rho); [|lra]; rewrite C'; unfold x'; rewrite <- C at 1; rewrite <- S; ring).
  assert (B : sin t' = sin (t + a)) by (rewrite sin_plus; apply (Rmult_eq_reg_l rho); [|lra]; rewrite S'; unfold y'; rewrite <- C at 1; rewrite <- S; ring).
  assert (T : forall u, cos (wrap_angle false u) = cos u /\ sin (wrap_angle false u) = sin u).
  { intros u. destruct (wrap_congr false u) as [k ->]. unfold turn. replace (u + IZR k * (2 * PI)) with (u + 2 * IZR k * PI) by ring. split; [|]; clear; destruct k as [|k|k].
    - f_equal; ring. 
    - replace (IZR (Z.pos k)) with (INR (Pos.to_nat k)) by (rewrite INR_IZR_INZ, positive_nat_Z; auto). apply cos_period.
    - rewrite <- (cos_period _ (Pos.to_nat k)). f_equal. rewrite INR_IZR_INZ, positive_nat_Z. change (Z.neg k) with (- Z.pos k)%Z. rewrite opp_IZR. ring.
    - f_equal; ring. 
    - replace (IZR (Z.pos k)) with (INR (Pos.to_nat k)) by (rewrite INR_IZR_INZ, positive_nat_Z; auto). apply sin_period.
    - rewrite <- (sin_period _ (Pos.to_nat k)). f_equal. rewrite INR_IZR_INZ, positive_nat_Z. change (Z.neg k) with (- Z.pos k)%Z. rewrite opp_IZR. ring. }
  apply angle_unique; [apply (wrap_range false)|apply (wrap_range false)| |]; [rewrite !(fun u => proj1 (T u))|rewrite !(fun u => proj2 (T u))]; auto.
Qed.
Lemma pole_sky : forall degree angle p, vx p <> 0 \/ vy p <> 0 -> exists d ra dec ra',
  cartesian_to_sky degree p = Ok (d, ra, dec) /\ cartesian_to_sky degree (about_pole (angle * (2 * PI / full_turn degree)) p) = Ok (d, ra', dec) /\ 0 <= ra' < full_turn degree /\ same_angle degree ra' (ra + angle).
Proof.
  intros g a p H. set (b := a * (2 * PI / full_turn g)). assert (D : distance (about_pole b p) = distance p).
  { rewrite !distance_dot. f_equal. destruct p as [x y z]. unfold vdot, about_pole. cbn [vx vy vz]. pose proof (sin2_cos2 b) as S; unfold Rsqr in S. replace (x * x + y * y) with ((sin b * sin b + cos b * cos b) * (x * x + y * y)) by (rewrite S; ring). ring. }
  assert (Z0 : distance p <> 0). { rewrite distance_dot. intro E. apply sqrt_eq_0 in E; [|apply vdot_self_nonneg]. apply vdot_self_zero in E. rewrite E in H. cbn in H. lra. }
  unfold cartesian_to_sky. rewrite D, pole_angle by auto. destruct (Req_EM_T (distance p) 0); [contradiction|]. 
  pose proof (conversion_pos g) as C. pose proof (turn_conversion g) as T. assert (TP : 0 < turn g) by apply turn_pos.
  do 4 eexists. split; [reflexivity|]. split; [reflexivity|]. rewrite full_turn_turn. set (t := arctan2 (vy p) (vx p)). split.
  - pose proof (wrap_range false (t + b)) as W. unfold turn in W at 1. rewrite <- T in W. split; [apply Rmult_le_pos; [lra|left; apply Rinv_0_lt_compat; auto]|]. apply (Rmult_lt_reg_r (conversion g)); auto. unfold Rdiv. rewrite Rmult_assoc, Rinv_l by lra. lra.
  - destruct (wrap_congr false (t + b)) as [k ->], (wrap_congr false t) as [m ->]. exists (k - m)%Z. unfold b. change (full_turn g) with (turn g). change (turn false) with (2 * PI). rewrite <- T, minus_IZR. field. lra.
Qed.
(** Blinding of distances. *)
Lemma turn_ap_one : forall q d2z blind p, orthogonal q -> Blind_Model.ap_one false d2z blind (mapply q p) = result_map (mapply q) (Blind_Model.ap_one false d2z blind p).
Proof.
  intros q d2z blind p Q. unfold Blind_Model.ap_one, cartesian_to_sky. rewrite turn_distance by auto. destruct (Req_EM_T (distance p) 0) as [|N]; cbn [bind result_map]; auto. unfold Blind_Model.sky_dist. cbn [fst snd]. destruct (d2z (distance p)); cbn [bind result_map]; auto.
  assert (X0 : forall a s, V (vx a * s / distance p) (vy a * s / distance p) (vz a * s / distance p) = vscale (s / distance p) a) by (intros [] ?; unfold vscale; cbn; f_equal; field; auto). rewrite !X0, mapply_scale. auto.
Qed.
Lemma ap_rows : forall q d2z blind l, orthogonal q -> map_result (Blind_Model.ap_one false d2z blind) (map (mapply q) l) = result_map (map (mapply q)) (map_result (Blind_Model.ap_one false d2z blind) l).
Proof. intros q d2z blind l Q. induction l as [|a l IH]; auto. cbn [map map_result]. rewrite turn_ap_one, IH by auto. destruct (Blind_Model.ap_one false d2z blind a); cbn; auto. destruct (map_result _ l); auto. Qed.

(** Relabelled boxes. *)
Lemma vadd_l : forall l a b, vadd (vec_l l a) (vec_l l b) = vec_l l (vadd a b).
Proof. intros [] [] []; reflexivity. Qed.
Lemma vsub_l : forall l a b, vsub (vec_l l a) (vec_l l b) = vec_l l (vsub a b).
Proof. intros [] [] []; reflexivity. Qed.
Lemma vopp_l : forall l a, vopp (vec_l l a) = vec_l l (vopp a).
Proof. intros [] []; reflexivity. Qed.
Lemma vabs_l : forall l a, vabs (vec_l l a) = vec_l l (vabs a).
Proof. intros [] []; reflexivity. Qed.
Lemma shift_l : forall l v ti p, transform (Iso mid (vec_l l v)) ti (vec_l l p) = vec_l l (transform (Iso mid v) ti p).
Proof. intros l v [] p; [rewrite !transform_shift_inv|rewrite !transform_shift, vadd_l]; auto. Qed.
Lemma translate_l : forall l c sh ax sh' ax' v, vectors_ok (bc_cat c) -> shift_means sh ax v -> shift_means sh' ax' (vec_l l v) -> translate (boxcat_l l c) sh' ax' = result_map (boxcat_l l) (translate c sh ax).
Proof. intros l c sh ax sh' ax' v W M M'. rewrite (translate_is _ _ _ _ M) by auto. rewrite (translate_is _ _ _ _ M') by (apply vectors_as_ok; auto). cbn [result_map boxcat_l bc_cat boxsize boxcenter]. rewrite (tcat_as _ (Iso mid v)) by (apply shift_l). unfold boxcat_l. cbn [bc_cat boxsize boxcenter]. rewrite vadd_l. auto. Qed.
Lemma rotate_l : forall l c k a ax ax', vectors_ok (bc_cat c) -> axis_means a ax -> axis_means (axis_l l a) ax' -> rotate (boxcat_l l c) (sense l * k) ax' = result_map (boxcat_l l) (rotate c k ax).
Proof.
  intros l c k a ax ax' W M M'. destruct (rotate_is c k _ _ M W) as (s & T & ->). destruct (rotate_is (boxcat_l l c) (sense l * k) _ _ M' (vectors_as_ok _ _ W)) as (s' & T' & ->).
  cbn [result_map boxcat_l bc_cat boxsize boxcenter]. rewrite (tcat_as _ s) by (intros; rewrite T, T'; apply quarters_l). unfold boxcat_l. cbn [bc_cat boxsize boxcenter]. rewrite !quarters_l, vabs_l. auto.
Qed.
Lemma subbox_l : forall l c r0 r1 r2 u, declared (bc_cat c) ->
  subbox (boxcat_l l c) (RList (pick3 (fun a b c => [a; b; c]) l r0 r1 r2)) u = result_map (boxcat_l l) (subbox c (RList [r0; r1; r2]) u).
Proof.
  intros l c r0 r1 r2 u D. unfold subbox. assert (X0 : forall {A} l0 (a b c : R * R) (f : R * R -> R * R -> R * R -> result A) (g : result A), 
    (do x <- match RList (pick3 (fun a b c => [a; b; c]) l0 a b c) with ROne lo hi => Ok [(lo, hi); (lo, hi); (lo, hi)] | RList [] => Err IndexError | RList l => Ok l end; match x with [a; b; c] => f a b c | _ => g end) = pick3 f l0 a b c) by (intros A []; reflexivity).
  rewrite X0. clear X0. cbn [bind]. destruct (position (bc_cat c)) as [pos|e] eqn:P; cbn [bind result_map].
  2:{ destruct l; unfold pick3; cbn [boxcat_l bc_cat]; rewrite position_as, P by auto; reflexivity. }
  destruct l; unfold pick3; cbn [boxcat_l bc_cat boxsize boxcenter]; rewrite position_as, P by auto; cbn [bind result_map]; rewrite map_map;
  (match goal with |- context [result_map _ (bind (select_rows (map ?g pos) _) _)] => match goal with |- bind (select_rows (map ?f pos) _) _ = _ => replace (map f pos) with (map g pos) by (apply map_ext; intros p; destruct c as [ct [sx sy sz] [cx cy cz]], p as [px py pz]; unfold boxlow, boxcat_l, vsub, vscale; cbn [boxsize boxcenter vec_l pick3 vx vy vz]; 
    repeat match goal with |- context [Rleb ?a ?b && Rltb ?d ?e] => let t := fresh "t" in set (t := Rleb a b && Rltb d e) end; 
    repeat match goal with t := Rleb _ _ && Rltb _ _ |- _ => clearbody t end; repeat match goal with t : bool |- _ => destruct t; cbn [andb]; auto end) end end);
  rewrite select_rows_as; (destruct (select_rows _ (bc_cat c)) as [k|]; cbn [bind result_map]; auto); destruct c as [ct [sx sy sz] [cx cy cz]]; unfold boxcat_l, boxlow, boxhigh, vsub, vadd, vscale; cbn [boxsize boxcenter bc_cat vec_l pick3 vx vy vz]; reflexivity.
Qed.
Lemma select_declared : forall m c c', select_rows m c = Ok c' -> declared c -> declared c'.
Proof. intros m c c' H D. unfold select_rows in H. destruct (map_cols _ _); [|discriminate]. injection H as <-. exact D. Qed.
Lemma select_vectors : forall m c c', select_rows m c = Ok c' -> vectors_ok c -> vectors_ok c'.
Proof.
  intros m [d p v vs is] c' H W. unfold select_rows in H. cbn [pc_data pc_vectors] in *. destruct (map_cols _ _) as [d'|] eqn:E; [|discriminate]. injection H as <-. intros n x I0 J. cbn [pc_data pc_vectors] in *.
  assert (W' : forall n x, In (n, x) d -> In n vs -> exists k, x = ColV k) by exact W. clear W. revert d' E I0. induction d as [|[a y] d IH]; intros d' E I0; cbn [map_cols] in E.
  - injection E as <-. destruct I0.
  - destruct (select_col m y) as [y'|] eqn:Y0; [|discriminate]. cbn [bind] in E. destruct (map_cols _ d) as [d2|]; [|discriminate]. cbn [bind] in E. injection E as <-. destruct I0 as [I0|I0].
    + injection I0 as -> ->. destruct (W' n y) as [k ->]; [left; auto|auto|]. cbn [select_col] in Y0. destruct (select m k) as [k'|]; [|discriminate]. cbn [bind] in Y0. injection Y0 as <-. eauto.
    + eapply IH; eauto. intros. eapply W'; [right; eauto|auto].
Qed.
Lemma step_l : forall l c o o', vectors_ok (bc_cat c) -> declared (bc_cat c) -> call_l l o o' -> box_step (boxcat_l l c) o' = result_map (boxcat_l l) (box_step c o).
Proof.
  intros l c o o' W D H. destruct H; cbn [box_step].
  - eapply translate_l; eauto.
  - unfold recenter. change (boxcenter (boxcat_l l c)) with (vec_l l (boxcenter c)). eapply (translate_l l c _ _ _ _ (vopp (boxcenter c))); auto; [apply sm_vec|]. rewrite vopp_l. apply sm_vec.
  - eapply rotate_l; eauto.
  - change (subbox ?a (ROne lo hi) u) with (subbox a (RList [(lo, hi); (lo, hi); (lo, hi)]) u). rewrite <- subbox_l by auto. destruct l; reflexivity.
  - apply subbox_l; auto.
Qed.
Lemma step_keeps : forall l c o o' c', vectors_ok (bc_cat c) -> declared (bc_cat c) -> call_l l o o' -> box_step c o = Ok c' -> vectors_ok (bc_cat c') /\ declared (bc_cat c').
Proof.
  assert (T : forall s c, vectors_ok c -> declared c -> vectors_ok (tcat s c) /\ declared (tcat s c)) by (intros s c W D; split; [apply tcat_ok; auto|exact D]).
  intros l c o o' c' W D H E. destruct H; cbn [box_step] in E.
  - rewrite (translate_is _ _ _ _ H) in E by auto. injection E as <-. apply T; auto.
  - unfold recenter in E. rewrite (translate_is _ _ _ _ (sm_vec _)) in E by auto. injection E as <-. apply T; auto.
  - destruct (rotate_is c k _ _ H W) as (s & _ & R0). rewrite R0 in E. injection E as <-. apply T; auto.
  - unfold subbox in E. cbn [bind] in E. destruct (position _); [|discriminate]. cbn [bind] in E. destruct (select_rows _ _) eqn:S0; [|discriminate]. cbn [bind] in E. injection E as <-. split; [eapply select_vectors|eapply select_declared]; eauto.
  - unfold subbox in E. cbn [bind] in E. destruct (position _); [|discriminate]. cbn [bind] in E. destruct (select_rows _ _) eqn:S0; [|discriminate]. cbn [bind] in E. injection E as <-. split; [eapply select_vectors|eapply select_declared]; eauto.
Qed.
Lemma run_l : forall l os os', Forall2 (call_l l) os os' -> forall c, vectors_ok (bc_cat c) -> declared (bc_cat c) -> box_run (boxcat_l l c) os' = result_map (boxcat_l l) (box_run c os).
Proof.
  intros l os os' F. induction F as [|o o' os os' H F IH]; intros c W D; auto. cbn [box_run]. rewrite (step_l l c o o' W D H). destruct (box_step c o) as [c1|] eqn:E; cbn [bind result_map]; auto.
  destruct (step_keeps _ _ _ _ _ W D H E). apply IH; auto.
Qed.

(** Fields. *)
Lemma volume_l : forall l b, vx (vec_l l b) * vy (vec_l l b) * vz (vec_l l b) = vx b * vy b * vz b.
Proof. intros [] []; cbn; ring. Qed.
Lemma complex_l : forall l freq box n power los noise noise' inverted, field_l l n noise noise' ->
  result_l l n (set_complex_delta_field freq box n power los noise inverted) (set_complex_delta_field freq (vec_l l box) (idx_l l n) power (option_map (vec_l l) los) noise' inverted).
Proof.
  intros l freq box n power los noise noise' inv H. unfold set_complex_delta_field. rewrite volume_l. destruct (fdiv 1 _) as [norm|]; cbn [bind result_l]; auto.
  apply tabulate_l. intros k K. cbv zeta. rewrite wave_l, H by auto. replace (mode_power power (option_map (vec_l l) los) (vec_l l (wave freq box n k))) with (mode_power power los (wave freq box n k)); auto.
  unfold mode_power. rewrite vdot_l. destruct los; cbn [option_map]; rewrite ?vdot_l; auto.
Qed.
Lemma real_l : forall l neg box center n dk dk' bias lognormal, field_l l n dk dk' ->
  result_l l n (set_real_delta_field neg box center n dk bias lognormal) (set_real_delta_field neg (vec_l l box) (vec_l l center) (idx_l l n) dk' bias lognormal).
Proof.
  intros l neg box center n dk dk' bias ln H. unfold set_real_delta_field. cbv zeta. set (d := match bias with None => c2r n dk | _ => _ end). set (d' := match bias with None => c2r (idx_l l n) dk' | _ => _ end).
  assert (E : field_l l n d d'). { intros x X0. pose proof (c2r_l _ _ _ _ H x X0) as C. unfold d, d'. destruct bias as [[b|b]|]; rewrite ?C; auto. rewrite corner_l, point_l, distance_l. auto. }
  destruct ln; cbn [result_l]; auto. rewrite (mean_l l n (fun x => exp (d x)) (fun x => exp (d' x))) by (intros x X0; rewrite E; auto). destruct (mean n _); cbn [bind result_l]; auto. intros x X0. rewrite E; auto.
Qed.
Lemma safe_l : forall l w, safe_k2 (vec_l l w) = safe_k2 w.
Proof. intros. unfold safe_k2. rewrite vdot_l. auto. Qed.
Lemma half_l : forall l n k i, at_half (idx_l l n) (idx_l l k) i = at_half n k (old l i).
Proof. intros. unfold at_half. rewrite !index_l. auto. Qed.
Lemma eulerian_l : forall l freq neg box center n dk dk' delta delta' f los los', field_l l n dk dk' -> field_l l n delta delta' -> los_l l los los' ->
  result_l l n (eulerian_set_rsd freq neg box center n dk delta f los) (eulerian_set_rsd freq neg (vec_l l box) (vec_l l center) (idx_l l n) dk' delta' f los').
Proof.
  intros l freq neg box center n dk dk' delta delta' f los los' H HD L. unfold eulerian_set_rsd. cbv zeta.
  match goal with |- result_l l n (bind ?a _) (bind ?b _) => assert (E : result_l l n a b) end.
  { destruct los as [a|], los' as [a'|]; try contradiction.
    - destruct L as (u & A & A'). rewrite (proj1 (los_means_ok _ _ A)), (proj1 (los_means_ok _ _ A')). cbn [bind result_l].
      assert (C : field_l l n (c2r n (fun k => cscale (fixed_kernel (wave freq box n k) u) (dk k))) (c2r (idx_l l n) (fun k => cscale (fixed_kernel (wave freq (vec_l l box) (idx_l l n) k) (vec_l l u)) (dk' k)))).
      { apply c2r_l. intros k K. rewrite H, wave_l by auto. unfold fixed_kernel. rewrite vdot_l, safe_l. auto. }
      intros x X0. destruct f; rewrite C; auto.
    - apply tabulate_l. intros x X0. rewrite corner_l, point_l. set (r := point neg box (corner box center) n x). rewrite !norm_dot, vdot_l. destruct (Req_EM_T (vdot r r) 0); auto. f_equal.
      set (T := fun i j => c2r n (fun k => cscale (local_kernel n k (wave freq box n k) i j) (dk k)) x).
      assert (C : forall i j, c2r (idx_l l n) (fun k => cscale (local_kernel (idx_l l n) k (wave freq (vec_l l box) (idx_l l n) k) i j) (dk' k)) (idx_l l x) = T (old l i) (old l j)).
      { intros i j. apply (c2r_l l n); auto. intros k K. rewrite H, wave_l by auto. unfold local_kernel, local_mask. rewrite !component_l, !half_l, safe_l. auto. }
      assert (S0 : forall i j, T i j = T j i).
      { intros i j. unfold T. unfold c2r. apply Rsum_map_ext. intros k _. f_equal. f_equal. f_equal. unfold local_kernel, local_mask. rewrite (andb_comm (negb (at_half n k j))), (andb_comm (at_half n k j)). unfold Rdiv. ring. }
      unfold pairs. cbn [map Rsum fold_right Nat.eqb]. rewrite !C, !component_l. repeat match goal with |- context [c2r n (fun k => cscale (local_kernel n k (wave freq box n k) ?i ?j) (dk k)) x] => change (c2r n (fun k => cscale (local_kernel n k (wave freq box n k) i j) (dk k)) x) with (T i j) end.
      clearbody T.
      destruct l; cbn [old pick3]; cbn [component]; rewrite ?(S0 1%nat 0%nat), ?(S0 2%nat 0%nat), ?(S0 2%nat 1%nat); unfold Rdiv; destruct f; ring. }
  destruct (match los with Some _ => _ | None => _ end) as [t|], (match los' with Some _ => _ | None => _ end) as [t'|]; cbn [result_l bind] in *; try contradiction; auto.
  intros x X0. rewrite (HD x X0). destruct f; rewrite (E x X0); auto. rewrite corner_l, point_l, distance_l. auto.
Qed.
Lemma displacement_l : forall l freq box n dk dk' i, field_l l n dk dk' -> field_l l n (displacement freq box n dk (old l i)) (displacement freq (vec_l l box) (idx_l l n) dk' i).
Proof. intros l freq box n dk dk' i H. apply c2r_l. intros k K. unfold displacement_k. rewrite H, wave_l, component_l, safe_l, half_l by auto. auto. Qed.
