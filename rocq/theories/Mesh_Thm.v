(** Property C63: compensation of meshes. Vocabulary in Mesh_Spec.v. *)
Require Import Reals ZArith String List Bool Lra Lia Permutation.
From Verif Require Import Base Vec3 Box_Model Rsd_Model Density_Proof Mock_Model Mock_Spec Fourier_Proof Mock_Thm Mock_Thm2 Interlace_Thm Mesh_Model Mesh_Spec.
Import ListNotations.
Open Scope R_scope.

(** Fourier transforms on the mesh are inverse of each other. *)
Lemma phase_sym : forall n k x, phase n k x = phase n x k.
Proof. intros. unfold phase. rewrite (Rmult_comm (INR (ix k))), (Rmult_comm (INR (iy k))), (Rmult_comm (INR (iz k))). auto. Qed.
Definition as_freq (k : idx) : freqs := (Z.of_nat (ix k), Z.of_nat (iy k), Z.of_nat (iz k)).
Lemma theta_phase : forall n k x, theta (as_freq k) n x = phase n k x.
Proof. intros. rewrite phase_turns. auto. Qed.
Lemma gate_index : forall n k j, within n k -> within n j -> gate (as_freq k) n j = true <-> k = j.
Proof.
  intros n [a b c] [a' b' c'] (K1 & K2 & K3) (J1 & J2 & J3). cbn [ix iy iz] in *.
  assert (U : forall m i j, (i < m)%nat -> (j < m)%nat -> aliased (Z.of_nat i) m j = true <-> i = j).
  { intros m i j Hi Hj. unfold aliased. rewrite Z.eqb_eq. split; intros H.
    - apply Z.mod_divide in H; [|lia]. destruct H as [q Q]. assert (q = 0)%Z by nia. lia.
    - subst. rewrite Z.sub_diag. apply Zmod_0_l. }
  unfold gate, as_freq. cbn [ix iy iz]. rewrite !andb_true_iff, !U by auto. split; [intros [[-> ->] ->]; auto|intros E; injection E as -> -> ->; auto].
Qed.
Lemma orthogonal : forall n b k j, nonempty n -> within n k -> within n j ->
  cmul (creal (/ size n)) (csum (map (fun y => cmul (cmul b (expi (phase n k y))) (expi (- phase n j y))) (cells n))) = if gate (as_freq k) n j then b else C0.
Proof.
  intros n b k j N K J. rewrite <- (transform_wave n b (as_freq k) j N). f_equal. apply csum_ext. intros y _. rewrite theta_phase. auto.
Qed.
Lemma c2r_r2c : forall n f x, nonempty n -> within n x -> c2r n (r2c n f) x = f x.
Proof.
  intros n f x N X. rewrite c2r_csum.
  rewrite (csum_ext _ (fun k => csum (map (fun y => cmul (creal (/ size n)) (cmul (cmul (creal (f y)) (expi (phase n x k))) (expi (- phase n y k)))) (cells n)))).
  2:{ intros k _. rewrite r2c_csum, <- csum_mul, <- csum_mul_r. apply csum_ext. intros y _. rewrite (phase_sym n k y), (phase_sym n k x). ring. }
  rewrite csum_swap. rewrite (csum_ext _ (fun y => if gate (as_freq x) n y then creal (f y) else C0)).
  2:{ intros y Y. apply cells_In in Y. rewrite csum_mul. apply orthogonal; auto. }
  rewrite (csum_single _ _ x).
  - rewrite (proj2 (gate_index n x x X X) eq_refl). auto.
  - apply cells_nodup.
  - apply cells_In; auto.
  - intros y Y NE. apply cells_In in Y. destruct (gate (as_freq x) n y) eqn:G; auto. apply gate_index in G; auto. subst. contradiction.
Qed.
Lemma creal_c2r : forall n c x, hermitian n c -> creal (c2r n c x) = csum (map (fun k => cmul (c k) (expi (phase n k x))) (cells n)).
Proof.
  intros n c x H. pose proof (C38_real n c x H) as E. apply cplx_eq; cbn [creal re im].
  - rewrite c2r_csum. auto.
  - rewrite csum_im. auto.
Qed.
Lemma r2c_c2r : forall n c k, nonempty n -> hermitian n c -> within n k -> r2c n (c2r n c) k = c k.
Proof.
  intros n c k N H K. rewrite r2c_csum.
  rewrite (csum_ext _ (fun x => csum (map (fun j => cmul (cmul (c j) (expi (phase n j x))) (expi (- phase n k x))) (cells n)))).
  2:{ intros x _. rewrite creal_c2r, <- csum_mul_r by auto. auto. }
  rewrite csum_swap, <- csum_mul. rewrite (csum_ext _ (fun j => if gate (as_freq j) n k then c j else C0)).
  2:{ intros j J. apply cells_In in J. apply orthogonal; auto. }
  rewrite (csum_single _ _ k).
  - rewrite (proj2 (gate_index n k k K K) eq_refl). auto.
  - apply cells_nodup.
  - apply cells_In; auto.
  - intros j J NE. apply cells_In in J. destruct (gate (as_freq j) n k) eqn:G; auto. apply gate_index in G; auto. subst. contradiction.
Qed.
Lemma r2c_hermitian : forall n f, nonempty n -> hermitian n (r2c n f).
Proof.
  intros n f N k K. assert (E : forall x, expi (- phase n (opposite n k) x) = conj (expi (- phase n k x))).
  { intros x. rewrite expi_conj, phase_opp by auto. rewrite expi_conj. auto. }
  rewrite !r2c_csum. rewrite (csum_ext _ (fun x => conj (cmul (creal (f x)) (expi (- phase n k x))))).
  2:{ intros x _. rewrite E, conj_mul. f_equal. apply cplx_eq; cbn; ring. }
  assert (CS : forall l : list idx, csum (map (fun x => conj (cmul (creal (f x)) (expi (- phase n k x)))) l) = conj (csum (map (fun x => cmul (creal (f x)) (expi (- phase n k x))) l))).
  { induction l as [|a l IH]; [apply cplx_eq; cbn; ring|]. cbn [map]. rewrite !csum_cons, IH. apply cplx_eq; cbn [conj cadd re im]; ring. }
  rewrite CS. set (z := csum _). apply cplx_eq; cbn; ring.
Qed.
Lemma within_opposite : forall n k, nonempty n -> within n (opposite n k).
Proof. intros n k (N1 & N2 & N3). repeat split; cbn [opposite ix iy iz]; apply Nat.mod_upper_bound; lia. Qed.

(** The window. *)
Lemma sinc_even : forall x, sinc (- x) = sinc x.
Proof. intros x. unfold sinc. destruct (Req_EM_T (- x) 0), (Req_EM_T x 0); try lra. rewrite sin_neg. field. auto. Qed.
Lemma sinc_range : forall x, Rabs x <= PI / 2 -> 0 < sinc x <= 1.
Proof.
  assert (P : forall x, 0 < x -> x <= PI / 2 -> 0 < sinc x <= 1).
  { intros x X1 X2. pose proof PI_RGT_0. unfold sinc. destruct (Req_EM_T x 0); [lra|]. pose proof (sin_gt_0 x X1 ltac:(lra)). pose proof (sin_lt_x x X1). split; [apply Rdiv_lt_0_compat; lra|]. apply Rmult_le_reg_r with x; auto. unfold Rdiv. rewrite Rmult_assoc, Rinv_l by lra. lra. }
  intros x X. destruct (Rtotal_order x 0) as [L|[->|L]].
  - rewrite <- sinc_even. rewrite Rabs_left in X by auto. apply P; lra.
  - unfold sinc. destruct (Req_EM_T 0 0); lra.
  - rewrite Rabs_right in X by lra. apply P; lra.
Qed.
Lemma half_wave : forall freq b m i, proper_freq freq -> 0 < b -> (i < m)%nat -> 1 / 2 * (2 * PI / b * IZR (freq m i) * (b / INR m)) = PI * IZR (freq m i) / INR m /\ Rabs (1 / 2 * (2 * PI / b * IZR (freq m i) * (b / INR m))) <= PI / 2.
Proof.
  intros freq b m i PF B L. assert (M : 0 < INR m) by (apply lt_0_INR; lia). assert (E : 1 / 2 * (2 * PI / b * IZR (freq m i) * (b / INR m)) = PI * IZR (freq m i) / INR m) by (field; lra). split; auto. rewrite E.
  destruct (PF m i L) as [_ Q]. apply IZR_le in Q. rewrite mult_IZR, abs_IZR, <- INR_IZR_INZ in Q. unfold Rdiv. rewrite !Rabs_mult. pose proof PI_RGT_0. rewrite (Rabs_right PI), (Rabs_right (/ INR m)) by (try lra; left; apply Rinv_0_lt_compat; lra).
  apply Rmult_le_reg_r with (INR m); auto. rewrite Rmult_assoc, Rinv_l by lra. pose proof (Rmult_le_compat_l PI _ _ (Rlt_le _ _ H) Q). lra.
Qed.
Lemma sinc_mean : forall k c, 0 < c -> cell_mean k c (sinc (1 / 2 * (k * c))).
Proof.
  intros k c C. unfold cell_mean, integral. destruct (Req_EM_T k 0) as [->|NZ].
  - exists (fun t => t). split.
    + intros t. rewrite Rmult_0_l, cos_0. apply derivable_pt_lim_id.
    + unfold sinc. destruct (Req_EM_T (1 / 2 * (0 * c)) 0); [lra|]. lra.
  - exists (fun t => sin (k * t) * / k). split.
    + intros t. replace (cos (k * t)) with ((cos (k * t) * (k * 1)) * / k + sin (k * t) * 0) by (field; auto).
      apply (derivable_pt_lim_mult (fun t => sin (k * t)) (fun _ => / k)); [|apply derivable_pt_lim_const].
      apply (derivable_pt_lim_comp (fun t => k * t) sin); [|apply derivable_pt_lim_sin]. apply derivable_pt_lim_scal. apply derivable_pt_lim_id.
    + assert (1 / 2 * (k * c) <> 0) by (intro E; apply Rmult_integral in E; destruct E as [E|E]; [lra|apply Rmult_integral in E; destruct E; lra]).
      unfold sinc. destruct (Req_EM_T (1 / 2 * (k * c)) 0); [contradiction|]. replace (k * (- c / 2)) with (- (1 / 2 * (k * c))) by field. replace (k * (c / 2)) with (1 / 2 * (k * c)) by field. rewrite sin_neg. field. split; lra.
Qed.
(** There is only one such mean. *)
Lemma mean_unique : forall k c s s', 0 < c -> cell_mean k c s -> cell_mean k c s' -> s = s'.
Proof.
  intros k c s s' C (F & DF & EF) (G & DG & EG).
  assert (D : forall t, derivable_pt_lim (fun t => F t - G t) t 0).
  { intros t. replace 0 with (cos (k * t) - cos (k * t)) by ring. apply (derivable_pt_lim_minus F G); auto. }
  assert (PR : derivable (fun t => F t - G t)) by (intros t; exists 0; apply D).
  assert (CO : constant (fun t => F t - G t)). { apply (null_derivative_1 _ PR). intros t. apply derive_pt_eq_0. apply D. }
  unfold constant in CO. pose proof (CO (c / 2) (- c / 2)) as E. cbv beta in E. apply Rmult_eq_reg_l with c; lra.
Qed.
Lemma product_unit : forall a b c, 0 < a <= 1 -> 0 < b <= 1 -> 0 < c <= 1 -> 0 < a * b * c <= 1.
Proof.
  intros a b c A B C. assert (Q : 0 < a * b <= 1) by (split; [apply Rmult_lt_0_compat; lra|rewrite <- (Rmult_1_l 1); apply Rmult_le_compat; lra]).
  split; [apply Rmult_lt_0_compat; lra|rewrite <- (Rmult_1_l 1); apply Rmult_le_compat; lra].
Qed.
Lemma window_left : forall freq box n p k, proper_freq freq -> solid box -> within n k ->
  left_of_wave box n p (wave freq box n k) (window p (vmul (wave freq box n k) (cell_size box n))) /\ 0 < window p (vmul (wave freq box n k) (cell_size box n)) <= 1.
Proof.
  intros freq box n p k PF (B1 & B2 & B3) (K1 & K2 & K3). unfold window, vmul, wave, cell_size. cbn [vx vy vz].
  assert (C : forall b m i, 0 < b -> (i < m)%nat -> 0 < b / INR m) by (intros; apply Rdiv_lt_0_compat; auto; apply lt_0_INR; lia).
  destruct (half_wave freq (vx box) (ix n) (ix k) PF B1 K1) as [_ H1]. destruct (half_wave freq (vy box) (iy n) (iy k) PF B2 K2) as [_ H2]. destruct (half_wave freq (vz box) (iz n) (iz k) PF B3 K3) as [_ H3].
  apply sinc_range in H1, H2, H3. rewrite Rmult_1_l, <- !Rpow_mult_distr. split.
  - eexists _, _, _. repeat split; try (apply sinc_mean; eauto).
  - pose proof (product_unit _ _ _ H1 H2 H3) as Q.
    split; [apply pow_lt; lra|]. apply Rle_trans with (1 ^ p); [apply pow_incr; lra|rewrite pow1; lra].
Qed.
Lemma left_unique : forall freq box n p k w w', solid box -> within n k -> left_of_wave box n p (wave freq box n k) w -> left_of_wave box n p (wave freq box n k) w' -> w = w'.
Proof.
  intros freq box n p k w w' (B1 & B2 & B3) (K1 & K2 & K3) (s1 & s2 & s3 & A1 & A2 & A3 & ->) (t1 & t2 & t3 & T1 & T2 & T3 & ->).
  assert (C : forall b m i, 0 < b -> (i < m)%nat -> 0 < b / INR m) by (intros; apply Rdiv_lt_0_compat; auto; apply lt_0_INR; lia).
  rewrite (mean_unique _ _ _ _ (C _ _ _ B1 K1) A1 T1), (mean_unique _ _ _ _ (C _ _ _ B2 K2) A2 T2), (mean_unique _ _ _ _ (C _ _ _ B3 K3) A3 T3). auto.
Qed.
Lemma window_opposite : forall freq box n p k, proper_freq freq -> solid box -> nonempty n -> within n k ->
  window p (vmul (wave freq box n (opposite n k)) (cell_size box n)) = window p (vmul (wave freq box n k) (cell_size box n)).
Proof.
  intros freq box n p k PF (B1 & B2 & B3) N (K1 & K2 & K3). destruct (within_opposite n k N) as (O1 & O2 & O3).
  assert (S1 : forall b m i, 0 < b -> (i < m)%nat -> ((m - i) mod m < m)%nat -> sinc (1 / 2 * (2 * PI / b * IZR (freq m ((m - i) mod m)) * (b / INR m))) = sinc (1 / 2 * (2 * PI / b * IZR (freq m i) * (b / INR m)))).
  { intros b m i Hb Hi Ho. destruct (half_wave freq b m i PF Hb Hi) as [-> _]. destruct (half_wave freq b m _ PF Hb Ho) as [-> _]. pose proof (freq_opp freq m i PF Hi) as E.
    assert (D : freq m ((m - i) mod m) = freq m i \/ freq m ((m - i) mod m) = (- freq m i)%Z) by lia. destruct D as [-> | ->]; auto. rewrite opp_IZR, <- sinc_even. f_equal. field. apply Rgt_not_eq, lt_0_INR. lia. }
  unfold window, vmul, wave, cell_size. cbn [vx vy vz]. cbn [opposite ix iy iz] in *. rewrite !S1 by auto. auto.
Qed.
Lemma order_named : forall r p, order r = Some p <-> times_averaged r p.
Proof.
  intros r p. unfold order, times_averaged. cbn [In]. split.
  - repeat match goal with |- context [String.eqb r ?s] => destruct (String.eqb_spec r s); [intros E; injection E as <-; subst; tauto|] end. discriminate.
  - intros H. repeat (destruct H as [H|H]; [injection H as <- <-; reflexivity|]). destruct H.
Qed.
Lemma compensate_inv : forall freq box n r p f, proper_freq freq -> solid box -> nonempty n -> times_averaged r p ->
  exists modes, compensate_mesh freq box n r f = Ok (c2r n modes) /\ hermitian n modes /\
  forall k, within n k -> modes k = cscale (/ window p (vmul (wave freq box n k) (cell_size box n))) (r2c n f k).
Proof.
  intros freq box n r p f PF SB N T. apply order_named in T. unfold compensate_mesh. rewrite T.
  destruct (tabulate_ok n (fun k => let w := window p (vmul (wave freq box n k) (cell_size box n)) in if Req_EM_T w 0 then Err ZeroDivision else Ok (cscale (/ w) (r2c n f k))) (Cx 0 0)
    (fun k => cscale (/ window p (vmul (wave freq box n k) (cell_size box n))) (r2c n f k))) as (modes & E & M).
  { intros k K. cbv zeta. destruct (window_left freq box n p k PF SB K) as [_ W]. destruct (Req_EM_T _ 0); [lra|auto]. }
  exists modes. cbv zeta in E. rewrite E. cbn [bind]. split; auto. split; auto. intros k K. rewrite !M by (auto using within_opposite). rewrite window_opposite by auto. rewrite (r2c_hermitian n f N k K). apply cplx_eq; cbn; ring.
Qed.

(** C63. Compensation succeeds for every mesh; each Fourier mode of the result, times what the resampler leaves of it, is the one of the
    mesh: the mesh is the result, smoothed. *)
Theorem C63_modes : forall freq box n r p f, proper_freq freq -> solid box -> nonempty n -> times_averaged r p ->
  exists g, compensate_mesh freq box n r f = Ok g /\ smoothed freq box n p g f.
Proof.
  intros freq box n r p f PF SB N T. destruct (compensate_inv freq box n r p f PF SB N T) as (modes & E & HM & M). exists (c2r n modes). split; auto. intros k K. destruct (window_left freq box n p k PF SB K) as [L W].
  eexists. split; [exact L|]. rewrite r2c_c2r by auto. rewrite (M k K). set (w := window _ _) in *. apply cplx_eq; cbn [cscale re im]; field; lra.
Qed.
Print Assumptions C63_modes.
(** A smoothed field is recovered. *)
Theorem C63_recovered : forall freq box n r p f s, proper_freq freq -> solid box -> nonempty n -> times_averaged r p -> smoothed freq box n p f s ->
  exists g, compensate_mesh freq box n r s = Ok g /\ same_mesh n g f.
Proof.
  intros freq box n r p f s PF SB N T SM. destruct (compensate_inv freq box n r p s PF SB N T) as (modes & E & HM & M). exists (c2r n modes). split; auto. intros x X. rewrite <- (c2r_r2c n f x N X) at 1.
  unfold c2r. apply Rsum_map_ext. intros k K. apply cells_In in K. rewrite (M k K). destruct (SM k K) as (w & L & ->). destruct (window_left freq box n p k PF SB K) as [L' W]. rewrite (left_unique _ _ _ _ _ _ _ SB K L L'). f_equal. f_equal. set (v := window _ _) in *. apply cplx_eq; cbn [cscale re im]; field; lra.
Qed.
Print Assumptions C63_recovered.
(** There is one field only that the mesh is the smoothing of. *)
Theorem C63_unique : forall freq box n r p f g h, proper_freq freq -> solid box -> nonempty n -> times_averaged r p ->
  compensate_mesh freq box n r f = Ok g -> smoothed freq box n p h f -> same_mesh n g h.
Proof. intros freq box n r p f g h PF SB N T E SM. destruct (C63_recovered freq box n r p h f PF SB N T SM) as (g' & E' & H). rewrite E in E'. apply ok_inj in E'. subst g'. auto. Qed.
Print Assumptions C63_unique.
(** The mean does not change. *)
Theorem C63_mean : forall freq box n r f g, proper_freq freq -> solid box -> nonempty n -> compensate_mesh freq box n r f = Ok g ->
  Rsum (map g (cells n)) = Rsum (map f (cells n)).
Proof.
  intros freq box n r f g PF SB N E. destruct (order r) as [p|] eqn:O; [|unfold compensate_mesh in E; rewrite O in E; discriminate]. apply order_named in O. destruct (compensate_inv freq box n r p f PF SB N O) as (modes & E' & HM & M).
  rewrite E in E'. apply ok_inj in E'. subst g. rewrite sum_c2r by auto. rewrite (M _ (within_zero n N)). rewrite wave_zero by auto. assert (W : window p (vmul vzero (cell_size box n)) = 1).
  { unfold window, vmul, vzero. cbn [vx vy vz]. rewrite !Rmult_0_l, Rmult_0_r. unfold sinc. destruct (Req_EM_T 0 0); [|lra]. rewrite pow1. ring. }
  rewrite W. transitivity (size n * re (r2c n f (I 0 0 0))); [cbn; rewrite Rinv_1; ring|]. rewrite <- sum_c2r by auto. apply Rsum_map_ext. intros x X. apply c2r_r2c; auto. apply cells_In; auto.
Qed.
Print Assumptions C63_mean.
(** No Fourier mode is damped. *)
Theorem C63_amplitudes : forall freq box n r f g k, proper_freq freq -> solid box -> nonempty n -> within n k -> compensate_mesh freq box n r f = Ok g ->
  modulus2 (r2c n f k) <= modulus2 (r2c n g k).
Proof.
  intros freq box n r f g k PF SB N K E. destruct (order r) as [p|] eqn:O; [|unfold compensate_mesh in E; rewrite O in E; discriminate]. apply order_named in O. destruct (compensate_inv freq box n r p f PF SB N O) as (modes & E' & HM & M).
  rewrite E in E'. apply ok_inj in E'. subst g. rewrite r2c_c2r by auto. rewrite (M k K). destruct (window_left freq box n p k PF SB K) as [_ W]. set (w := window _ _) in *. unfold modulus2, cscale. cbn [re im].
  assert (1 <= / w) by (rewrite <- Rinv_1; apply Rinv_le_contravar; lra). assert (1 <= (/ w) ^ 2) by (cbn; nra). rewrite !Rpow_mult_distr. pose proof (pow2_ge_0 (re (r2c n f k))). pose proof (pow2_ge_0 (im (r2c n f k))). nra.
Qed.
Print Assumptions C63_amplitudes.
(** Compensating is linear. *)
Theorem C63_linear : forall freq box n r f g f' g' a b, proper_freq freq -> solid box -> nonempty n -> compensate_mesh freq box n r f = Ok f' -> compensate_mesh freq box n r g = Ok g' ->
  exists h, compensate_mesh freq box n r (fun x => a * f x + b * g x) = Ok h /\ same_mesh n h (fun x => a * f' x + b * g' x).
Proof.
  intros freq box n r f g f' g' a b PF SB N E1 E2. destruct (order r) as [p|] eqn:O; [|unfold compensate_mesh in E1; rewrite O in E1; discriminate]. apply order_named in O.
  destruct (C63_modes freq box n r p f PF SB N O) as (f1 & F1 & SF). destruct (C63_modes freq box n r p g PF SB N O) as (g1 & G1 & SG). rewrite E1 in F1. rewrite E2 in G1. apply ok_inj in F1, G1. subst f1 g1.
  assert (LIN : forall u v k, r2c n (fun x => a * u x + b * v x) k = cadd (cscale a (r2c n u k)) (cscale b (r2c n v k))).
  { intros u v k. rewrite (r2c_add n (fun x => a * u x) (fun x => b * v x)). f_equal; rewrite !r2c_csum.
    - rewrite (csum_ext _ (fun x => cmul (creal a) (cmul (creal (u x)) (expi (- phase n k x))))); [rewrite csum_mul, cscale_mul; ring|]. intros. apply cplx_eq; cbn; ring.
    - rewrite (csum_ext _ (fun x => cmul (creal b) (cmul (creal (v x)) (expi (- phase n k x))))); [rewrite csum_mul, cscale_mul; ring|]. intros. apply cplx_eq; cbn; ring. }
  apply (C63_recovered freq box n r p (fun x => a * f' x + b * g' x) (fun x => a * f x + b * g x)); auto. intros k K. destruct (SF k K) as (w & L & EF). destruct (SG k K) as (w' & L' & EG). rewrite (left_unique _ _ _ _ _ _ _ SB K L' L) in EG.
  exists w. split; auto. rewrite !LIN, EF, EG. apply cplx_eq; cbn; ring.
Qed.
Print Assumptions C63_linear.
(** Other names than those documented are refused. *)
Theorem C63_names : forall freq box n r f, (forall p, ~ times_averaged r p) -> compensate_mesh freq box n r f = Err KeyError.
Proof. intros freq box n r f H. unfold compensate_mesh. destruct (order r) as [p|] eqn:O; auto. apply order_named in O. elim (H p O). Qed.
Print Assumptions C63_names.
Example C63_case : proper_freq signed /\ solid (V 3 3 3) /\ nonempty (I 4 4 4) /\ times_averaged "cic" 2 /\ (forall p, ~ times_averaged "CIC" p) /\ within (I 4 4 4) (I 2 1 0).
Proof.
  split; [apply signed_proper|]. split; [repeat split; cbn; lra|]. split; [repeat split; cbn; lia|]. split; [cbn; tauto|]. split; [|repeat split; cbn; lia].
  intros p H. repeat (destruct H as [H|H]; [discriminate|]). destruct H.
Qed.
