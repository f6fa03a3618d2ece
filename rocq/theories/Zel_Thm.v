(** Property C89: Lagrangian mocks at first order in the density. Vocabulary in Zel_Spec.v, Ens_Spec.v and Mock_Spec.v. *)
Require Import Reals Lra Lia ZArith List Permutation Bool.
From Verif Require Import Base Vec3 Isometry_Model Cutsky_Model Box_Model Rsd_Model Rsd_Spec Density_Proof Mock_Model Mock_Spec Fourier_Proof Mock_Thm Mock_Thm2 Interlace_Thm Mesh_Thm Ens_Spec Ens_Proof Ens_Thm Ens_Thm2 Zel_Spec Zel_Proof Zel_Proof2.
Import ListNotations.
Open Scope R_scope.

Lemma los_one : forall los u, los_means los u -> vdot u u = 1.
Proof. intros los u H. destruct H; auto; unfold vdot; cbn; lra. Qed.
Lemma r2c_times : forall n k c g, r2c n (fun x => c * g x) k = cscale c (r2c n g k).
Proof.
  intros n k c g. apply cplx_eq; cbn [re im cscale r2c].
  - transitivity (/ size n * (c * Rsum (map (fun x => g x * cos (phase n k x)) (cells n)))); [|ring]. rewrite <- (Rsum_scale c (fun x => g x * cos (phase n k x))). f_equal. apply Rsum_map_ext. intros; ring.
  - transitivity (/ size n * (c * Rsum (map (fun x => g x * - sin (phase n k x)) (cells n)))); [|ring]. rewrite <- (Rsum_scale c (fun x => g x * - sin (phase n k x))). f_equal. apply Rsum_map_ext. intros; ring.
Qed.

(** C89. Displacements with redshift space distortions compress the density by 1 + f mu^2, mode by mode. *)
Theorem C89_compression : forall freq box n dk k f los u, los_means los u -> below_half n k -> wave freq box n k <> vzero ->
  let psi i := displacement_k freq box n dk i k in
  let along := cadd (cscale (vx u) (psi 0%nat)) (cadd (cscale (vy u) (psi 1%nat)) (cscale (vz u) (psi 2%nat))) in
  divergence (wave freq box n k) (fun i => cadd (psi i) (cscale (f * component u i) along)) = cscale (- (1 + f * mu2 (wave freq box n k) u)) (dk k).
Proof.
  intros freq box n dk k f los u LM (H0 & H1 & H2) NZ psi along. pose proof (los_one los u LM) as U. unfold along, psi, divergence, displacement_k, safe_k2, mu2. cbv zeta. set (w := wave freq box n k) in *.
  assert (W : vdot w w <> 0) by (intro Z; apply k2_zero in Z; contradiction). destruct (Req_EM_T (vdot w w) 0); [contradiction|]. rewrite U.
  unfold at_half, index. rewrite (proj2 (Nat.eqb_neq _ _) H0), (proj2 (Nat.eqb_neq _ _) H1), (proj2 (Nat.eqb_neq _ _) H2). unfold component, cscale, cadd, cmul. cbn [re im]. unfold vdot in *. apply cplx_eq; cbn [re im]; field; auto.
Qed.
Print Assumptions C89_compression.

(** Modes of catalogs, to first order in the amplitude [e] of the density field, on average over the numbers of objects and their
    positions in cells. The law of the generator of numbers may depend on the amplitude. *)
Theorem C89_first_order : forall {S T} (E : R -> (S -> R) -> R) (E' : (T -> R) -> R) freq neg box center n dk bias b lognormal f los u nbar (poisson : S -> list R -> list nat) parts
    (uniform : T -> nat -> list vec) weight readout limit d pos disps out k,
  (forall e, Rabs e <= limit -> expectation (E e)) -> average E' -> proper_freq freq -> solid box -> 0 < nbar -> hermitian n dk -> bias_is bias b -> los_means los u ->
  Permutation (concat parts) (cells n) -> (forall t, stream (uniform t)) -> same_law E' uniform -> interpolation n weight ->
  (forall e i, Rabs e <= limit -> (i < 3)%nat -> reads box center n weight (displacement freq box n (fun k => cscale e (dk k)) i) (readout e i)) ->
  (forall e, Rabs e <= limit -> set_real_delta_field neg box center n (fun k => cscale e (dk k)) bias lognormal = Ok (d e)) ->
  (forall e, Rabs e <= limit -> mean_numbers (E e) poisson (means box n (d e) (fun _ => nbar))) ->
  (forall e s t, Rabs e <= limit -> lagrangian_sample box center n (d e) (fun _ => nbar) (poisson s) parts (uniform t) (readout e) = Ok (pos e s t, disps e s t)) ->
  (forall e s t, Rabs e <= limit -> lagrangian_set_rsd (pos e s t) (disps e s t) (FNum f) (Some los) = Ok (out e s t)) ->
  within n k -> clear n k -> wave freq box n k <> vzero ->
  let w := wave freq box n k in
  first_order limit (fun e => cscale (/ (nbar * volume box)) (cmean (E e) (fun s => cmean E' (fun t => catalog_mode w (lower box center) (out e s t)))))
    (cadd (cscale b (cmul (position_window E' uniform box n w) (dk k))) (cscale (1 + f * mu2 w u) (cmul (reading_window E' uniform weight box n w) (dk k)))).
Proof.
  intros S T E E' freq neg box center n dk bias b lognormal f los u nbar poisson parts uniform weight readout limit d pos disps out k AV AV' PF SB NB HM BI LM P ST SL IP RD DE PL LS RS K CL NZ w.
  pose proof (within_nonempty n k K) as NE. pose proof (size_pos n NE) as SP. pose proof (los_one los u LM) as U1.
  assert (VP : 0 < volume box) by (destruct SB as (B1 & B2 & B3); unfold volume; repeat apply Rmult_lt_0_compat; auto).
  assert (C2 : forall e x, c2r n (fun k => cscale e (dk k)) x = e * c2r n dk x) by (intros e x; unfold c2r; rewrite <- Rsum_scale; apply Rsum_map_ext; intros; cbn; ring).
  pose (beta := fun x => b * c2r n dk x - (if lognormal then mean_of_field n (fun y => b * c2r n dk y) else 0)).
  assert (DD : exists spread, forall e x, Rabs e <= limit -> within n x -> Rabs (d e x - e * beta x) <= spread * e ^ 2).
  { destruct lognormal.
    - destruct (lognormal_first n (fun x => b * c2r n dk x) limit NE) as [spread SPR]. exists spread. intros e x L X. specialize (SPR e x L X). specialize (DE e L). unfold set_real_delta_field in DE. cbv zeta in DE.
      assert (Q : d e x = exp (e * (b * c2r n dk x)) / mean_of_field n (fun y => exp (e * (b * c2r n dk y))) - 1).
      { assert (MN : forall g, mean n g = Ok (mean_of_field n g)) by (intro g; unfold mean, fdiv; destruct (Req_EM_T (size n) 0); [lra|]; unfold mean_of_field; f_equal; unfold Rdiv; ring).
        destruct BI as [ [-> ->] | ->]; rewrite MN in DE; cbn [bind] in DE; apply ok_inj in DE; rewrite <- DE; (f_equal; f_equal; [f_equal; rewrite C2; ring|apply mean_ext; intros y _; f_equal; rewrite C2; ring]). }
      rewrite Q. exact SPR.
    - exists 0. intros e x L X. rewrite (real_field _ _ _ _ _ _ _ _ BI (DE e L)), C2. unfold beta. replace (b * (e * c2r n dk x) - e * (b * c2r n dk x - 0)) with 0 by ring. rewrite Rabs_R0. lra. }
  destruct DD as [spread DD].
  pose (psi := fun i => displacement freq box n dk i). pose (w' := vadd w (vscale (f * vdot w u) u)). pose (G := fun y => vx w' * psi 0%nat y + (vy w' * psi 1%nat y + vz w' * psi 2%nat y)).
  assert (WW : vdot w w <> 0) by (intro Z; apply k2_zero in Z; contradiction).
  assert (GK : r2c n G k = cmul (Cx 0 1) (cscale (1 + f * mu2 w u) (dk k))).
  { unfold G. rewrite (r2c_add n (fun y => vx w' * psi 0%nat y) (fun y => vy w' * psi 1%nat y + vz w' * psi 2%nat y)), (r2c_add n (fun y => vy w' * psi 1%nat y) (fun y => vz w' * psi 2%nat y)), !r2c_times. unfold psi. rewrite !displacement_mode by (auto; lia).
    pose proof CL as [ (H0 & H1 & H2) _]. unfold displacement_k, safe_k2, mu2. cbv zeta. fold w. destruct (Req_EM_T (vdot w w) 0); [contradiction|]. rewrite U1.
    unfold at_half, index. rewrite (proj2 (Nat.eqb_neq _ _) H0), (proj2 (Nat.eqb_neq _ _) H1), (proj2 (Nat.eqb_neq _ _) H2). unfold w', component, cscale, cadd, cmul, vadd, vscale. cbn [re im vx vy vz]. unfold vdot in *. apply cplx_eq; cbn [re im]; field; auto. }
  assert (BK : r2c n beta k = cscale b (dk k)).
  { set (m := if lognormal then mean_of_field n (fun y => b * c2r n dk y) else 0). rewrite (r2c_ext n beta (fun x => b * c2r n dk x + - m)) by (intros; unfold beta, m; ring). rewrite (r2c_add n (fun x => b * c2r n dk x)).
    assert (Z : r2c n (fun _ => - m) k = C0). { rewrite r2c_csum, csum_mul, (waves_cancel freq box n k PF K NZ) by auto. ring. }
    rewrite Z, r2c_times, (r2c_c2r n dk k NE HM K). apply cplx_eq; cbn; ring. }
  destruct (slope_ok E' uniform freq box n k weight AV' ST PF SB K IP NZ beta G d spread limit DD) as [bound BD]. exists bound. intros e L. specialize (BD e L).
  assert (Q : quantity E' uniform freq box n k weight G d e = cscale (/ (nbar * volume box)) (cmean (E e) (fun s => cmean E' (fun t => catalog_mode w (lower box center) (out e s t))))).
  { unfold w. rewrite (catalog_mean (E e) E' freq box center n (d e) nbar f los u poisson parts uniform (readout e) (pos e) (disps e) (out e) k (AV e L) (proj1 AV') SB P ST SL (PL e L) LM (fun s t => LS e s t L) (fun s t => RS e s t L) NE).
    unfold quantity. rewrite cscale_mul. match goal with |- _ = cmul ?a (cmul ?b0 ?c) => transitivity (cmul (cmul a b0) c); [rewrite creal_mul, Rinv_l by (apply Rgt_not_eq; apply Rmult_lt_0_compat; auto); change (creal 1) with C1|ring] end.
    match goal with |- _ = cmul C1 ?z => transitivity z; [|ring] end. f_equal. apply csum_ext. intros x X. apply cells_In in X. f_equal. apply (cplaced_ext E' uniform AV' ST). intros v V0. unfold wave_of. f_equal. f_equal. f_equal.
    unfold total_shift, Zel_Proof2.psi, start. rewrite !(RD e _ L) by (auto; lia). fold w.
    assert (LP : forall i, Rsum (map (fun z => weight v z * displacement freq box n (fun k => cscale e (dk k)) i (before n x z)) (cells n)) = e * Rsum (map (fun z => weight v z * psi i (before n x z)) (cells n))).
    { intro i. rewrite <- Rsum_scale. apply Rsum_map_ext. intros z _. unfold psi, displacement. replace (c2r n (displacement_k freq box n (fun k => cscale e (dk k)) i) (before n x z)) with (e * c2r n (displacement_k freq box n dk i) (before n x z)); [ring|].
      unfold c2r. rewrite <- Rsum_scale. apply Rsum_map_ext. intros k' _. unfold displacement_k, cmul, cscale. cbv zeta. cbn [re im]. ring. }
    rewrite !LP. unfold moved_by, G.
    rewrite (Rsum_map_ext _ (fun z => vx w' * (weight v z * psi 0%nat (before n x z)) + (vy w' * (weight v z * psi 1%nat (before n x z)) + vz w' * (weight v z * psi 2%nat (before n x z))))) by (intros; ring).
    rewrite !Rsum_add, !Rsum_scale. unfold w', vdot, vadd, vscale. cbn [vx vy vz]. ring. }
  rewrite <- Q. assert (SE : cadd (cscale b (cmul (position_window E' uniform box n w) (dk k))) (cscale (1 + f * mu2 w u) (cmul (reading_window E' uniform weight box n w) (dk k))) = slope E' uniform freq box n k weight beta G).
  { unfold slope. fold w. rewrite BK, GK. rewrite !cscale_mul. replace (Cx 0 1) with (cmul (creal (-1)) (Cx 0 (-1))) by (apply cplx_eq; cbn; ring).
    assert (I2 : cmul (Cx 0 (-1)) (cmul (creal (-1)) (Cx 0 (-1))) = C1) by (apply cplx_eq; cbn; ring).
    transitivity (cadd (cmul (position_window E' uniform box n w) (cmul (creal b) (dk k))) (cmul (cmul (Cx 0 (-1)) (cmul (creal (-1)) (Cx 0 (-1)))) (cmul (reading_window E' uniform weight box n w) (cmul (creal (1 + f * mu2 w u)) (dk k))))); [rewrite I2; ring|ring]. }
  rewrite SE. exact BD.
Qed.
Print Assumptions C89_first_order.
