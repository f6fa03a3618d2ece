(** Property C89, continued: what cells and interpolation do to the modes of Lagrangian mocks. Vocabulary in Zel_Spec.v. *)
Require Import Reals Lra Lia ZArith List Permutation Bool.
From Verif Require Import Base Vec3 Isometry_Model Rsd_Model Rsd_Spec Density_Proof Mock_Model Mock_Spec Fourier_Proof Mock_Thm Mock_Thm2 Interlace_Thm Mesh_Thm Ens_Spec Ens_Proof Ens_Thm Ens_Thm2 Zel_Spec Zel_Proof Zel_Proof2 Zel_Thm.
Import ListNotations.
Open Scope R_scope.

Lemma sin_abs : forall a, Rabs (sin a) <= Rabs a.
Proof.
  assert (P : forall x, 0 <= x -> Rabs (sin x) <= x).
  { intros x X. destruct (Rle_lt_dec x 1) as [L|L].
    - destruct (Req_dec x 0) as [->|N]; [rewrite sin_0, Rabs_R0; lra|]. pose proof (sin_lt_x x ltac:(lra)). rewrite Rabs_right; [lra|]. apply Rle_ge, sin_ge_0; auto. pose proof PI2_1. lra.
    - pose proof (SIN_bound x) as [B1 B2]. apply Rabs_le. lra. }
  intro a. destruct (Rle_lt_dec 0 a) as [L|L]; [rewrite (Rabs_right a) by lra; auto|]. replace (sin a) with (- sin (- a)) by (rewrite sin_neg; ring). rewrite Rabs_Ropp, (Rabs_left a) by lra. apply P. lra.
Qed.
Lemma turn_near : forall a b, Rabs a <= b -> Rabs (re (turn a) - 1) <= b ^ 2 / 2 /\ Rabs (im (turn a)) <= b.
Proof.
  intros a b H. cbn. split; [|rewrite Rabs_Ropp; eapply Rle_trans; [apply sin_abs|auto] ]. eapply Rle_trans; [apply cos_second|]. rewrite <- (pow2_abs a). pose proof (Rabs_pos a). nra.
Qed.
Lemma average_near : forall {S} (E : (S -> R) -> R) f a b, average E -> (forall s, Rabs (f s - a) <= b) -> Rabs (E f - a) <= b.
Proof.
  intros S E f a b AV H. replace (E f - a) with (E (fun s => f s - a)); [apply average_bound; auto|]. transitivity (E (fun s => f s + - a)); [apply (E_ext E (proj1 AV)); intros; ring|].
  rewrite (E_add E (proj1 AV) f (fun _ => - a)), (E_const E (proj1 AV)). ring.
Qed.
Lemma phase_in_cell : forall box n w v reach, (Rabs (vx v) <= reach /\ Rabs (vy v) <= reach /\ Rabs (vz v) <= reach) -> Rabs (vdot w (vmul v (diagonal box n))) <= reach * cell_phase box n w.
Proof.
  intros box n w v reach (A & B & C). unfold cell_phase. set (c := diagonal box n). clearbody c. unfold vdot, vmul. cbn [vx vy vz].
  replace (vx w * (vx v * vx c) + vy w * (vy v * vy c) + vz w * (vz v * vz c)) with (vx v * (vx w * vx c) + vy v * (vy w * vy c) + vz v * (vz w * vz c)) by ring.
  assert (P : forall a b, Rabs a <= reach -> Rabs (a * b) <= reach * Rabs b) by (intros a b H; rewrite Rabs_mult; apply Rmult_le_compat_r; auto using Rabs_pos).
  eapply Rle_trans; [apply Rabs_triang|]. eapply Rle_trans; [apply Rplus_le_compat_r, Rabs_triang|]. pose proof (P _ (vx w * vx c) A). pose proof (P _ (vy w * vy c) B). pose proof (P _ (vz w * vz c) C). lra.
Qed.
(** Distances to nodes count up to whole boxes. *)
Lemma turn_images : forall freq box n k v z q1 q2 q3, proper_freq freq -> solid box -> within n k ->
  turn (vdot (wave freq box n k) (vadd (vmul v (diagonal box n)) (step box n z))) =
  turn (vdot (wave freq box n k) (vmul (V (vx v + INR (ix z) - IZR q1 * INR (ix n)) (vy v + INR (iy z) - IZR q2 * INR (iy n)) (vz v + INR (iz z) - IZR q3 * INR (iz n))) (diagonal box n))).
Proof.
  intros freq box n k v z q1 q2 q3 PF (B1 & B2 & B3) (K1 & K2 & K3). rewrite !turn_expi. rewrite <- (expi_period (- vdot _ (vadd _ _)) (freq (ix n) (ix k) * q1 + freq (iy n) (iy k) * q2 + freq (iz n) (iz k) * q3)). f_equal.
  unfold vdot, wave, vadd, vmul, step, diagonal. cbn [vx vy vz]. rewrite !plus_IZR, !mult_IZR. field. repeat split; try lra; apply not_0_INR; lia.
Qed.

(** C89. On scales large compared to cells the two windows are close to one, hence the modes close to (1 + b + f mu^2) times those of the
    density. *)
Theorem C89_large_scales : forall {T} (E : (T -> R) -> R) (uniform : T -> nat -> list vec) freq box n weight reach k,
  average E -> (forall t, stream (uniform t)) -> proper_freq freq -> solid box -> within n k -> interpolation n weight -> local n reach weight -> 0 <= reach ->
  let w := wave freq box n k in let eta := cell_phase box n w in
  (Rabs (re (position_window E uniform box n w) - 1) <= eta ^ 2 / 2 /\ Rabs (im (position_window E uniform box n w)) <= eta) /\
  (Rabs (re (reading_window E uniform weight box n w) - 1) <= (reach * eta) ^ 2 / 2 /\ Rabs (im (reading_window E uniform weight box n w)) <= reach * eta).
Proof.
  intros T E uniform freq box n weight reach k AV ST PF SB K IP LO PR w eta. pose proof (in_cell_one uniform ST) as IC.
  assert (P1 : forall t, Rabs (vdot w (vmul (nth 0 (uniform t 1%nat) vzero) (diagonal box n))) <= eta).
  { intro t. rewrite <- (Rmult_1_l eta). apply phase_in_cell. destruct (IC t) as ((A1 & A2) & (B1 & B2) & (C1 & C2)). cbn [vx vy vz] in *. rewrite !Rabs_right by lra. lra. }
  split.
  - split.
    + apply (average_near E (fun t => re (turn (vdot w (vmul (nth 0 (uniform t 1%nat) vzero) (diagonal box n)))))); auto. intro t. apply turn_near, P1.
    + apply (average_bound E (fun t => im (turn (vdot w (vmul (nth 0 (uniform t 1%nat) vzero) (diagonal box n)))))); auto. intro t. apply turn_near, P1.
  - assert (P2 : forall u z, between (V 0 0 0) (V 1 1 1) u -> within n z -> weight u z <> 0 ->
      Rabs (re (turn (vdot w (vadd (vmul u (diagonal box n)) (step box n z)))) - 1) <= (reach * eta) ^ 2 / 2 /\ Rabs (im (turn (vdot w (vadd (vmul u (diagonal box n)) (step box n z))))) <= reach * eta).
    { intros u z U Z0 NZ. destruct (LO u z U Z0 NZ) as ([q1 Q1] & [q2 Q2] & [q3 Q3]). unfold w. rewrite (turn_images freq box n k u z q1 q2 q3) by auto. apply turn_near. apply phase_in_cell. auto. }
    assert (W : forall (g : idx -> R) u b, between (V 0 0 0) (V 1 1 1) u -> (forall z, within n z -> weight u z <> 0 -> Rabs (g z) <= b) -> 0 <= b -> Rabs (Rsum (map (fun z => weight u z * g z) (cells n))) <= b).
    { intros g u b U H PB. destruct (IP u U) as [W1 W2]. rewrite <- (Rmult_1_l b), <- W2.
      rewrite (Rsum_map_ext _ (fun z => weight u z * (if Req_EM_T (weight u z) 0 then 0 else g z))) by (intros z _; destruct (Req_EM_T (weight u z) 0) as [->|]; ring).
      apply (weighted_bound (weight u) (fun z => if Req_EM_T (weight u z) 0 then 0 else g z)); [intros z Z0; apply W1, cells_In; auto|]. intros z Z0. apply cells_In in Z0. destruct (Req_EM_T (weight u z) 0); [rewrite Rabs_R0; auto|auto]. }
    assert (PE : 0 <= eta) by (unfold eta, cell_phase; pose proof (Rabs_pos (vx w * vx (diagonal box n))); pose proof (Rabs_pos (vy w * vy (diagonal box n))); pose proof (Rabs_pos (vz w * vz (diagonal box n))); lra).
    assert (PRE : 0 <= reach * eta) by (apply Rmult_le_pos; auto). pose proof (pow2_ge_0 (reach * eta)). split.
    + unfold reading_window, cmean. cbn [re]. apply average_near; auto. intro t. set (u := nth 0 (uniform t 1%nat) vzero). destruct (IP u (IC t)) as [_ W2]. rewrite <- W2 at 1.
      replace (Rsum (map (fun z => weight u z * re (turn (vdot w (vadd (vmul u (diagonal box n)) (step box n z))))) (cells n)) - Rsum (map (weight u) (cells n)))
        with (Rsum (map (fun z => weight u z * (re (turn (vdot w (vadd (vmul u (diagonal box n)) (step box n z)))) - 1)) (cells n))).
      * apply W; [apply IC| |lra]. intros z Z0 NZ. apply P2; auto. apply IC.
      * rewrite (Rsum_map_ext _ (fun z => weight u z * re (turn (vdot w (vadd (vmul u (diagonal box n)) (step box n z)))) + -1 * weight u z)) by (intros; ring). rewrite Rsum_add, Rsum_scale. ring.
    + unfold reading_window, cmean. cbn [im]. apply average_bound; auto. intro t. apply W; [apply IC| |auto]. intros z Z0 NZ. apply P2; auto.
Qed.
Print Assumptions C89_large_scales.

(** If positions have the same law seen from both ends of a cell and the interpolation has the same weights on both sides, the window of
    positions carries the phase of half a cell and that of the interpolation carries none. *)
Theorem C89_half_cell : forall {T} (E : (T -> R) -> R) (uniform : T -> nat -> list vec) freq box n weight k,
  average E -> proper_freq freq -> solid box -> within n k -> even_weights n weight -> even_law E uniform ->
  let w := wave freq box n k in let half := vdot w (diagonal box n) / 2 in
  position_window E uniform box n w = cscale (E (fun t => cos (vdot w (vmul (nth 0 (uniform t 1%nat) vzero) (diagonal box n)) - half))) (turn half) /\ im (reading_window E uniform weight box n w) = 0.
Proof.
  intros T E uniform freq box n weight k [EX _] PF SB K EW EL w half. set (c := diagonal box n) in *. pose (ph := fun u => vdot w (vmul u c)).
  assert (FL : forall u, ph (flipped u) - half = - (ph u - half)) by (intro u; unfold ph, half, flipped, vdot, vmul, vsub; cbn [vx vy vz]; field).
  split.
  - assert (SZ : E (fun t => sin (ph (nth 0 (uniform t 1%nat) vzero) - half)) = 0).
    { pose proof (EL (fun u => sin (ph u - half))) as Q. cbv beta in Q. rewrite (E_ext E EX _ (fun t => -1 * sin (ph (nth 0 (uniform t 1%nat) vzero) - half))) in Q by (intro t; rewrite FL, sin_neg; ring). rewrite (E_scale E EX) in Q. lra. }
    apply cplx_eq; cbn [position_window cmean turn cscale re im].
    + rewrite (E_ext E EX _ (fun t => cos half * cos (ph (nth 0 (uniform t 1%nat) vzero) - half) + - sin half * sin (ph (nth 0 (uniform t 1%nat) vzero) - half))).
      * rewrite (E_add E EX), !(E_scale E EX), SZ. unfold ph. ring.
      * intro t. cbn [turn re im]. change (vdot w (vmul (nth 0 (uniform t 1%nat) vzero) (diagonal box n))) with (ph (nth 0 (uniform t 1%nat) vzero)). generalize (ph (nth 0 (uniform t 1%nat) vzero)). intro p. transitivity (cos (half + (p - half))); [f_equal; ring|]. rewrite cos_plus. ring.
    + rewrite (E_ext E EX _ (fun t => - sin half * cos (ph (nth 0 (uniform t 1%nat) vzero) - half) + - cos half * sin (ph (nth 0 (uniform t 1%nat) vzero) - half))).
      * rewrite (E_add E EX), !(E_scale E EX), SZ. unfold ph. ring.
      * intro t. cbn [turn re im]. change (vdot w (vmul (nth 0 (uniform t 1%nat) vzero) (diagonal box n))) with (ph (nth 0 (uniform t 1%nat) vzero)). generalize (ph (nth 0 (uniform t 1%nat) vzero)). intro p. transitivity (- sin (half + (p - half))); [f_equal; f_equal; ring|]. rewrite sin_plus. ring.
  - pose (h := fun u => Rsum (map (fun z => weight u z * im (turn (vdot w (vadd (vmul u c) (step box n z))))) (cells n))).
    change (E (fun t => h (nth 0 (uniform t 1%nat) vzero)) = 0).
    assert (MP : Permutation (map (mirror n) (cells n)) (cells n)).
    { apply NoDup_Permutation_bis; [|rewrite map_length; auto|].
      - apply nodup_map_in; [|apply cells_nodup]. intros [a b d] [a' b' d'] X Y Q. apply cells_In in X, Y. destruct X as (X1 & X2 & X3). destruct Y as (Y1 & Y2 & Y3). unfold mirror in Q. cbn [ix iy iz] in *. injection Q as Q1 Q2 Q3. f_equal; lia.
      - intros y Y. apply in_map_iff in Y. destruct Y as (x & <- & X). apply cells_In in X. apply cells_In. destruct X as (X1 & X2 & X3). repeat split; cbn; lia. }
    assert (HF : forall u, h (flipped u) = -1 * h u).
    { intro u. unfold h. rewrite <- Rsum_scale. transitivity (im (csum (map (fun z => cmul (creal (weight (flipped u) z)) (turn (vdot w (vadd (vmul (flipped u) c) (step box n z))))) (cells n)))).
      - rewrite csum_im. apply Rsum_map_ext. intros z _. cbn. ring.
      - rewrite <- (csum_perm _ _ (Permutation_map (fun z => cmul (creal (weight (flipped u) z)) (turn (vdot w (vadd (vmul (flipped u) c) (step box n z))))) MP)). rewrite map_map, csum_im. apply Rsum_map_ext. intros z Z0. apply cells_In in Z0. rewrite EW by auto.
        assert (Q : turn (vdot w (vadd (vmul (flipped u) c) (step box n (mirror n z)))) = turn (- vdot w (vadd (vmul u c) (step box n z)))).
        { unfold w, c. rewrite (turn_images freq box n k (flipped u) (mirror n z) 1 1 1) by auto. f_equal. unfold vdot, wave, vadd, vmul, step, diagonal, flipped, mirror, vsub. cbn [vx vy vz ix iy iz]. destruct Z0 as (Z1 & Z2 & Z3). rewrite !minus_INR by lia. cbn [INR]. destruct SB as (B1 & B2 & B3). destruct K as (K1 & K2 & K3).
          field. repeat split; try lra; apply not_0_INR; lia. }
        rewrite Q. cbn. rewrite sin_neg. ring. }
    pose proof (EL h) as Q. rewrite (E_ext E EX _ (fun t => -1 * h (nth 0 (uniform t 1%nat) vzero))) in Q by (intro; apply HF). rewrite (E_scale E EX) in Q. lra.
Qed.
Print Assumptions C89_half_cell.

(** Then the two windows differ for waves that are not flat across the diagonal of a cell, and the modes are not (1 + b + f mu^2) times the
    ones of the density seen through any window common to all biases and growth rates. *)
Theorem C89_common_window_refuted : forall {T} (E : (T -> R) -> R) (uniform : T -> nat -> list vec) freq box n weight k,
  average E -> (forall t, stream (uniform t)) -> proper_freq freq -> solid box -> within n k -> even_weights n weight -> even_law E uniform ->
  let w := wave freq box n k in vdot w (diagonal box n) <> 0 -> cell_phase box n w < PI ->
  ~ exists window, forall b m, cadd (cscale b (position_window E uniform box n w)) (cscale m (reading_window E uniform weight box n w)) = cscale (b + m) window.
Proof.
  intros T E uniform freq box n weight k AV ST PF SB K EW EL w NZ LT [W H]. destruct (C89_half_cell E uniform freq box n weight k AV PF SB K EW EL) as [P Q]. fold w in P, Q.
  assert (EQ : im (position_window E uniform box n w) = im (reading_window E uniform weight box n w)). { pose proof (H 1 0) as H1. pose proof (H 0 1) as H2. apply (f_equal im) in H1, H2. cbn [cadd cscale im] in H1, H2. lra. }
  rewrite Q, P in EQ. cbn [cscale turn im] in EQ. set (half := vdot w (diagonal box n) / 2) in *. set (eta := cell_phase box n w) in *.
  assert (HB : Rabs half <= eta / 2). { pose proof (phase_in_cell box n w (V (1 / 2) (1 / 2) (1 / 2)) (1 / 2)) as B. cbn [vx vy vz] in B. replace half with (vdot w (vmul (V (1 / 2) (1 / 2) (1 / 2)) (diagonal box n))) by (unfold half, vdot, vmul; cbn [vx vy vz]; field). eapply Rle_trans; [apply B; rewrite Rabs_right by lra; lra|]. unfold eta. lra. }
  assert (CP : 0 < E (fun t => cos (vdot w (vmul (nth 0 (uniform t 1%nat) vzero) (diagonal box n)) - half))).
  { assert (C0 : 0 < cos (eta / 2)). { apply cos_gt_0; [|lra]. pose proof (Rabs_pos half). pose proof PI_RGT_0. lra. }
    assert (L : 0 <= E (fun t => cos (vdot w (vmul (nth 0 (uniform t 1%nat) vzero) (diagonal box n)) - half) + -1 * cos (eta / 2))).
    { apply AV. intro t. set (u := nth 0 (uniform t 1%nat) vzero). assert (B : Rabs (vdot w (vmul u (diagonal box n)) - half) <= eta / 2).
      { replace (vdot w (vmul u (diagonal box n)) - half) with (vdot w (vmul (V (vx u - 1 / 2) (vy u - 1 / 2) (vz u - 1 / 2)) (diagonal box n))) by (unfold half, vdot, vmul; cbn [vx vy vz]; field). replace (eta / 2) with (1 / 2 * eta) by field. apply phase_in_cell. cbn [vx vy vz].
        destruct (in_cell_one uniform ST t) as ((A1 & A2) & (B1 & B2) & (C1 & C2)). fold u in A1, A2, B1, B2, C1, C2. cbn [vx vy vz] in *. repeat split; apply Rabs_le; lra. }
      assert (CE1 : cos (vdot w (vmul u (diagonal box n)) - half) = cos (Rabs (vdot w (vmul u (diagonal box n)) - half))) by (unfold Rabs; destruct (Rcase_abs _); [rewrite cos_neg|]; auto).
      rewrite CE1. pose proof (Rabs_pos (vdot w (vmul u (diagonal box n)) - half)). assert (cos (eta / 2) <= cos (Rabs (vdot w (vmul u (diagonal box n)) - half))); [|lra]. apply cos_decr_1; pose proof PI_RGT_0; lra. }
    rewrite (E_add E (proj1 AV)) in L. rewrite (E_const E (proj1 AV)) in L. lra. }
  assert (SN : sin half <> 0).
  { pose proof PI_RGT_0. apply Rabs_le_inv in HB. destruct (Rtotal_order half 0) as [L|[Z|L] ].
    - assert (0 < sin (- half)) by (apply sin_gt_0; lra). rewrite sin_neg in H1. lra.
    - exfalso. apply NZ. unfold half in Z. lra.
    - assert (0 < sin half) by (apply sin_gt_0; lra). lra. }
  apply SN. nra.
Qed.
Print Assumptions C89_common_window_refuted.
