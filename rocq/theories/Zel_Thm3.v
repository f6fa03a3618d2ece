(** Property C89, continued: the default interpolation, and a case. Vocabulary in Zel_Spec.v. *)
Require Import Reals Lra Lia ZArith List Permutation Bool String.
From Verif Require Import Base Vec3 Isometry_Model Rsd_Model Rsd_Spec Density_Proof Mock_Model Mock_Spec Fourier_Proof Mock_Thm Mock_Thm2 Interlace_Thm Mesh_Thm Ens_Spec Ens_Proof Ens_Thm Ens_Thm2 Zel_Spec Zel_Proof Zel_Proof2 Zel_Thm Zel_Thm2.
Import ListNotations.
Open Scope R_scope.

Lemma linear1_sum : forall n u, (2 <= n)%nat -> Rsum (map (linear1 n u) (seq 0 n)) = 1.
Proof.
  intros n u L. destruct n as [|[|m] ]; try lia. change (seq 0 (S (S m))) with (0%nat :: seq 1 (S m)). rewrite seq_S. cbn [map]. rewrite map_app.
  change (Rsum (linear1 (S (S m)) u 0 :: map (linear1 (S (S m)) u) (seq 1 m) ++ map (linear1 (S (S m)) u) [(1 + m)%nat]) = 1).
  assert (Z : forall l, (forall z, In z l -> (0 < z < S m)%nat) -> Rsum (map (linear1 (S (S m)) u) l) = 0).
  { induction l as [|z l IH]; intros H; auto. unfold Rsum in *. cbn [map fold_right]. rewrite IH by (intros; apply H; right; auto). specialize (H z (or_introl eq_refl)). unfold linear1. destruct (Nat.eqb_spec z 0); [lia|]. destruct (Nat.eqb_spec z (S (S m) - 1)); [lia|]. ring. }
  change (linear1 (S (S m)) u 0 + Rsum (map (linear1 (S (S m)) u) (seq 1 m) ++ map (linear1 (S (S m)) u) [(1 + m)%nat]) = 1). rewrite Rsum_app, Z by (intros z I0; apply in_seq in I0; lia).
  unfold Rsum. cbn [map fold_right]. unfold linear1. cbn [Nat.eqb]. destruct (Nat.eqb_spec (1 + m) 0); [lia|]. destruct (Nat.eqb_spec (1 + m) (S (S m) - 1)); [ring|lia].
Qed.
Lemma linear1_pos : forall n u z, 0 <= u < 1 -> 0 <= linear1 n u z.
Proof. intros n u z U. unfold linear1. destruct (Nat.eqb z 0); [lra|]. destruct (Nat.eqb z (n - 1)); lra. Qed.
Lemma linear1_even : forall n u z, (2 <= n)%nat -> (z < n)%nat -> linear1 n (1 - u) (n - 1 - z) = linear1 n u z.
Proof.
  intros n u z N Z0. unfold linear1. destruct (Nat.eqb_spec z 0) as [->|A].
  - destruct (Nat.eqb_spec (n - 1 - 0) 0); [lia|]. destruct (Nat.eqb_spec (n - 1 - 0) (n - 1)); [auto|lia].
  - destruct (Nat.eqb_spec z (n - 1)) as [->|B].
    + destruct (Nat.eqb_spec (n - 1 - (n - 1)) 0); [ring|lia].
    + destruct (Nat.eqb_spec (n - 1 - z) 0); [lia|]. destruct (Nat.eqb_spec (n - 1 - z) (n - 1)); [lia|auto].
Qed.
Lemma linear1_near : forall n u z, (2 <= n)%nat -> 0 <= u < 1 -> linear1 n u z <> 0 -> near n 1 u z.
Proof.
  intros n u z N U H. unfold linear1 in H. destruct (Nat.eqb_spec z 0) as [->|A]; [exists 0%Z; cbn [INR]; replace (u + 0 - 0 * INR n) with u by ring; rewrite Rabs_right; lra|].
  destruct (Nat.eqb_spec z (n - 1)) as [->|B]; [|lra]. exists 1%Z. rewrite minus_INR by lia. cbn [INR]. replace (u + (INR n - 1) - 1 * INR n) with (u - 1) by ring. apply Rabs_le. lra.
Qed.
(** C89. The default interpolation of displacements, linear along each axis, has all these properties on meshes of two cells or more. *)
Theorem C89_linear : forall n, (2 <= ix n)%nat -> (2 <= iy n)%nat -> (2 <= iz n)%nat -> interpolation n (linear n) /\ even_weights n (linear n) /\ local n 1 (linear n).
Proof.
  intros n N1 N2 N3. split; [|split].
  - intros u (U1 & U2 & U3). cbn [vx vy vz] in *. split; [intros z _; unfold linear; repeat apply Rmult_le_pos; apply linear1_pos; auto|].
    assert (C : forall m v, (2 <= m)%nat -> csum (map (fun z => creal (linear1 m v z)) (seq 0 m)) = C1).
    { intros m v M. apply cplx_eq; [rewrite csum_re|rewrite csum_im]; cbn [creal re im C1]; [apply linear1_sum; auto|]. clear. unfold Rsum. induction (seq 0 m); cbn; lra. }
    pose proof (csum_cells n (fun z => creal (linear1 (ix n) (vx u) z)) (fun z => creal (linear1 (iy n) (vy u) z)) (fun z => creal (linear1 (iz n) (vz u) z))) as Q. rewrite !C in Q by auto. apply (f_equal re) in Q. rewrite csum_re in Q.
    rewrite (Rsum_map_ext _ (fun x => re (cmul (creal (linear1 (ix n) (vx u) (ix x))) (cmul (creal (linear1 (iy n) (vy u) (iy x))) (creal (linear1 (iz n) (vz u) (iz x))))))) by (intros; cbn; unfold linear; ring). rewrite Q. cbn. ring.
  - intros u z (Z1 & Z2 & Z3). unfold linear, flipped, mirror, vsub. cbn [vx vy vz ix iy iz]. rewrite !linear1_even by auto. auto.
  - intros u z (U1 & U2 & U3) _ H. cbn [vx vy vz] in *. unfold linear in H. repeat split; apply linear1_near; auto; intro Z; apply H; rewrite Z; ring.
Qed.
Print Assumptions C89_linear.

(** ** A case: a wave of four cells, numbers drawn all in one cell, objects at a quarter or three quarters of the cell *)
Definition case_n : idx := I 4 2 2.
Definition case_box : vec := V 4 2 2.
Definition case_dk (k : idx) : cplx := if (Nat.eqb (iy k) 0 && Nat.eqb (iz k) 0 && (Nat.eqb (ix k) 1 || Nat.eqb (ix k) 3))%bool then Cx (1 / 2) 0 else Cx 0 0.
Definition case_d (e : R) (x : idx) : R := c2r case_n (fun k => cscale e (case_dk k)) x.
Definition case_E (e : R) (f : idx -> R) : R := Rsum (map (fun x => (1 + case_d e x) / 16 * f x) (cells case_n)).
Definition case_poisson (s : idx) (l : list R) : list nat := map (fun i => if Nat.eqb i (cell_id case_n s) then 16%nat else 0%nat) (seq 0 (List.length l)).
Definition case_E' (f : bool -> R) : R := (f true + f false) / 2.
Definition case_uniform (t : bool) (m : nat) : list vec := repeat (if t then V (1 / 4) (1 / 4) (1 / 4) else V (3 / 4) (3 / 4) (3 / 4)) m.
(** Reading a field at a position: cell and position in it. *)
Definition low (o c p : R) : nat := Z.to_nat (Rfloor ((p - o) / c)).
Definition part (o c p : R) : R := (p - o) / c - IZR (Rfloor ((p - o) / c)).
Definition reading (box center : vec) (n : idx) (weight : vec -> idx -> R) (field : idx -> R) (p : vec) : R :=
  let o := lower box center in let c := diagonal box n in
  let x := I (low (vx o) (vx c) (vx p)) (low (vy o) (vy c) (vy p)) (low (vz o) (vz c) (vz p)) in
  let u := V (part (vx o) (vx c) (vx p)) (part (vy o) (vy c) (vy p)) (part (vz o) (vz c) (vz p)) in
  Rsum (map (fun z => weight u z * field (before n x z)) (cells n)).
Lemma low_part : forall o c (i : nat) u, 0 < c -> 0 <= u < 1 -> low o c (o + INR i * c + u * c) = i /\ part o c (o + INR i * c + u * c) = u.
Proof.
  intros o c i u C U. assert (Q : (o + INR i * c + u * c - o) / c = IZR (Z.of_nat i) + u) by (rewrite <- INR_IZR_INZ; field; lra).
  assert (F : Rfloor (IZR (Z.of_nat i) + u) = Z.of_nat i) by (apply Rfloor_unique; lra). unfold low, part. rewrite Q, F. split; [apply Nat2Z.id|ring].
Qed.
Lemma reading_reads : forall box center n weight field, solid box -> nonempty n -> reads box center n weight field (reading box center n weight field).
Proof.
  intros box center n weight field (B1 & B2 & B3) (N1 & N2 & N3) x v X (V1 & V2 & V3). cbn [vx vy vz] in *. unfold reading. cbv zeta. unfold node, lower, diagonal, vadd, vmul. cbn [vx vy vz].
  assert (P : forall b m, 0 < b -> (0 < m)%nat -> 0 < b / INR m) by (intros b m B M; apply Rdiv_lt_0_compat; auto; apply lt_0_INR; auto).
  destruct (low_part (vx center - vx box / 2) _ (ix x) (vx v) (P _ _ B1 N1) V1) as [-> ->]. destruct (low_part (vy center - vy box / 2) _ (iy x) (vy v) (P _ _ B2 N2) V2) as [-> ->]. destruct (low_part (vz center - vz box / 2) _ (iz x) (vz v) (P _ _ B3 N3) V3) as [-> ->].
  destruct x, v. reflexivity.
Qed.
Definition case_readout (e : R) (i : nat) : vec -> R := reading case_box vzero case_n (linear case_n) (displacement signed case_box case_n (fun k => cscale e (case_dk k)) i).
Definition case_sample (e : R) (s : idx) (t : bool) : result (list vec * list vec) :=
  lagrangian_sample case_box vzero case_n (case_d e) (fun _ => 1) (case_poisson s) [cells case_n] (case_uniform t) (case_readout e).
Definition case_pos e s t := match case_sample e s t with Ok (p, _) => p | Err _ => [] end.
Definition case_disps e s t := match case_sample e s t with Ok (_, p) => p | Err _ => [] end.
Definition case_out e s t := match lagrangian_set_rsd (case_pos e s t) (case_disps e s t) (FNum 1) (Some (AxStr "x")) with Ok o => o | Err _ => [] end.

Lemma case_value : forall e x, case_d e x = e * (1 / 2 * cos (phase case_n (I 1 0 0) x) + 1 / 2 * cos (phase case_n (I 3 0 0) x)).
Proof. intros e x. unfold case_d, c2r, case_dk, case_n, cells. cbn -[phase]. unfold Rsum. cbn -[phase]. ring. Qed.
Lemma case_bound : forall e x, Rabs e <= 1 / 2 -> 1 / 2 <= 1 + case_d e x.
Proof.
  intros e x L. rewrite case_value. pose proof (COS_bound (phase case_n (I 1 0 0) x)). pose proof (COS_bound (phase case_n (I 3 0 0) x)). set (v := 1 / 2 * cos _ + 1 / 2 * cos _). assert (B : Rabs v <= 1) by (apply Rabs_le; unfold v; lra).
  assert (Q : Rabs (e * v) <= 1 / 2) by (rewrite Rabs_mult; pose proof (Rabs_pos e); pose proof (Rabs_pos v); nra). apply Rabs_le_inv in Q. lra.
Qed.
Lemma case_total : forall e, Rsum (map (case_d e) (cells case_n)) = 0.
Proof. intro e. unfold case_d. rewrite sum_c2r by (repeat split; cbn; lia). cbn. ring. Qed.
Lemma case_expectation : forall e, expectation (case_E e).
Proof.
  intro e. unfold case_E. repeat split.
  - rewrite (Rsum_map_ext _ (fun x => 1 / 16 + / 16 * case_d e x)) by (intros; field). rewrite Rsum_add, Rsum_scale, case_total. unfold Rsum. cbn. field.
  - intros f g. rewrite <- Rsum_add. apply Rsum_map_ext. intros; ring.
  - intros a f. rewrite <- Rsum_scale. apply Rsum_map_ext. intros; ring.
  - intros f g H. apply Rsum_map_ext. intros; rewrite H; auto.
Qed.
Lemma case_numbers : forall e, mean_numbers (case_E e) case_poisson (means case_box case_n (case_d e) (fun _ => 1)).
Proof.
  intros e i L. set (M := means case_box case_n (case_d e) (fun _ => 1)) in *. assert (LM : List.length M = 16%nat) by reflexivity. rewrite LM in L.
  assert (Q : forall s, INR (nth i (case_poisson s M) 0%nat) = if Nat.eqb i (cell_id case_n s) then 16 else 0).
  { intro s. unfold case_poisson. rewrite LM. rewrite (nth_indep _ 0%nat (if Nat.eqb 0 (cell_id case_n s) then 16%nat else 0%nat)) by (rewrite map_length, seq_length; auto).
    rewrite (map_nth (fun i => if Nat.eqb i (cell_id case_n s) then 16%nat else 0%nat) (seq 0 16) 0%nat i), seq_nth by auto. cbn [Nat.add]. destruct (Nat.eqb i (cell_id case_n s)); cbn; lra. }
  unfold case_E. rewrite (Rsum_map_ext _ (fun x => (1 + case_d e x) / 16 * (if Nat.eqb i (cell_id case_n x) then 16 else 0))) by (intros; rewrite Q; auto).
  unfold M, means. generalize (case_d e). intro g. unfold case_n, case_box, cells, cell_id. cbn -[Nat.eqb INR]. unfold Rsum. do 16 (destruct i as [|i]; [cbn [Nat.eqb fold_right nth INR Nat.mul Nat.add]; field|]). lia.
Qed.
Lemma case_ok : forall e s t, Rabs e <= 1 / 2 -> case_sample e s t = Ok (case_pos e s t, case_disps e s t) /\
  lagrangian_set_rsd (case_pos e s t) (case_disps e s t) (FNum 1) (Some (AxStr "x")) = Ok (case_out e s t).
Proof.
  intros e s t L. assert (Q : exists p q, case_sample e s t = Ok (p, q) /\ List.length q = List.length p).
  { destruct (proj2 (C39_negative_density case_box vzero case_n (case_d e) (fun _ => 1) (case_poisson s) [cells case_n] (case_uniform t) ltac:(repeat split; cbn; lra) ltac:(repeat split; cbn; lia))) as [p P].
    - intros x _. pose proof (case_bound e x L). lra.
    - unfold case_sample, lagrangian_sample. rewrite P. cbn [bind]. eexists _, _. split; [reflexivity|]. rewrite !map_length. auto. }
  destruct Q as (p & q & Q & LN). unfold case_out, case_pos, case_disps. rewrite Q. split; auto. destruct (C41_rsd_fixed p q 1 (AxStr "x") (V 1 0 0) LN lm_x) as (o & O & _). rewrite O. auto.
Qed.
Example C89_case : exists slope, slope <> Cx 0 0 /\
  first_order (1 / 2) (fun e => cscale (/ (1 * volume case_box)) (cmean (case_E e) (fun s => cmean case_E' (fun t => catalog_mode (wave signed case_box case_n (I 1 0 0)) (lower case_box vzero) (case_out e s t))))) slope.
Proof.
  assert (AV : average case_E'). { split; [unfold case_E'; repeat split; intros; try field; rewrite !H; auto|]. intros f H. unfold case_E'. pose proof (H true). pose proof (H false). lra. }
  assert (ST : forall t, stream (case_uniform t)). { intros t m. unfold case_uniform. split; [apply repeat_length|]. intros v I0. apply repeat_spec in I0. subst. destruct t; repeat split; cbn; lra. }
  assert (SB : solid case_box) by (repeat split; cbn; lra). assert (NE : nonempty case_n) by (repeat split; cbn; lia). assert (K : within case_n (I 1 0 0)) by (repeat split; cbn; lia).
  assert (NTH : forall t m i, (i < m)%nat -> nth i (case_uniform t m) vzero = if t then V (1 / 4) (1 / 4) (1 / 4) else V (3 / 4) (3 / 4) (3 / 4)).
  { intros t m i L. unfold case_uniform. revert i L. induction m as [|m IH]; intros i L; [lia|]. destruct i; cbn; auto. apply IH. lia. }
  assert (SL : same_law case_E' case_uniform). { intros m i g L. unfold case_E'. rewrite !NTH by (auto; lia). auto. }
  assert (EL : even_law case_E' case_uniform). { intro g. unfold case_E', case_uniform. cbn [repeat nth]. unfold flipped, vsub. cbn [vx vy vz]. replace (1 - 1 / 4) with (3 / 4) by field. replace (1 - 3 / 4) with (1 / 4) by field. field. }
  destruct (C89_linear case_n ltac:(cbn; lia) ltac:(cbn; lia) ltac:(cbn; lia)) as (IP & EW & _).
  assert (W : wave signed case_box case_n (I 1 0 0) = V (PI / 2) 0 0). { unfold wave, signed, case_box, case_n. cbn. f_equal; field. }
  assert (NZ : wave signed case_box case_n (I 1 0 0) <> vzero). { rewrite W. intro Z. apply (f_equal vx) in Z. cbn in Z. pose proof PI_RGT_0. lra. }
  assert (HM : hermitian case_n case_dk).
  { intros k K0. apply cells_In in K0. cbn in K0. repeat (destruct K0 as [<-|K0]; [apply cplx_eq; cbn; lra|]). destruct K0. }
  pose proof (C89_first_order case_E case_E' signed (fun _ _ => false) case_box vzero case_n case_dk None 1 false 1 (AxStr "x") (V 1 0 0) 1 case_poisson [cells case_n] case_uniform (linear case_n) case_readout (1 / 2) case_d case_pos case_disps case_out (I 1 0 0)
    (fun e _ => case_expectation e) AV signed_proper SB ltac:(lra) HM (or_introl (Logic.conj eq_refl eq_refl)) lm_x ltac:(cbn [List.concat]; rewrite app_nil_r; auto) ST SL IP (fun e i _ _ => reading_reads case_box vzero case_n (linear case_n) _ SB NE)
    (fun e _ => eq_refl) (fun e _ => case_numbers e) (fun e s t L => proj1 (case_ok e s t L)) (fun e s t L => proj2 (case_ok e s t L)) K ltac:(repeat split; cbn; lia) NZ) as Q. cbv zeta in Q.
  eexists. split; [|exact Q]. intro Z. apply (f_equal im) in Z. cbn [cadd cscale cmul im re] in Z.
  destruct (C89_half_cell case_E' case_uniform signed case_box case_n (linear case_n) (I 1 0 0) AV signed_proper SB K EW EL) as [P I2]. rewrite I2, P in Z. rewrite W in Z. cbn in Z.
  replace (case_E' _) with (cos (PI / 8)) in Z.
  - pose proof PI_RGT_0. assert (0 < cos (PI / 8)) by (apply cos_gt_0; lra). assert (0 < sin (PI / 4)) by (apply sin_gt_0; lra).
    replace (vdot (V (PI / 2) 0 0) (diagonal case_box case_n) / 2) with (PI / 4) in Z by (unfold vdot, diagonal, case_box, case_n; cbn; field). assert (0 < cos (PI / 8) * sin (PI / 4)) by (apply Rmult_lt_0_compat; auto). nra.
  - unfold case_E', case_uniform. cbn [repeat nth]. unfold vdot, vmul, diagonal, case_box, case_n. cbn.
    match goal with |- _ = (cos ?a + cos ?b) / 2 => replace a with (- (PI / 8)) by field; replace b with (PI / 8) by field end.
    rewrite cos_neg. field.
Qed.
