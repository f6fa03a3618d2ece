(** C62, continued: units, range, narrow distributions. *)
Require Import Reals Lra Lia ZArith String List Bool Sorting.Sorted.
From Verif Require Import Base Cutsky_Model Box_Model Mask_Model Sample_Model Smear_Model Smear_Spec Density_Proof Mask_Proof Smear_Proof Smear_Thm Blind_Thm2 Tracer_Model Tracer_Spec Tracer_Thm Tracer_Thm2.
From Verif Require Dist_Thm.
Import ListNotations.
Open Scope R_scope.

Lemma tracer_transform : forall sp read w tracer fn unc m, tracer_smearing sp read w tracer fn unc = Ok m -> m_transform m = dztransform tracer unc.
Proof.
  intros sp read w tracer fn unc m H. unfold tracer_smearing in H. destruct (tracer_rvs read w tracer fn unc) as [[[[z [b g]] [w1 w2]] tr]|] eqn:E; [|discriminate]. cbn [bind] in H.
  assert (ET : tr = dztransform tracer unc).
  { unfold tracer_rvs in E. destruct (match fn with None => _ | Some fn => _ end) as [fn'|]; [|discriminate]. cbn [bind] in E. destruct (map_result read fn') as [files|]; [|discriminate]. cbn [bind] in E.
    destruct (merge files) as [t|]; [|discriminate]. cbn [bind] in E. destruct (map_result (row_laws w tracer unc) t); [|discriminate]. cbn [bind] in E. cbv zeta in E. injection E as _ _ _ _ _ <-. auto. }
  destruct (dzscale tracer unc); [|discriminate]. cbn [bind] in H. destruct (rvs_smear sp z b _ _ _ tr) as [m1|] eqn:E1; [|discriminate]. cbn [bind] in H. destruct (rvs_smear sp z g _ _ _ tr) as [m2|]; [|discriminate]. cbn [bind] in H.
  unfold rvs_smear in E1. destruct (rvs_table _ _ _ _) as [[[dz u] sup]|]; [|discriminate]. cbn [bind] in E1. apply set_interp_inv in E1. destruct E1 as (_ & _ & _ & _ & E1 & _).
  unfold average in H. cbv zeta in H. destruct (existsb _ _); [discriminate|]. destruct (forallb _ _); [|discriminate]. apply set_interp_inv in H. destruct H as (_ & _ & _ & _ & H & _). cbn in *. congruence.
Qed.
Lemma transform_error : forall tracer unc z v, -1 < z -> exists dz, dztransform tracer unc z (Fin v) = Fin dz /\ is_error tracer unc z v dz.
Proof.
  intros tracer unc z v Z1. unfold dztransform, is_error, quasar_statistical, kms, light_speed. destruct (_ && _) eqn:E.
  - apply andb_prop in E. rewrite !String.eqb_eq in E. cbn [scale_ext]. eexists. split; [reflexivity|]. split; [intros _; field; lra|intros C; contradiction].
  - cbn [scale_ext]. eexists. split; [reflexivity|]. split; [|intros _; field; lra]. intros [-> ->]. discriminate.
Qed.
(** Redshift errors are velocities in the units of the table. *)
Theorem C62_units : forall sp read w tracer fn unc m u z v, tracer_smearing sp read w tracer fn unc = Ok m -> -1 < z -> m_support m (interp_ppf m u z) = Fin v ->
  exists dz, ppf m u z = Fin dz /\ is_error tracer unc z v dz.
Proof. intros sp read w tracer fn unc m u z v H Z1 E. unfold ppf. rewrite E, (tracer_transform _ _ _ _ _ _ _ H). apply transform_error; auto. Qed.
Print Assumptions C62_units.

(** At a tabulated redshift, when the mixture takes at a tabulated velocity one of the tabulated probabilities, the error of that probability
    is the one of that velocity. *)
Theorem C62_quantiles : forall sp read w tracer fn unc z b g w1 w2 tr m j i k v p, cubic_spline sp -> scipy_laws w -> known tracer unc -> all_sound read tracer unc ->
  tracer_rvs read w tracer fn unc = Ok (z, (b, g), (w1, w2), tr) -> tracer_smearing sp read w tracer fn unc = Ok m -> (j < length z)%nat -> -1 < nth j z 0 ->
  inner i -> node tracer unc i v -> p = nth j w1 0 * rv_cdf (nth j b no_law) (Fin v) + nth j w2 0 * rv_cdf (nth j g no_law) (Fin v) -> midway p -> inner k -> p = INR k / 9999 ->
  exists dz, ppf m p (nth j z 0) = Fin dz /\ is_error tracer unc (nth j z 0) v dz.
Proof.
  intros sp read w tracer fn unc z b g w1 w2 tr m j i k v p SP SL K SO H HM J ZJ I NV EP MP IK EK.
  pose proof (C62_mixture sp read w tracer fn unc z b g w1 w2 tr m SL K SO H HM) as (MZ & LC & LD & MIX). destruct (MIX j J) as (PC & L1 & NODES). destruct (NODES i I) as (v' & NV' & SV & VAL). rewrite (node_unique _ _ _ _ _ NV' NV) in *. clear v' NV'.
  assert (S0 : exists m0, set_interp sp m0 = Ok m /\ exists lo hi, ends lo hi /\ forall c, In c (m_dz m) -> c = grid_of lo hi dzsize).
  { destruct b as [|b0 brest] eqn:EB0.
    { exfalso. unfold tracer_smearing in HM. rewrite H in HM. cbn [bind] in HM. destruct (dzscale tracer unc); [|discriminate]. cbn [bind] in HM. unfold rvs_smear at 1 in HM. cbn [rvs_table bind] in HM. discriminate. }
    rewrite <- EB0 in *. assert (NB : b <> []) by (subst b; discriminate). clear EB0.
    destruct (tracer_parts sp read w tracer fn unc z b g w1 w2 tr SL K SO H NB) as (lo & hi & s & EN & PS & _ & _ & _ & _ & _ & _ & _ & _ & EQ). rewrite EQ in HM.
    destruct (set_interp sp (Smear (map (fun _ => grid_of lo hi dzsize) b) _ _ _ _ _ _)) as [m1|] eqn:E1; [|discriminate]. cbn [bind] in HM.
    destruct (set_interp sp (Smear (map (fun _ => grid_of lo hi dzsize) g) _ _ _ _ _ _)) as [m2|] eqn:E2; [|discriminate]. cbn [bind] in HM.
    unfold average in HM. cbv zeta in HM. destruct (existsb _ _); [discriminate|]. destruct (forallb _ _); [|discriminate]. eexists. split; [exact HM|]. exists lo, hi. split; auto. intros c IC.
    apply set_interp_inv in HM. destruct HM as (-> & _) in IC. cbn [m_dz] in IC. apply set_interp_inv in E1. destruct E1 as (-> & _) in IC. cbn [m_dz] in IC. apply in_map_iff in IC. destruct IC as (? & <- & _). auto. }
  destruct S0 as (m0 & HS & lo & hi & EN & CG). assert (N : (2 <= dzsize)%nat) by (unfold dzsize; lia). assert (NN : INR (dzsize - 1) = 9999) by (unfold dzsize; rewrite INR_IZR_INZ; f_equal; lia).
  assert (GJ : nth j (m_dz m) [] = grid_of lo hi dzsize) by (apply CG; apply nth_In; lia).
  assert (HD : length (hd [] (m_dz m)) = dzsize). { destruct (m_dz m) as [|c l] eqn:EM; [cbn in LD; lia|]. cbn. rewrite (CG c (or_introl eq_refl)). apply grid_length. }
  assert (LJ : length (nth j (m_cdf m) []) = dzsize) by (apply INR_eq; rewrite L1; unfold dzsize; rewrite INR_IZR_INZ; f_equal; lia).
  assert (II : (i < dzsize)%nat) by (apply INR_lt; apply Rlt_trans with 9999; [apply I|]; rewrite <- NN; apply lt_INR; lia).
  assert (KK : (k < dzsize)%nat) by (apply INR_lt; apply Rlt_trans with 9999; [apply IK|]; rewrite <- NN; apply lt_INR; lia).
  rewrite <- MZ in ZJ |- *. rewrite (C36_quantiles sp m0 m j k (nth i (nth j (m_dz m) []) 0) p SP HS); auto.
  - rewrite SV, (tracer_transform _ _ _ _ _ _ _ HM). apply transform_error; auto.
  - rewrite MZ; auto.
  - lia.
  - rewrite GJ, grid_length. lia.
  - replace p with (nth i (nth j (m_cdf m) []) 0) by congruence. rewrite <- combine_nth by (rewrite GJ, grid_length; lia). apply nth_In. rewrite combine_length, GJ, grid_length, LJ. lia.
  - rewrite HD. auto.
  - rewrite HD, NN. auto.
  - rewrite GJ. assert (RG : rising (grid_of lo hi dzsize)) by (apply grid_rising; auto). apply rising_increasing in RG. assert (IN : In (nth i (grid_of lo hi dzsize) 0) (grid_of lo hi dzsize)) by (apply nth_In; rewrite grid_length; auto).
    split; [apply sorted_ge_head; auto|apply sorted_le_last; auto].
Qed.
Print Assumptions C62_quantiles.

(** At the tabulated probabilities errors are within the truncation of the tracer, at any redshift. Missing: between them the cubic spline may
    go beyond (C36_sample_range_refuted). *)
Theorem C62_truncation_partial : forall sp read w tracer fn unc m b z i, cubic_spline sp -> scipy_laws w -> known tracer unc -> all_sound read tracer unc -> tracer_smearing sp read w tracer fn unc = Ok m ->
  truncation tracer unc b -> -1 < z -> INR i <= 9999 ->
  exists v dz, ppf m (INR i / 9999) z = Fin dz /\ is_error tracer unc z v dz /\ - b <= v <= b.
Proof.
  intros sp read w tracer fn unc m B z i SP SL K SO HM TB ZJ I. assert (NN : INR (dzsize - 1) = 9999) by (unfold dzsize; rewrite INR_IZR_INZ; f_equal; lia).
  assert (II : (i < dzsize)%nat) by (apply INR_lt; apply Rle_lt_trans with 9999; [apply I|]; rewrite <- NN; apply lt_INR; unfold dzsize; lia).
  assert (Q : exists v, m_support m (interp_ppf m (INR i / 9999) z) = Fin v /\ - B <= v <= B).
  { pose proof HM as HM0. unfold tracer_smearing in HM0. destruct (tracer_rvs read w tracer fn unc) as [[[[zs [b g]] [w1 w2]] tr]|] eqn:H; [|discriminate]. cbn [bind] in HM0.
    destruct b as [|b0 brest] eqn:EB0.
    { exfalso. destruct (dzscale tracer unc); [|discriminate]. cbn [bind] in HM0. unfold rvs_smear at 1 in HM0. cbn [rvs_table bind] in HM0. discriminate. }
    rewrite <- EB0 in *. assert (NB : b <> []) by (subst b; discriminate). clear EB0 HM0.
    destruct (tracer_parts sp read w tracer fn unc zs b g w1 w2 tr SL K SO H NB) as (lo & hi & s & EN & PS & LB & _ & _ & _ & _ & _ & _ & EC & EQ). rewrite EQ in HM.
    destruct EC as [([-> ->] & _)|(_ & TS & -> & ->)]; [exfalso; destruct TB as [(_ & C & _)|[(C & _)|([C|C] & _)]]; discriminate|].
    assert (ES : s = B). { clear - TS TB. destruct TS as [(-> & -> & ->)|[(-> & ->)|([-> | ->] & ->)]]; destruct TB as [(C & D & ->)|[(C & ->)|([C|C] & ->)]]; auto; discriminate. }
    subst s. cbn [grid_of support_of] in HM. set (grid := linspace (- B) B dzsize) in *.
    destruct (set_interp sp (Smear (map (fun _ => grid) b) _ _ _ _ _ _)) as [m1|] eqn:E1; [|discriminate]. cbn [bind] in HM.
    destruct (set_interp sp (Smear (map (fun _ => grid) g) _ _ _ _ _ _)) as [m2|] eqn:E2; [|discriminate]. cbn [bind] in HM.
    unfold average in HM. cbv zeta in HM. destruct (existsb _ _); [discriminate|]. destruct (forallb _ _); [|discriminate].
    apply set_interp_inv in E1. destruct E1 as (D1 & Z1 & _ & S1 & _). cbn [m_dz m_z m_support] in *.
    apply set_interp_inv in HM. cbv zeta in HM. destruct HM as (ED & EZ & ECD & ES & ET & FT & FS & LZ & LT & SZ). cbn [m_dz m_z m_cdf m_support m_transform] in *. rewrite D1 in *. rewrite S1 in *.
    assert (HD : length (hd [] (map (fun _ : rv => grid) b)) = dzsize) by (destruct b; [congruence|]; cbn; apply linspace_length). rewrite HD in *.
    rewrite ES. eexists. split; [reflexivity|]. unfold interp_ppf. rewrite EZ. assert (FL : length (m_table m) = length (m_spline m)) by (clear - FS; induction FS; cbn; auto).
    apply lin_inside; auto.
    - rewrite map_length. lia.
    - apply clip_range. apply sorted_ends; auto. lia.
    - apply Forall_forall. intros v IV. apply in_map_iff in IV. destruct IV as [f [<- IV]]. destruct (In_nth _ _ (fun _ => 0) IV) as (j & Hj & <-).
      pose proof (forall2_nth _ _ _ [] (fun _ => 0) j FS ltac:(lia)) as QS. destruct SP as [SP _]. destruct (SP _ _ _ QS) as (_ & LL & _ & PT). rewrite linspace_length in LL, PT.
      specialize (PT i II). rewrite linspace_nth in PT by auto. rewrite NN in PT. replace (0 + (1 - 0) * (INR i / 9999)) with (INR i / 9999) in PT by ring. rewrite PT.
      pose proof (f2_length _ _ _ FT) as LFT. pose proof (forall2_nth _ _ _ ([], []) [] j FT ltac:(lia)) as T. cbv beta in T. apply ppf_column_inv in T. destruct T as (LTT & RR & _).
      assert (GC : fst (nth j (combine (map (fun _ : rv => grid) b) (m_cdf m)) ([], [])) = grid).
      { rewrite <- ECD in LFT. assert (CC : forall c, In c (combine (map (fun _ : rv => grid) b) (m_cdf m)) -> fst c = grid).
        { intros [x y] IN. apply in_combine_l in IN. apply in_map_iff in IN. destruct IN as (? & <- & _). auto. }
        apply CC. apply nth_In. lia. }
      rewrite <- ECD in RR. rewrite GC in RR. assert (G0 : hd 0 grid = - B). { transitivity (nth 0 grid 0); [destruct grid; auto|]. apply linspace_first. unfold dzsize; lia. }
      assert (G1 : last grid 0 = B) by (apply linspace_last; unfold dzsize; lia). rewrite G0, G1 in RR. specialize (RR ltac:(lra)). rewrite Forall_forall in RR. apply RR. apply nth_In. rewrite LTT, linspace_length. auto. }
  destruct Q as (v & EV & BV). destruct (C62_units _ _ _ _ _ _ _ _ _ _ HM ZJ EV) as (dz & E1 & E2). exists v, dz. auto.
Qed.
Print Assumptions C62_truncation_partial.

(* ---------- laws that meet the contract ---------- *)
Definition knot_law (x p : list R) : rv :=
  RV (Fin (hd 0 x)) (Fin (last x 0)) (fun e => match e with Fin t => lin x p (Rclip t (hd 0 x) (last x 0)) | PInf => 1 | _ => 0 end) (fun q => Fin (lin p x (Rclip q 0 1))).
Lemma lin_ends : forall x y, sorted x -> length x = length y -> (2 <= length x)%nat -> lin x y (hd 0 x) = hd 0 y /\ lin x y (last x 0) = last y 0.
Proof.
  intros x y SX L N. split; apply lin_knot; auto.
  - destruct x, y; try discriminate; [cbn in N; lia|]. left. auto.
  - rewrite !last_nth. rewrite <- L. rewrite <- combine_nth by auto. apply nth_In. rewrite combine_length. lia.
Qed.
Lemma lin_le : forall x y t u, sorted x -> sorted y -> length x = length y -> hd 0 x <= t -> t <= u -> u <= last x 0 -> lin x y t <= lin x y u.
Proof. intros x y t u SX SY L T TU U. destruct TU as [TU| ->]; [left; apply Dist_Thm.lin_strict; auto|lra]. Qed.
Lemma clip_mono : forall a b lo hi, a <= b -> Rclip a lo hi <= Rclip b lo hi.
Proof. intros. unfold Rclip, Rmin, Rmax. repeat destruct Rle_dec; lra. Qed.
Lemma knot_strict : forall x p, sorted x -> sorted p -> length x = length p -> (2 <= length x)%nat -> hd 0 p = 0 -> last p 0 = 1 -> strict_rv (knot_law x p).
Proof.
  intros x p SX SP L N P0 P1. destruct (lin_ends x p SX L N) as [X0 X1]. destruct (lin_ends p x SP ltac:(auto) ltac:(lia)) as [Q0 Q1]. pose proof (sorted_ends x SX ltac:(lia)) as HL.
  assert (HX : hd 0 x < last x 0). { destruct x as [|a [|b x]]; cbn in N; try lia. change (a < last (b :: x) 0). apply sorted_cons in SX. destruct SX as [A1 A2]. pose proof (sorted_last x b A2). lra. }
  unfold strict_rv, proper_rv, knot_law. cbn [rv_low rv_high rv_cdf rv_ppf]. rewrite (clip_id 0 0 1), (clip_id 1 0 1) by lra. rewrite (clip_id (hd 0 x) (hd 0 x) (last x 0)), (clip_id (last x 0) (hd 0 x) (last x 0)) by lra. rewrite P0 in Q0. rewrite P1 in Q1. rewrite X0, X1, Q0, Q1, P0, P1.
  assert (RNG : forall t, 0 <= lin x p (Rclip t (hd 0 x) (last x 0)) <= 1).
  { intros t. pose proof (clip_range t (hd 0 x) (last x 0) HL) as [C0 C1]. split; [apply Rle_trans with (lin x p (hd 0 x)); [lra|]|apply Rle_trans with (lin x p (last x 0)); [|lra]]; apply lin_le; auto; lra. }
  repeat split; auto; try lra; try discriminate.
  - intros [a| | |] [b| | |] E; cbn in E; try contradiction; try lra; try (apply RNG). pose proof (clip_range a (hd 0 x) (last x 0) HL). pose proof (clip_range b (hd 0 x) (last x 0) HL). apply lin_le; auto; try lra. apply clip_mono; auto.
  - intros a b A1 A2. cbn. rewrite !clip_id by lra. apply lin_le; auto; lra.
  - intros C. injection C as C. lra.
  - intros a b A1 A2 NE A3. destruct a as [a| | |], b as [b| | |]; cbn in A1, A2, A3; try contradiction. rewrite !clip_id by lra. apply Dist_Thm.lin_strict; auto. destruct A2 as [A2| ->]; [auto|congruence].
Qed.
Definition logistic (m s : R) : rv :=
  RV MInf PInf (fun e => match e with Fin t => / (1 + exp (- (t - m) / s)) | PInf => 1 | _ => 0 end)
     (fun q => if Rle_dec q 0 then MInf else if Rle_dec 1 q then PInf else Fin (m + s * ln (q / (1 - q)))).
Lemma logistic_strict : forall m s, 0 < s -> strict_rv (logistic m s).
Proof.
  intros m s PS. assert (B : forall t, 0 < / (1 + exp (- (t - m) / s)) < 1).
  { intros t. pose proof (exp_pos (- (t - m) / s)) as E. split; [apply Rinv_0_lt_compat; lra|]. rewrite <- Rinv_1. apply Rinv_lt_contravar; lra. }
  assert (ST : forall a b, a < b -> / (1 + exp (- (a - m) / s)) < / (1 + exp (- (b - m) / s))).
  { intros a b AB. pose proof (exp_pos (- (a - m) / s)). pose proof (exp_pos (- (b - m) / s)). apply Rinv_lt_contravar; [nra|]. apply Rplus_lt_compat_l. apply exp_increasing. unfold Rdiv. apply Rmult_lt_compat_r; [apply Rinv_0_lt_compat; auto|lra]. }
  unfold strict_rv, proper_rv, logistic. cbn [rv_low rv_high rv_cdf rv_ppf]. repeat split; auto; try discriminate.
  - intros [a| | |] [b| | |] E; cbn in E; try contradiction; try lra; try (left; apply B). destruct E as [E| ->]; [left; auto|lra].
  - destruct (Rle_dec 0 0); [auto|lra].
  - destruct (Rle_dec 1 0); [lra|]. destruct (Rle_dec 1 1); [auto|lra].
  - intros p q PQ Q1. destruct (Rle_dec p 0); [cbn; destruct (Rle_dec q 0); auto; destruct (Rle_dec 1 q); auto|]. destruct (Rle_dec q 0); [lra|]. destruct (Rle_dec 1 q).
    + destruct (Rle_dec 1 p); cbn; auto.
    + destruct (Rle_dec 1 p); [lra|]. cbn. apply Rplus_le_compat_l. apply Rmult_le_compat_l; [lra|]. apply ln_mono; [apply Rdiv_lt_0_compat; lra|]. apply Rmult_le_reg_r with ((1 - p) * (1 - q)); [nra|].
      replace (p / (1 - p) * ((1 - p) * (1 - q))) with (p * (1 - q)) by (field; lra). replace (q / (1 - q) * ((1 - p) * (1 - q))) with (q * (1 - p)) by (field; lra). lra.
  - intros a b A1 A2 NE A3. destruct a as [a| | |], b as [b| | |]; cbn in A1, A2, A3; try contradiction; try (apply B); try lra; try congruence. apply ST. destruct A2 as [A2| ->]; [auto|congruence].
Qed.
Definition flat (a b : R) : rv := knot_law [a; b] [0; 1].
Definition core (a b m s : R) : rv := if Rlt_dec a (m - s) then if Rlt_dec (m + s) b then knot_law [a; m - s; m + s; b] [0; tiny / 2; 1 - tiny / 2; 1] else flat a b else flat a b.
Definition some_laws : laws := Laws logistic logistic (fun a b _ _ => flat a b) core.
Lemma flat_ok : forall a b, a < b -> strict_rv (flat a b) /\ rv_low (flat a b) = Fin a /\ rv_high (flat a b) = Fin b.
Proof. intros a b L. split; [|split; reflexivity]. apply knot_strict; auto; apply sorted_cons; split; auto; try reflexivity; lra. Qed.
Lemma core_ok : forall a b m s, a < b -> 0 < s -> strict_rv (core a b m s) /\ rv_low (core a b m s) = Fin a /\ rv_high (core a b m s) = Fin b.
Proof.
  intros a b m s L PS. unfold core. destruct (Rlt_dec a (m - s)); [|apply flat_ok; auto]. destruct (Rlt_dec (m + s) b); [|apply flat_ok; auto]. split; [|split; reflexivity]. pose proof tiny_small.
  apply knot_strict; auto; cbn [length]; try lia; repeat (apply sorted_cons; split; [lra|]); reflexivity.
Qed.
Lemma some_laws_ok : scipy_laws some_laws.
Proof.
  split; [|split; [|split]]; cbn.
  - intros x s PS. split; [apply logistic_strict; auto|split; reflexivity].
  - intros x s PS. split; [apply logistic_strict; auto|split; reflexivity].
  - intros a b x s L _. apply flat_ok; auto.
  - intros a b x s L PS. apply core_ok; auto.
Qed.

(** A table whose Gaussian distribution is much narrower than the step of tabulated velocities (0.08 km / s) is refused, whatever the spline. *)
Definition narrow_row (z : R) : row := Row z (/ 100, 0, 1, 0, / 2).
Definition narrow_read (name : string) : result (list row) := Ok [narrow_row (/ 2); narrow_row 1].
Lemma sorted_pair : forall a b fa fb, a < b -> sort_rows [Row a fa; Row b fb] = [Row a fa; Row b fb].
Proof. intros a b fa fb L. cbn [sort_rows fold_right insert_row r_z]. unfold Rleb. destruct (Rle_dec a b); [auto|lra]. Qed.
Lemma pair_rvs : forall (f : R -> row) fit w names, (forall z, f z = Row z fit) ->
  tracer_rvs (fun _ => Ok [f (/ 2); f 1]) w "LRG" (Some [names]) "statistical" =
  let x := truncated w 400 (f 1) in
  Ok ([/ 2; 1], ([fst (fst x); fst (fst x)], [snd (fst x); snd (fst x)]), ([snd x; snd x], [1 - snd x; 1 - snd x]), dztransform "LRG" "statistical").
Proof.
  intros f fit w names F. unfold tracer_rvs. cbn [bind map_result]. rewrite !F. unfold merge. cbn [merge_from]. unfold stack. cbv zeta. rewrite sorted_pair by lra. cbn [bind map_result row_laws String.eqb Ascii.eqb Bool.eqb].
  unfold truncated. cbn [r_fit]. destruct fit as [[[[f1 f2] f3] f4] f5]. cbn [map fst snd r_z]. auto.
Qed.
Theorem C62_narrow_refuted : exists w read fn, scipy_laws w /\ all_sound read "LRG" "statistical" /\ (exists x, tracer_rvs read w "LRG" (Some fn) "statistical" = Ok x) /\
  forall sp, cubic_spline sp -> exists e, tracer_smearing sp read w "LRG" (Some fn) "statistical" = Err e.
Proof.
  exists some_laws, narrow_read, ["table"%string]. pose proof (pair_rvs narrow_row _ some_laws "table" (fun z => eq_refl)) as H. fold narrow_read in H.
  assert (SO : all_sound narrow_read "LRG" "statistical").
  { intros name file r E I. unfold narrow_read in E. apply ok_inj_p in E. subst file. destruct I as [<- |[<- |[]]]; cbn; (split; [lra|]); (split; [intros [C _]; discriminate|intros _; lra]). }
  split; [apply some_laws_ok|]. split; auto. split; [eexists; exact H|]. intros sp SP. cbv zeta in H.
  set (x := truncated some_laws 400 (narrow_row 1)) in *.
  destruct (tracer_parts sp narrow_read some_laws "LRG" _ _ _ _ _ _ _ _ some_laws_ok (or_introl eq_refl) SO H ltac:(discriminate)) as (lo & hi & s & EN & PS & _ & _ & _ & _ & _ & _ & _ & EC & EQ).
  rewrite EQ. clear EQ. destruct (set_interp sp (Smear (map _ [fst (fst x); fst (fst x)]) _ _ _ _ _ _)) as [m1|]; [|cbn; eauto]. cbn [bind]. destruct EC as [([C _] & _)|(_ & T & -> & ->)]; [discriminate|].
  assert (S4 : s = 400) by (destruct T as [(C & _)|[(_ & ->)|([C|C] & _)]]; auto; discriminate). subst s. cbn [grid_of support_of]. set (grid := linspace (- (400)) 400 dzsize).
  edestruct (set_interp_err sp (Smear (map (fun _ => grid) [snd (fst x); snd (fst x)]) [/ 2; 1] (map (fun r => map (fun d => rv_cdf r (Fin d)) grid) [snd (fst x); snd (fst x)]) [] [] Fin (dztransform "LRG" "statistical"))) as [e E]; [exact SP|cbn [m_dz m_cdf map combine]; left; reflexivity| |].
  2:{ rewrite E. cbn. eauto. }
  intros p I. apply in_map_iff in I. destruct I as (d & <- & I). unfold x, truncated, narrow_row. cbn [r_fit fst snd some_laws law_truncnorm]. unfold core. pose proof tiny_small as TS.
  destruct (Rlt_dec (- (400)) (0 - / 100)); [|lra]. destruct (Rlt_dec (0 + / 100) 400); [|lra]. cbn [knot_law rv_cdf hd last].
  destruct (In_nth _ _ 0 I) as (i & L & ED). unfold grid in L. rewrite linspace_length in L. assert (NN : INR (dzsize - 1) = 9999) by (unfold dzsize; rewrite INR_IZR_INZ; f_equal; lia).
  unfold grid in ED. rewrite linspace_nth, NN in ED by auto. assert (CI : INR i <= 4999 \/ 5000 <= INR i).
  { rewrite INR_IZR_INZ. destruct (Z_le_gt_dec (Z.of_nat i) 4999); [left; apply IZR_le; auto|right; apply IZR_le; lia]. }
  assert (LE : INR i <= 9999) by (rewrite <- NN; apply le_INR; lia). pose proof (pos_INR i) as P0. rewrite clip_id by lra.
  assert (SX : sorted [- (400); 0 - / 100; 0 + / 100; 400]) by (repeat (apply sorted_cons; split; [lra|]); reflexivity).
  assert (SPP : sorted [0; tiny / 2; 1 - tiny / 2; 1]) by (repeat (apply sorted_cons; split; [lra|]); reflexivity).
  destruct CI as [CI|CI].
  - left. apply Rle_trans with (lin [- (400); 0 - / 100; 0 + / 100; 400] [0; tiny / 2; 1 - tiny / 2; 1] (0 - / 100)); [apply lin_le; auto; cbn [hd last]; lra|].
    rewrite (lin_knot _ _ _ (tiny / 2)); auto; [lra|cbn; lia|cbn; auto].
  - right. apply Rle_trans with (lin [- (400); 0 - / 100; 0 + / 100; 400] [0; tiny / 2; 1 - tiny / 2; 1] (0 + / 100)); [|apply lin_le; auto; cbn [hd last]; lra].
    rewrite (lin_knot _ _ _ (1 - tiny / 2)); auto; [lra|cbn; lia|cbn; auto].
Qed.
Print Assumptions C62_narrow_refuted.

(** A table that meets all the hypotheses: mixture of two flat distributions. *)
Definition wide_row (z : R) : row := Row z (500, 0, 1, 0, / 2).
Definition wide_read (name : string) : result (list row) := Ok [wide_row (/ 2); wide_row 1].
Example C62_case : exists m dz, tracer_smearing some_spline wide_read some_laws "LRG" (Some ["table"%string]) "statistical" = Ok m /\
  ppf m (INR (Z.to_nat 3333) / 9999) 1 = Fin dz /\ dz * kms / (1 + 1) = - (400 / 3).
Proof.
  pose proof (pair_rvs wide_row _ some_laws "table" (fun z => eq_refl)) as H. fold wide_read in H. cbv zeta in H.
  assert (SO : all_sound wide_read "LRG" "statistical").
  { intros name file r E I. unfold wide_read in E. apply ok_inj_p in E. subst file. destruct I as [<- |[<- |[]]]; cbn; (split; [lra|]); (split; [intros [C _]; discriminate|intros _; lra]). }
  assert (EX : truncated some_laws 400 (wide_row 1) = (flat (- (400)) 400, flat (- (400)) 400, / 2)).
  { unfold truncated, wide_row. cbn [r_fit some_laws law_cauchy law_truncnorm]. unfold core. destruct (Rlt_dec (- (400)) (0 - 500)); [lra|]. auto. }
  rewrite EX in H. cbn [fst snd] in H.
  assert (IN : forall k : BinNums.Z, (0 < k < 9999)%Z -> inner (Z.to_nat k) /\ INR (Z.to_nat k) = IZR k).
  { intros k B. assert (E : INR (Z.to_nat k) = IZR k) by (rewrite INR_IZR_INZ, Z2Nat.id by lia; auto). split; auto. unfold inner. rewrite E. split; [apply (IZR_lt 0)|apply (IZR_lt k 9999)]; lia. }
  assert (CDF : forall t, -400 <= t <= 400 -> rv_cdf (flat (- (400)) 400) (Fin t) = (t + 400) / 800).
  { intros t B. cbn [flat knot_law rv_cdf hd last]. rewrite clip_id by lra. rewrite lin_step. unfold Rltb, Rleb. destruct (Rlt_dec t (- (400))); [lra|]. destruct (Rle_dec t 400); [|lra]. field. }
  assert (ND : forall k, (0 < k < 9999)%Z -> node "LRG" "statistical" (Z.to_nat k) (400 * (2 * IZR k / 9999 - 1))).
  { intros k B. right. exists 400. split; [right; left; auto|]. rewrite (proj2 (IN k B)). auto. }
  assert (RZ : rising [/ 2; 1]) by (apply rising_increasing; apply sorted_cons; split; [lra|reflexivity]).
  destruct (C62_succeeds some_spline wide_read some_laws "LRG" _ "statistical" _ _ _ _ _ _ some_spline_cubic some_laws_ok (or_introl eq_refl) SO H ltac:(cbn; lia) RZ) as [m HM].
  { intros j J. exists (Z.to_nat 3333), (Z.to_nat 6666), (400 * (2 * 3333 / 9999 - 1)), (400 * (2 * 6666 / 9999 - 1)). split; [apply IN; lia|]. split; [apply IN; lia|]. split; [lia|]. split; [apply (ND 3333%Z); lia|]. split; [apply (ND 6666%Z); lia|].
    assert (NB : nth j [flat (- (400)) 400; flat (- (400)) 400] no_law = flat (- (400)) 400) by (destruct j as [|[|j]]; [auto|auto|cbn in J; lia]). rewrite NB, !CDF by lra. unfold midway. repeat split; lra. }
  destruct (C62_quantiles some_spline wide_read some_laws "LRG" _ "statistical" _ _ _ _ _ _ m 1 (Z.to_nat 3333) (Z.to_nat 3333) (400 * (2 * 3333 / 9999 - 1)) (3333 / 9999) some_spline_cubic some_laws_ok (or_introl eq_refl) SO H HM ltac:(cbn; lia)) as (dz & E1 & _ & E2).
  - cbn. lra.
  - apply IN; lia.
  - apply (ND 3333%Z); lia.
  - cbn [nth]. rewrite CDF by lra. field.
  - unfold midway. lra.
  - apply IN; lia.
  - rewrite (proj2 (IN 3333%Z ltac:(lia))). auto.
  - exists m, dz. split; auto. rewrite (proj2 (IN 3333%Z ltac:(lia))). split; auto. cbn [nth] in E2. rewrite E2 by (intros [C _]; discriminate). field.
Qed.
