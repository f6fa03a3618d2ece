(** Theorems C81: rounding. *)
Require Import Reals ZArith List Bool Lia Lra Psatz.
From Flocq Require Import Core Relative.
From Verif Require Import Base Vec3 Round_Model Round_Spec.
Open Scope R_scope.

(** ** The remainder *)
Lemma fmod_range : forall a b, 0 < b -> let m := a - b * IZR (Rtrunc (a / b)) in (0 <= a -> 0 <= m < b) /\ (a < 0 -> - b < m <= 0).
Proof.
  intros a b B m. assert (A : a = b * (a / b)) by (field; lra). set (q := a / b) in *. split; intros S.
  - assert (Q : 0 <= q) by (unfold q; apply Rmult_le_pos; [lra|left; apply Rinv_0_lt_compat; lra]).
    unfold m, Rtrunc. destruct (Rlt_dec q 0); [lra|]. pose proof (Rfloor_spec q). nra.
  - assert (Q : q < 0) by (unfold q, Rdiv; pose proof (Rinv_0_lt_compat b B); nra).
    unfold m, Rtrunc. destruct (Rlt_dec q 0); [|lra]. unfold Rceil. pose proof (Rfloor_spec (- q)). rewrite opp_IZR. nra.
Qed.
(** Remainders are in [0, b], the upper limit included. *)
Lemma mod_bounds : forall rnd a b, rounding rnd -> 0 < b -> float_of rnd b -> 0 <= fl_mod rnd a b <= b.
Proof.
  intros rnd a b (Mo & Id & Z) B F. unfold fl_mod. destruct (fmod_range a b B) as (P & N). set (m := a - b * IZR (Rtrunc (a / b))) in *.
  destruct (Req_EM_T m 0); [lra|]. destruct (Rltb b 0) eqn:B0; [apply Rltb_true in B0; lra|]. cbn [xorb].
  destruct (Rltb m 0) eqn:M0.
  - apply Rltb_true in M0. assert (a < 0) by (destruct (Rlt_dec a 0); [auto|lra]). specialize (N H). pose proof (Mo 0 (m + b) ltac:(lra)) as X. pose proof (Mo (m + b) b ltac:(lra)) as Y. unfold float_of in F. rewrite Z in X. rewrite F in Y. lra.
  - apply Rltb_false in M0. assert (0 <= a) by (destruct (Rlt_dec a 0); [lra|lra]). specialize (P H). lra.
Qed.
Theorem C81_remainder_partial : forall rnd a b, rounding rnd -> 0 < b -> float_of rnd b ->
  0 <= fl_mod rnd a b <= b /\ (0 <= a -> fl_mod rnd a b = Rmod a b) /\ (a < 0 -> fl_mod rnd a b = 0 \/ fl_mod rnd a b = rnd (Rmod a b)).
Proof.
  intros rnd a b R B F. split; [apply mod_bounds; assumption|]. assert (U : forall x m k, 0 <= m < b -> x = m + b * IZR k -> Rmod x b = m).
  { intros x m k Hm ->. replace (m + b * IZR k) with (m + IZR k * b) by ring. rewrite Rmod_shift by exact B. apply Rmod_id. exact Hm. }
  destruct (fmod_range a b B) as (P & N). unfold fl_mod. set (m := a - b * IZR (Rtrunc (a / b))) in *. destruct (Rltb b 0) eqn:B0; [apply Rltb_true in B0; lra|]. cbn [xorb].
  split; intros S.
  - specialize (P S). destruct (Rltb m 0) eqn:M0; [apply Rltb_true in M0; lra|]. rewrite (U a m (Rtrunc (a / b))) by (unfold m in *; try lra; ring).
    destruct (Req_EM_T m 0); lra.
  - specialize (N S). destruct (Req_EM_T m 0); [auto|]. right. rewrite (proj2 (Rltb_true m 0)) by lra. f_equal.
    symmetry. apply (U a (m + b) (Rtrunc (a / b) - 1)%Z); [lra|]. rewrite minus_IZR. unfold m. ring.
Qed.
Print Assumptions C81_remainder_partial.
(** Without rounding it is the remainder of the other model files. *)
Theorem C81_exact : forall a b, 0 < b -> fl_mod (fun x => x) a b = Rmod a b.
Proof.
  intros a b B. assert (R : rounding (fun x => x)) by (repeat split; auto).
  destruct (C81_remainder_partial (fun x => x) a b R B eq_refl) as (_ & P & N). destruct (Rlt_dec a 0) as [S|S]; [|apply P; lra].
  destruct (N S) as [E|E]; [|exact E]. unfold fl_mod in E |- *. destruct (fmod_range a b B) as (_ & N'). set (m := a - b * IZR (Rtrunc (a / b))) in *. specialize (N' S).
  destruct (Req_EM_T m 0) as [M|M].
  - symmetry. replace a with (0 + IZR (Rtrunc (a / b)) * b) by (unfold m in M; lra). rewrite Rmod_shift by exact B. apply Rmod_id. lra.
  - destruct (Rltb b 0) eqn:B0; [apply Rltb_true in B0; lra|]. cbn [xorb] in E. rewrite (proj2 (Rltb_true m 0)) in E by lra. lra.
Qed.
Print Assumptions C81_exact.
(** ** Boxes *)
Theorem C81_boxes_partial : forall rnd L c x u, rounding rnd -> 0 < L -> float_of rnd L -> float_of rnd 1 ->
  (fl_offset rnd L c <= fl_periodic rnd L c x <= rnd (L + fl_offset rnd L c)) /\
  (- (1 / 2) <= u <= 1 / 2 -> rnd (rnd (- L / 2) + c) <= fl_random_position rnd L c u <= rnd (rnd (L / 2) + c)) /\
  0 <= fl_unit rnd L x <= L.
Proof.
  intros rnd L c x u R P FL F1. destruct R as (Mo & Id & Z). assert (R : rounding rnd) by (repeat split; auto). split; [|split].
  - unfold fl_periodic. pose proof (mod_bounds rnd (rnd (x - fl_offset rnd L c)) L R P FL) as B.
    assert (O : rnd (fl_offset rnd L c) = fl_offset rnd L c) by apply Id. split; [rewrite <- O at 1|]; apply Mo; lra.
  - intros U. unfold fl_random_position. split; apply Mo; apply Rplus_le_compat_r; apply Mo; nra.
  - unfold fl_unit. pose proof (mod_bounds rnd x 1 R ltac:(lra) F1) as B. set (m := fl_mod rnd x 1) in *.
    pose proof (Mo 0 (m * L) ltac:(nra)) as X. pose proof (Mo (m * L) L ltac:(nra)) as Y. unfold float_of in FL. rewrite Z in X. rewrite FL in Y. lra.
Qed.
Print Assumptions C81_boxes_partial.
(** ** Angles *)
Theorem C81_angles_partial : forall rnd a, rounding rnd -> 0 < rnd (fl_pi rnd / 180) ->
  0 <= fl_wrap_angle rnd false a <= fl_turn rnd /\ 0 <= fl_wrap_angle rnd true a <= rnd (fl_turn rnd / rnd (fl_pi rnd / 180)).
Proof.
  intros rnd a R N. destruct R as (Mo & Id & Z). assert (R : rounding rnd) by (repeat split; auto).
  assert (P1 : 0 <= fl_pi rnd). { unfold fl_pi. rewrite <- Z. apply Mo. pose proof PI_RGT_0. lra. }
  assert (P : 0 < fl_pi rnd). { destruct P1 as [P1|P1]; [exact P1|]. exfalso. revert N. rewrite <- P1. replace (0 / 180) with 0 by field. rewrite Z. lra. }
  assert (FP : rnd (fl_pi rnd) = fl_pi rnd) by apply Id. assert (FT : float_of rnd (fl_turn rnd)) by (unfold float_of, fl_turn; apply Id).
  assert (T : 0 < fl_turn rnd). { unfold fl_turn. apply Rlt_le_trans with (rnd (fl_pi rnd)); [rewrite FP; exact P|apply Mo; lra]. }
  split.
  - unfold fl_wrap_angle. rewrite Rmult_1_r. unfold Rdiv. rewrite Rinv_1, Rmult_1_r. pose proof (mod_bounds rnd (rnd a) _ R T FT) as B. set (m := fl_mod rnd (rnd a) (fl_turn rnd)) in *.
    pose proof (Mo 0 m ltac:(lra)) as X. pose proof (Mo m (fl_turn rnd) ltac:(lra)) as Y. unfold float_of in FT. rewrite Z in X. rewrite FT in Y. lra.
  - unfold fl_wrap_angle. set (k := rnd (fl_pi rnd / 180)) in *. pose proof (mod_bounds rnd (rnd (a * k)) _ R T FT) as B. set (m := fl_mod rnd (rnd (a * k)) (fl_turn rnd)) in *.
    assert (K : 0 < k) by lra. pose proof (Rinv_0_lt_compat k K). pose proof (Mo 0 (m / k) ltac:(unfold Rdiv; nra)) as X. rewrite Z in X. split; [exact X|]. apply Mo. unfold Rdiv. apply Rmult_le_compat_r; lra.
Qed.
Print Assumptions C81_angles_partial.

(** ** Double precision *)
Lemma prec53 : Prec_gt_0 53. Proof. reflexivity. Qed.
#[export] Existing Instance prec53.
Notation fexp := (FLT_exp (-1074) 53).
Notation format := (generic_format radix2 fexp).
Lemma double_rounding : rounding double.
Proof.
  split; [|split].
  - intros x y H. apply round_le; [apply FLT_exp_valid; reflexivity|apply valid_rnd_N|exact H].
  - intros x. apply round_generic; [apply valid_rnd_N|]. apply generic_format_round; [apply FLT_exp_valid; reflexivity|apply valid_rnd_N].
  - apply round_0. apply valid_rnd_N.
Qed.
Lemma format_float : forall x, format x -> float_of double x.
Proof. intros x H. apply round_generic; [apply valid_rnd_N|exact H]. Qed.
Lemma float_format : forall x, float_of double x -> format x.
Proof. intros x H. rewrite <- H. apply generic_format_round; [apply FLT_exp_valid; reflexivity|apply valid_rnd_N]. Qed.
Lemma double_bpow : forall e, (-1074 <= e)%Z -> float_of double (bpow radix2 e).
Proof. intros e H. apply format_float. apply generic_format_bpow. unfold FLT_exp. lia. Qed.
Lemma double_one : float_of double 1.
Proof. apply (double_bpow 0). lia. Qed.
(** A number close to one of the format, on the same scale, is rounded to it. *)
Lemma double_near : forall s e M, bpow radix2 (e + 52) <= s < bpow radix2 (e + 53) -> (-1074 <= e)%Z -> Rabs (s - IZR M * bpow radix2 e) < bpow radix2 (e - 1) -> double s = IZR M * bpow radix2 e.
Proof.
  intros s e M B E H. unfold double, round, F2R. cbn [Fnum Fexp].
  assert (G : mag radix2 s = (e + 53)%Z :> Z) by (apply mag_unique_pos; replace (e + 53 - 1)%Z with (e + 52)%Z by lia; exact B).
  assert (C : cexp radix2 fexp s = e) by (unfold cexp, FLT_exp; rewrite G; lia).
  unfold scaled_mantissa. rewrite C. f_equal. f_equal. apply Znearest_imp.
  replace (s * bpow radix2 (- e) - IZR M) with ((s - IZR M * bpow radix2 e) * bpow radix2 (- e)).
  - rewrite Rabs_mult, (Rabs_pos_eq (bpow radix2 (- e))) by apply bpow_ge_0.
    apply Rlt_le_trans with (bpow radix2 (e - 1) * bpow radix2 (- e)).
    + apply Rmult_lt_compat_r; [apply bpow_gt_0|exact H].
    + rewrite <- bpow_plus. replace (e - 1 + - e)%Z with (-1)%Z by lia. cbn. lra.
  - rewrite Rmult_minus_distr_r, Rmult_assoc, <- bpow_plus. replace (e + - e)%Z with 0%Z by lia. cbn. ring.
Qed.
(** Positive numbers of the format, not too small: mantissa of 53 bits. *)
Lemma mantissa : forall x, float_of double x -> bpow radix2 (-1022) <= x -> exists M e, x = IZR M * bpow radix2 e /\ (2 ^ 52 <= M < 2 ^ 53)%Z /\ (-1074 <= e)%Z /\ bpow radix2 (e + 52) <= x < bpow radix2 (e + 53).
Proof.
  intros x F B. apply float_format in F. assert (P : 0 < x) by (pose proof (bpow_gt_0 radix2 (-1022)); lra).
  set (g := mag_val radix2 x (mag radix2 x)). assert (G : bpow radix2 (g - 1) <= x < bpow radix2 g). { pose proof (bpow_mag_le radix2 x ltac:(lra)) as U. pose proof (bpow_mag_gt radix2 x) as V. rewrite Rabs_pos_eq in U, V by lra. split; [exact U|exact V]. }
  assert (G22 : (-1021 <= g)%Z). { assert (L : bpow radix2 (-1022) < bpow radix2 g) by lra. apply lt_bpow in L. lia. }
  set (e := (g - 53)%Z).
  assert (C : cexp radix2 fexp x = e) by (unfold cexp, FLT_exp; fold g; unfold e; lia).
  unfold generic_format, F2R in F. cbn [Fnum Fexp] in F. rewrite C in F. set (M := Ztrunc (scaled_mantissa radix2 fexp x)) in *.
  assert (B' : bpow radix2 (e + 52) <= x < bpow radix2 (e + 53)) by (unfold e; replace (g - 53 + 52)%Z with (g - 1)%Z by lia; replace (g - 53 + 53)%Z with g by lia; exact G).
  exists M, e. split; [exact F|]. split; [|split; [unfold e; lia|exact B']].
  rewrite F in B'. rewrite !bpow_plus in B'. rewrite !(Rmult_comm (bpow radix2 e)) in B'. pose proof (bpow_gt_0 radix2 e).
  split; [apply le_IZR|apply lt_IZR].
  - apply Rmult_le_reg_r with (bpow radix2 e); [assumption|]. change (IZR (2 ^ 52)) with (bpow radix2 52). lra.
  - apply Rmult_lt_reg_r with (bpow radix2 e); [assumption|]. change (IZR (2 ^ 53)) with (bpow radix2 53). lra.
Qed.
(** A number loses a part 2^60 times smaller. *)
Lemma absorbed : forall b, float_of double b -> bpow radix2 (-1000) <= b -> double (b - b * bpow radix2 (-60)) = b.
Proof.
  intros b F B. assert (B2 : bpow radix2 (-1022) <= b) by (eapply Rle_trans; [apply bpow_le with (e2 := (-1000)%Z); lia|exact B]).
  destruct (mantissa b F B2) as (M & e & E & HM & He & Hb). pose proof (bpow_gt_0 radix2 e) as PE.
  assert (T : bpow radix2 (-60) = / 2 ^ 60) by (cbn; lra).
  assert (TB : b * bpow radix2 (-60) < bpow radix2 (e - 7)).
  { replace (e - 7)%Z with (e + 53 + -60)%Z by lia. rewrite (bpow_plus radix2 (e + 53)). apply Rmult_lt_compat_r; [apply bpow_gt_0|lra]. }
  assert (E7 : bpow radix2 (e - 7) = bpow radix2 e / 128) by (unfold Zminus; rewrite bpow_plus; cbn; lra).
  assert (E1 : bpow radix2 (e - 1) = bpow radix2 e / 2) by (unfold Zminus; rewrite bpow_plus; cbn; lra).
  assert (E2 : bpow radix2 (e - 1 - 1) = bpow radix2 e / 4) by (replace (e - 1 - 1)%Z with (e + -2)%Z by lia; rewrite bpow_plus; cbn; lra).
  assert (TP : 0 < b * bpow radix2 (-60)) by (apply Rmult_lt_0_compat; [pose proof (bpow_gt_0 radix2 (-1000)); lra|apply bpow_gt_0]).
  assert (He' : (-1074 < e)%Z).
  { assert (L : bpow radix2 (-1000) < bpow radix2 (e + 53)) by lra. apply lt_bpow in L. lia. }
  destruct (Z.eq_dec M (2 ^ 52)) as [->|NM].
  - (* power of two: the numbers below are twice closer *)
    assert (EB : b = bpow radix2 (e + 52)) by (rewrite E, bpow_plus; change (IZR (2 ^ 52)) with (bpow radix2 52); ring).
    transitivity (IZR (2 ^ 53) * bpow radix2 (e - 1)); [|rewrite E, E1; change (2 ^ 53)%Z with (2 * 2 ^ 52)%Z; rewrite mult_IZR; lra].
    apply double_near; [|lia|].
    + replace (e - 1 + 53)%Z with (e + 52)%Z by lia. rewrite <- EB. split; [|lra].
      replace (e - 1 + 52)%Z with (e + 52 + -1)%Z by lia. rewrite bpow_plus, <- EB, T. cbn. nra.
    + rewrite E2. replace (IZR (2 ^ 53) * bpow radix2 (e - 1)) with b by (rewrite E, E1; change (2 ^ 53)%Z with (2 * 2 ^ 52)%Z; rewrite mult_IZR; lra).
      rewrite Rabs_left by lra. lra.
  - transitivity (IZR M * bpow radix2 e); [|symmetry; exact E]. apply double_near; [|lia|].
    + split; [|lra]. assert (HM1 : (2 ^ 52 + 1 <= M)%Z) by lia. apply IZR_le in HM1. rewrite plus_IZR in HM1. change (IZR (2 ^ 52)) with (bpow radix2 52) in HM1.
      rewrite bpow_plus. assert (bpow radix2 e * (bpow radix2 52 + 1) <= b) by (rewrite E, Rmult_comm; apply Rmult_le_compat_r; lra). lra.
    + rewrite <- E, E1. rewrite Rabs_left by lra. lra.
Qed.
(** The largest angle: a small negative angle is wrapped to the modulus itself, and wrapping again gives zero. In every box [0, L] a position just below zero is brought back to L. *)
Theorem C81_remainder_refuted : forall L, float_of double L -> bpow radix2 (-1000) <= L -> exists x, x < 0 /\ fl_mod double x L = L /\ fl_mod double L L = 0.
Proof.
  intros L F B. assert (P : 0 < L) by (pose proof (bpow_gt_0 radix2 (-1000)); lra). exists (- (L * bpow radix2 (-60))). pose proof (bpow_gt_0 radix2 (-60)) as T.
  assert (T1 : bpow radix2 (-60) < 1) by (cbn; lra).
  split; [nra|]. split.
  - unfold fl_mod. assert (R : Rtrunc (- (L * bpow radix2 (-60)) / L) = 0%Z).
    { replace (- (L * bpow radix2 (-60)) / L) with (- bpow radix2 (-60)) by (field; lra). unfold Rtrunc, Rceil. destruct (Rlt_dec _ 0); [|lra]. rewrite Ropp_involutive, (Rfloor_unique _ 0) by (split; lra). reflexivity. }
    rewrite R, Rmult_0_r, Rminus_0_r. destruct (Req_EM_T _ 0); [nra|]. destruct (Rltb L 0) eqn:L0; [apply Rltb_true in L0; lra|]. cbn [xorb]. rewrite (proj2 (Rltb_true _ 0)) by nra.
    rewrite Rplus_comm. apply absorbed; assumption.
  - unfold fl_mod. replace (L / L) with 1 by (field; lra). assert (R : Rtrunc 1 = 1%Z) by (unfold Rtrunc; destruct (Rlt_dec 1 0); [lra|]; apply Rfloor_unique; lra).
    rewrite R. destruct (Req_EM_T _ 0); [reflexivity|lra].
Qed.
Print Assumptions C81_remainder_refuted.
