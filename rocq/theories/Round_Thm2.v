(** Theorems C81: limits that are reached in double precision, and distances. *)
Require Import Reals ZArith List Bool Lia Lra Psatz.
From Flocq Require Import Core Relative.
From Verif Require Import Base Vec3 Round_Model Round_Spec Round_Thm.
Open Scope R_scope.

Lemma double_opp : forall x, float_of double x -> float_of double (- x).
Proof. intros x F. apply format_float. apply generic_format_opp. apply float_format. exact F. Qed.
Lemma double_make : forall M e, (Z.abs M < 2 ^ 53)%Z -> (-1074 <= e)%Z -> float_of double (IZR M * bpow radix2 e).
Proof. intros M e HM He. apply format_float. apply generic_format_FLT. exists (Float radix2 M e); [reflexivity|exact HM|exact He]. Qed.
Lemma double_scaled : forall b, float_of double b -> bpow radix2 (-900) <= b -> float_of double (b * bpow radix2 (-60)).
Proof.
  intros b F B. destruct (mantissa b F) as (M & e & E & HM & He & Hb); [eapply Rle_trans; [apply bpow_le with (e2 := (-900)%Z); lia|exact B]|].
  assert (L : bpow radix2 (-900) < bpow radix2 (e + 53)) by lra. apply lt_bpow in L.
  rewrite E, Rmult_assoc, <- bpow_plus. apply double_make; [|lia]. rewrite Z.abs_eq by lia. lia.
Qed.
Lemma small_mod : forall b, 0 < b -> forall t, 0 < t < b -> fl_mod double (- t) b = double (b - t).
Proof.
  intros b P t T. unfold fl_mod. assert (R : Rtrunc (- t / b) = 0%Z).
  { assert (Q : 0 < t / b < 1). { split; [apply Rdiv_lt_0_compat; lra|]. apply Rmult_lt_reg_r with b; [lra|]. replace (t / b * b) with t by (field; lra). lra. }
    replace (- t / b) with (- (t / b)) by (field; lra). unfold Rtrunc, Rceil. destruct (Rlt_dec _ 0); [|lra]. rewrite Ropp_involutive, (Rfloor_unique _ 0) by (split; lra). reflexivity. }
  rewrite R, Rmult_0_r, Rminus_0_r. destruct (Req_EM_T _ 0); [lra|]. destruct (Rltb b 0) eqn:L0; [apply Rltb_true in L0; lra|]. cbn [xorb]. rewrite (proj2 (Rltb_true _ 0)) by lra.
  f_equal. lra.
Qed.
Lemma tiny : 0 < bpow radix2 (-60) < 1.
Proof. split; [apply bpow_gt_0|]. apply (bpow_lt radix2 (-60) 0). lia. Qed.
Lemma tiny_mod : forall b, float_of double b -> bpow radix2 (-900) <= b -> fl_mod double (- (b * bpow radix2 (-60))) b = b.
Proof.
  intros b F B. pose proof (bpow_gt_0 radix2 (-900)). pose proof tiny. rewrite small_mod by (try lra; split; nra). apply absorbed; [exact F|]. eapply Rle_trans; [apply bpow_le with (e2 := (-900)%Z); lia|exact B].
Qed.
Lemma self_mod : forall b, 0 < b -> fl_mod double b b = 0.
Proof.
  intros b P. unfold fl_mod. replace (b / b) with 1 by (field; lra). assert (R : Rtrunc 1 = 1%Z) by (unfold Rtrunc; destruct (Rlt_dec 1 0); [lra|]; apply Rfloor_unique; lra).
  rewrite R. destruct (Req_EM_T _ 0); [reflexivity|lra].
Qed.
Lemma turn_bounds : 1 <= fl_turn double.
Proof.
  destruct double_rounding as (Mo & Id & Z). assert (P : 1 <= fl_pi double). { unfold fl_pi. rewrite <- double_one. apply Mo. pose proof PI2_3_2. unfold PI2 in *. lra. }
  unfold fl_turn. rewrite <- double_one. apply Mo. lra.
Qed.
(** Angles: some negative angle is wrapped to the full turn itself, which is then wrapped to 0. *)
Theorem C81_angles_refuted : exists a, float_of double a /\ a < 0 /\ fl_wrap_angle double false a = fl_turn double /\ fl_wrap_angle double false (fl_turn double) = 0.
Proof.
  pose proof turn_bounds as T. destruct double_rounding as (Mo & Id & Z). assert (F : float_of double (fl_turn double)) by apply Id.
  assert (B : bpow radix2 (-900) <= fl_turn double) by (apply Rle_trans with 1; [apply (bpow_le radix2 (-900) 0); lia|exact T]).
  pose proof tiny. exists (- (fl_turn double * bpow radix2 (-60))).
  assert (FA : float_of double (- (fl_turn double * bpow radix2 (-60)))) by (apply double_opp; apply double_scaled; assumption).
  split; [exact FA|]. split; [nra|]. unfold fl_wrap_angle. rewrite !Rmult_1_r, FA, F, tiny_mod, self_mod by (assumption || lra).
  unfold Rdiv. rewrite Rinv_1, Rmult_1_r, Rmult_0_l. auto.
Qed.
Print Assumptions C81_angles_refuted.
(** Boxes: for every box [0, L] some position just below 0 is brought back to L, both in the mocks and by the inverse of remapping; and a random position in [999.5, 1000.5) can be 1000.5. *)
Theorem C81_boxes_refuted : (forall L, float_of double L -> bpow radix2 (-900) <= L ->
    (exists x, float_of double x /\ x < 0 /\ fl_offset double L (L / 2) = 0 /\ fl_periodic double L (L / 2) x = L) /\ exists x, float_of double x /\ fl_unit double L x = L) /\
  exists u, float_of double u /\ - (1 / 2) <= u < 1 / 2 /\ fl_random_position double 1 1000 u = 1000.5.
Proof.
  destruct double_rounding as (Mo & Id & Z). pose proof tiny as T. split.
  - intros L F B. assert (P : 0 < L) by (pose proof (bpow_gt_0 radix2 (-900)); lra). split.
    + assert (H : double (L / 2) = L / 2).
      { destruct (mantissa L F) as (M & e & E & HM & He & Hb); [eapply Rle_trans; [apply bpow_le with (e2 := (-900)%Z); lia|exact B]|].
        assert (X : bpow radix2 (-900) < bpow radix2 (e + 53)) by lra. apply lt_bpow in X.
        replace (L / 2) with (IZR M * bpow radix2 (e + -1)) by (rewrite E, bpow_plus; cbn; lra). apply double_make; [rewrite Z.abs_eq; lia|lia]. }
      assert (O : fl_offset double L (L / 2) = 0) by (unfold fl_offset; rewrite H; replace (L / 2 - L / 2) with 0 by lra; exact Z).
      exists (- (L * bpow radix2 (-60))). assert (FA : float_of double (- (L * bpow radix2 (-60)))) by (apply double_opp; apply double_scaled; assumption).
      split; [exact FA|]. split; [nra|]. split; [exact O|]. unfold fl_periodic. rewrite O, Rminus_0_r, FA, tiny_mod, Rplus_0_r by assumption. exact F.
    + exists (- bpow radix2 (-60)). split; [apply double_opp; apply double_bpow; lia|]. unfold fl_unit.
      replace (- bpow radix2 (-60)) with (- (1 * bpow radix2 (-60))) by ring. rewrite tiny_mod; [rewrite Rmult_1_l; exact F|exact double_one|]. apply (bpow_le radix2 (-900) 0). lia.
  - exists (1 / 2 - / 2 ^ 53).
    assert (FU : float_of double (1 / 2 - / 2 ^ 53)).
    { replace (1 / 2 - / 2 ^ 53) with (IZR (2 ^ 52 - 1) * bpow radix2 (-53)); [apply double_make; lia|]. rewrite minus_IZR. cbn. lra. }
    split; [exact FU|]. split; [lra|]. unfold fl_random_position. rewrite Rmult_1_l, FU.
    replace 1000.5 with (IZR (2001 * 2 ^ 42) * bpow radix2 (-43)) by (rewrite mult_IZR; cbn; lra). apply double_near; [cbn; lra|lia|].
    rewrite mult_IZR. cbn. rewrite Rabs_left; lra.
Qed.
Print Assumptions C81_boxes_refuted.

(** ** Distances *)
Lemma rel : forall x, x = 0 \/ bpow radix2 (-1022) <= x -> (1 - unit_roundoff) * x <= double x <= (1 + unit_roundoff) * x.
Proof.
  intros x [->|B]; [destruct double_rounding as (_ & _ & ->); lra|]. assert (P : 0 < x) by (pose proof (bpow_gt_0 radix2 (-1022)); lra).
  pose proof (relative_error_N_FLT radix2 (-1074) 53 prec53 (fun z => negb (Z.even z)) x) as E. rewrite Rabs_pos_eq with (x := x) in E by lra. specialize (E B). fold double in E.
  change (- (53) + 1)%Z with (-52)%Z in E. replace (/ 2 * bpow radix2 (-52)) with unit_roundoff in E by (unfold unit_roundoff; cbn; lra). apply Rabs_le_inv in E. lra.
Qed.
Lemma squares : forall x, visible x -> x * x = 0 \/ bpow radix2 (-1000) <= x * x.
Proof.
  intros x [->|V]; [left; ring|right]. replace (x * x) with (Rabs x * Rabs x) by (rewrite <- Rabs_mult; apply Rabs_pos_eq; nra).
  replace (bpow radix2 (-1000)) with (bpow radix2 (-500) * bpow radix2 (-500)) by (rewrite <- bpow_plus; reflexivity).
  assert (E : bpow radix2 (-500) = / 2 ^ 500). { change (-500)%Z with (- (500))%Z. rewrite bpow_opp. f_equal. rewrite bpow_powerRZ. reflexivity. }
  rewrite E. assert (0 < / 2 ^ 500) by (apply Rinv_0_lt_compat; apply pow_lt; lra). apply Rmult_le_compat; lra.
Qed.
Lemma keeps : forall x, 0 <= x -> x = 0 \/ bpow radix2 (-1000) <= x -> double x = 0 \/ bpow radix2 (-1000) <= double x.
Proof.
  intros x P [->|B]; [left; apply double_rounding|right]. destruct double_rounding as (Mo & _). rewrite <- (double_bpow (-1000)) by lia. apply Mo. exact B.
Qed.
(** The square root of a rounded square. *)
Lemma root_square : forall z, float_of double z -> bpow radix2 (-500) <= z -> double (sqrt (double (z * z))) = z.
Proof.
  intros z F B. assert (P : 0 < z) by (pose proof (bpow_gt_0 radix2 (-500)); lra).
  destruct (mantissa z F) as (M & e & E & HM & He & Hb); [eapply Rle_trans; [apply bpow_le with (e2 := (-500)%Z); lia|exact B]|].
  assert (HE : (-553 < e)%Z) by (assert (X : bpow radix2 (-500) < bpow radix2 (e + 53)) by lra; apply lt_bpow in X; lia).
  pose proof (bpow_gt_0 radix2 e) as PE.
  destruct (Z.eq_dec M (2 ^ 52)) as [->|NM].
  - assert (Z2 : z = bpow radix2 (e + 52)) by (rewrite E, bpow_plus; change (IZR (2 ^ 52)) with (bpow radix2 52); ring).
    rewrite Z2, <- bpow_plus. rewrite (double_bpow (e + 52 + (e + 52))) by lia. rewrite bpow_plus, sqrt_square by apply bpow_ge_0. apply double_bpow. lia.
  - set (h := bpow radix2 (e - 1)). assert (H2 : bpow radix2 e = 2 * h) by (unfold h, Zminus; rewrite bpow_plus; cbn; lra). assert (PH : 0 < h) by apply bpow_gt_0.
    set (m := IZR M) in *. assert (M1 : bpow radix2 52 + 1 <= m) by (unfold m; change (bpow radix2 52) with (IZR (2 ^ 52)); rewrite <- plus_IZR; apply IZR_le; lia).
    assert (M2 : m <= bpow radix2 53 - 1) by (unfold m; change (bpow radix2 53) with (IZR (2 ^ 53)); rewrite <- minus_IZR; apply IZR_le; lia).
    assert (S1 : bpow radix2 (-1022) <= z * z).
    { apply Rle_trans with (bpow radix2 (-500) * bpow radix2 (-500)); [rewrite <- bpow_plus; apply bpow_le; lia|]. pose proof (bpow_gt_0 radix2 (-500)). apply Rmult_le_compat; lra. }
    destruct (rel (z * z) (or_intror S1)) as (R1 & R2). set (w := double (z * z)) in *. assert (U : unit_roundoff = / bpow radix2 53) by (unfold unit_roundoff; cbn; lra).
    set (u := unit_roundoff) in *. assert (U1 : u * bpow radix2 53 = 1) by (rewrite U; field; apply Rgt_not_eq; apply bpow_gt_0). assert (U0 : 0 < u) by (rewrite U; apply Rinv_0_lt_compat; apply bpow_gt_0).
    assert (B53 : bpow radix2 53 = 2 * bpow radix2 52) by (cbn; lra). assert (EZ : z = m * (2 * h)) by (rewrite E, H2; reflexivity).
    assert (MU : m * u <= 1 - u) by nra. assert (MU2 : 1 / 2 <= m * u) by nra.
    assert (LO : (z - h) * (z - h) < w).
    { apply Rlt_le_trans with ((1 - u) * (z * z)); [|exact R1]. rewrite EZ.
      assert (X : (1 - u) * (m * (2 * h) * (m * (2 * h))) - (m * (2 * h) - h) * (m * (2 * h) - h) = h * h * (4 * m * (1 - m * u) - 1)) by ring.
      assert (Y : 1 < 4 * m * (1 - m * u)). { apply Rlt_le_trans with (4 * m * u); [nra|]. apply Rle_trans with (4 * m * (1 - m * u)); [|lra]. apply Rmult_le_compat_l; nra. }
      assert (0 < h * h * (4 * m * (1 - m * u) - 1)) by (apply Rmult_lt_0_compat; nra). lra. }
    assert (HI : w < (z + h) * (z + h)).
    { apply Rle_lt_trans with ((1 + u) * (z * z)); [exact R2|]. rewrite EZ.
      assert (X : (m * (2 * h) + h) * (m * (2 * h) + h) - (1 + u) * (m * (2 * h) * (m * (2 * h))) = h * h * (4 * m * (1 - m * u) + 1)) by ring.
      assert (0 < h * h * (4 * m * (1 - m * u) + 1)) by (apply Rmult_lt_0_compat; nra). lra. }
    assert (ZH : h < z) by (rewrite EZ; nra).
    assert (SL : z - h < sqrt w) by (rewrite <- (sqrt_square (z - h)) by lra; apply sqrt_lt_1_alt; split; [nra|exact LO]).
    assert (SH : sqrt w < z + h) by (rewrite <- (sqrt_square (z + h)) by lra; apply sqrt_lt_1_alt; split; [nra|exact HI]).
    rewrite E. fold m. apply double_near; [|lia|].
    + split.
      * apply Rle_trans with (z - h); [|lra]. rewrite bpow_plus, H2, EZ. nra.
      * apply Rlt_le_trans with (z + h); [exact SH|]. rewrite bpow_plus, H2, EZ. nra.
    + fold m h. replace (m * bpow radix2 e) with z by (rewrite E; reflexivity). apply Rabs_def1; lra.
Qed.

Lemma rounded_size : forall z, float_of double z -> visible z -> Rabs z <= double (sqrt (double (z * z))).
Proof.
  intros z F V. destruct double_rounding as (Mo & Id & Z). destruct V as [->|V]; [rewrite Rabs_R0, Rmult_0_r, Z, sqrt_0, Z; lra|].
  assert (F2 : float_of double (Rabs z)) by (apply format_float, generic_format_abs, float_format; exact F).
  replace (z * z) with (Rabs z * Rabs z) by (rewrite <- Rabs_mult; apply Rabs_pos_eq; nra). rewrite root_square; [lra|exact F2|].
  replace (bpow radix2 (-500)) with (/ 2 ^ 500); [exact V|]. change (-500)%Z with (- (500))%Z. rewrite bpow_opp. f_equal. rewrite bpow_powerRZ. reflexivity.
Qed.
Lemma square_pos : forall x, 0 <= double (x * x).
Proof. intro x. destruct double_rounding as (Mo & Id & Z). rewrite <- Z. apply Mo. nra. Qed.
(** The sum of the squares, rounded, is not below any of them. *)
Lemma sum_above : forall x y z, let s := double (double (double (x * x) + double (y * y)) + double (z * z)) in
  double (x * x) <= s /\ double (y * y) <= s /\ double (z * z) <= s.
Proof.
  intros x y z s. destruct double_rounding as (Mo & Id & Z). pose proof (square_pos x) as X. pose proof (square_pos y) as Y. pose proof (square_pos z) as W.
  assert (Up : forall a b, 0 <= b -> double a <= double (double a + b)) by (intros a b H; apply Rle_trans with (double (double a)); [rewrite Id; lra|apply Mo; lra]).
  assert (A := Up (x * x) (double (y * y)) Y). assert (B := Up (y * y) (double (x * x)) X). rewrite (Rplus_comm (double (y * y))) in B.
  assert (C := Up (double (x * x) + double (y * y)) (double (z * z)) W). fold s in C.
  assert (D0 : 0 <= double (double (x * x) + double (y * y))) by lra. assert (D := Up (z * z) _ D0). rewrite (Rplus_comm (double (z * z))) in D. fold s in D.
  lra.
Qed.
(** A rounded distance is not below the size of any coordinate. *)
Theorem C81_distance : forall p, float_position p -> visible_position p ->
  Rabs (vx p) <= fl_distance double p /\ Rabs (vy p) <= fl_distance double p /\ Rabs (vz p) <= fl_distance double p.
Proof.
  intros [x y z] (FX & FY & FZ) (VX & VY & VZ). cbn [vx vy vz] in *. unfold fl_distance. cbn [vx vy vz]. destruct double_rounding as (Mo & _). destruct (sum_above x y z) as (A & B & C).
  repeat split; (eapply Rle_trans; [apply rounded_size; eassumption|]); apply Mo; apply sqrt_le_1_alt; assumption.
Qed.
Print Assumptions C81_distance.
Lemma add_zero : forall a b, a = 0 \/ bpow radix2 (-1000) <= a -> b = 0 \/ bpow radix2 (-1000) <= b -> a + b = 0 \/ bpow radix2 (-1000) <= a + b.
Proof. intros a b A B. pose proof (bpow_gt_0 radix2 (-1000)). destruct A as [->|A], B as [->|B]; [left; lra|right; lra|right; lra|right; lra]. Qed.
Lemma weaken : forall a, a = 0 \/ bpow radix2 (-1000) <= a -> a = 0 \/ bpow radix2 (-1022) <= a.
Proof. intros a [A|A]; [left; exact A|right]. eapply Rle_trans; [apply bpow_le with (e2 := (-1000)%Z); lia|exact A]. Qed.
Lemma cube_le : forall u, 0 <= u <= 1 -> 0 <= (1 - u) ^ 3 <= 1 /\ 1 <= (1 + u) ^ 3.
Proof. intros u U. split; [split; [apply pow_le; lra|]|]. - rewrite <- (pow1 3). apply pow_incr. lra. - rewrite <- (pow1 3). apply pow_incr. lra. Qed.
(** ... and is exact within four roundings. *)
Theorem C81_precision : forall p, visible_position p ->
  (1 - unit_roundoff) ^ 4 * vnorm p <= fl_distance double p <= (1 + unit_roundoff) ^ 4 * vnorm p.
Proof.
  intros [x y z] (VX & VY & VZ). cbn [vx vy vz] in *. unfold fl_distance, vnorm, vdot. cbn [vx vy vz]. destruct double_rounding as (Mo & Id & Z).
  assert (UB : 0 < unit_roundoff < 1) by (unfold unit_roundoff; split; [apply Rinv_0_lt_compat; lra|lra]).
  assert (K : forall t, visible t -> 0 <= double (t * t) /\ (double (t * t) = 0 \/ bpow radix2 (-1000) <= double (t * t)) /\ (1 - unit_roundoff) * (t * t) <= double (t * t) <= (1 + unit_roundoff) * (t * t)).
  { intros t V. split; [apply square_pos|]. split; [apply keeps; [nra|apply squares; exact V]|]. apply rel. apply weaken. apply squares. exact V. }
  destruct (K x VX) as (X0 & X1 & X2). destruct (K y VY) as (Y0 & Y1 & Y2). destruct (K z VZ) as (Z0 & Z1 & Z2). clear K.
  set (u := unit_roundoff) in *. set (a := double (x * x)) in *. set (b := double (y * y)) in *. set (c := double (z * z)) in *.
  pose proof (add_zero a b X1 Y1) as AB. destruct (rel (a + b) (weaken _ AB)) as (L1 & H1). pose proof (keeps (a + b) ltac:(lra) AB) as K1. fold u in L1, H1.
  set (d := double (a + b)) in *. assert (D0 : 0 <= d) by (eapply Rle_trans; [|exact L1]; apply Rmult_le_pos; lra).
  pose proof (add_zero d c K1 Z1) as DC. destruct (rel (d + c) (weaken _ DC)) as (L2 & H2). pose proof (keeps (d + c) ltac:(lra) DC) as K2. fold u in L2, H2.
  set (e := double (d + c)) in *. set (n := x * x + y * y + z * z). assert (XX : 0 <= x * x) by nra. assert (YY : 0 <= y * y) by nra. assert (ZZ : 0 <= z * z) by nra.
  assert (LO : (1 - u) ^ 3 * n <= e).
  { apply Rle_trans with ((1 - u) * ((1 - u) * ((1 - u) * (x * x) + (1 - u) * (y * y)) + (1 - u) * (1 - u) * (z * z))); [unfold n; right; ring|].
    eapply Rle_trans; [|exact L2]. apply Rmult_le_compat_l; [lra|]. apply Rplus_le_compat.
    - eapply Rle_trans; [|exact L1]. apply Rmult_le_compat_l; [lra|]. lra.
    - eapply Rle_trans; [|apply Z2]. apply Rmult_le_compat_r; [exact ZZ|]. nra. }
  assert (HI : e <= (1 + u) ^ 3 * n).
  { eapply Rle_trans; [exact H2|]. apply Rle_trans with ((1 + u) * ((1 + u) * ((1 + u) * (x * x) + (1 + u) * (y * y)) + (1 + u) * (1 + u) * (z * z))); [|unfold n; right; ring].
    apply Rmult_le_compat_l; [lra|]. apply Rplus_le_compat.
    - eapply Rle_trans; [exact H1|]. apply Rmult_le_compat_l; [lra|]. lra.
    - eapply Rle_trans; [apply Z2|]. apply Rmult_le_compat_r; [exact ZZ|]. nra. }
  assert (N0 : 0 <= n) by (unfold n; lra). assert (E0 : 0 <= e) by (eapply Rle_trans; [|exact LO]; apply Rmult_le_pos; [apply pow_le; lra|exact N0]).
  destruct (cube_le u ltac:(lra)) as ((C1 & C2) & C3).
  assert (SL : (1 - u) ^ 3 * sqrt n <= sqrt e).
  { apply Rle_trans with (sqrt ((1 - u) ^ 3 * n)); [|apply sqrt_le_1_alt; exact LO]. rewrite sqrt_mult by lra. apply Rmult_le_compat_r; [apply sqrt_pos|].
    rewrite <- (sqrt_square ((1 - u) ^ 3)) at 1 by lra. apply sqrt_le_1_alt. rewrite <- (Rmult_1_r ((1 - u) ^ 3)) at 3. apply Rmult_le_compat_l; lra. }
  assert (SH : sqrt e <= (1 + u) ^ 3 * sqrt n).
  { apply Rle_trans with (sqrt ((1 + u) ^ 3 * n)); [apply sqrt_le_1_alt; exact HI|]. rewrite sqrt_mult by lra. apply Rmult_le_compat_r; [apply sqrt_pos|].
    rewrite <- (sqrt_square ((1 + u) ^ 3)) at 2 by lra. apply sqrt_le_1_alt. rewrite <- (Rmult_1_r ((1 + u) ^ 3)) at 1. apply Rmult_le_compat_l; lra. }
  assert (EV : sqrt e = 0 \/ bpow radix2 (-1022) <= sqrt e).
  { destruct K2 as [K2|K2]; fold e in K2; [left; rewrite K2; apply sqrt_0|right]. apply Rle_trans with (sqrt (bpow radix2 (-1000))); [|apply sqrt_le_1_alt; exact K2].
    replace (bpow radix2 (-1000)) with (bpow radix2 (-500) * bpow radix2 (-500)) by (rewrite <- bpow_plus; reflexivity). rewrite sqrt_square by apply bpow_ge_0. apply bpow_le. lia. }
  destruct (rel (sqrt e) EV) as (L3 & H3). fold u in L3, H3. split.
  - eapply Rle_trans; [|exact L3]. replace ((1 - u) ^ 4 * sqrt n) with ((1 - u) * ((1 - u) ^ 3 * sqrt n)) by ring. apply Rmult_le_compat_l; lra.
  - eapply Rle_trans; [exact H3|]. replace ((1 + u) ^ 4 * sqrt n) with ((1 + u) * ((1 + u) ^ 3 * sqrt n)) by ring. apply Rmult_le_compat_l; lra.
Qed.
Print Assumptions C81_precision.
(** The sine of the declination exists and is between -1 and 1 wherever the squares of the coordinates do not underflow. *)
Theorem C81_declination_partial : forall p, float_position p -> visible_position p -> p <> V 0 0 0 -> exists s, fl_sine double p = Some s /\ -1 <= s <= 1.
Proof.
  intros p F V N. destruct (C81_distance p F V) as (A & B & C). destruct double_rounding as (Mo & Id & Z).
  assert (P : 0 < fl_distance double p).
  { destruct (Rle_lt_dec (fl_distance double p) 0) as [L|L]; [|exact L]. exfalso. apply N. destruct p as [x y z]. cbn [vx vy vz] in *.
    pose proof (Rabs_pos x). pose proof (Rabs_pos y). pose proof (Rabs_pos z).
    assert (forall t, Rabs t = 0 -> t = 0) as Q by (intros t T; destruct (Req_dec t 0) as [G|G]; [exact G|apply Rabs_no_R0 in G; contradiction]).
    f_equal; apply Q; lra. }
  unfold fl_sine. destruct (Req_EM_T _ 0); [lra|]. eexists. split; [reflexivity|]. set (d := fl_distance double p) in *.
  assert (Q : -1 <= vz p / d <= 1).
  { apply Rabs_le_inv in C. split; apply Rmult_le_reg_r with d; try exact P; unfold Rdiv; rewrite Rmult_assoc, Rinv_l by lra; lra. }
  assert (M1 : double (-1) = -1) by (apply (double_opp 1); exact double_one). split; [rewrite <- M1; apply Mo; lra|]. apply Rle_trans with (double 1); [apply Mo; lra|rewrite double_one; lra].
Qed.
Print Assumptions C81_declination_partial.
(** Below, it is not: the distance of (0, 0, 2^-600) is rounded to 0. *)
Theorem C81_declination_refuted : exists p, float_position p /\ p <> V 0 0 0 /\ fl_distance double p = 0 /\ fl_sine double p = None.
Proof.
  exists (V 0 0 (bpow radix2 (-600))). pose proof (bpow_gt_0 radix2 (-600)) as P. destruct double_rounding as (Mo & Id & Z).
  assert (D : fl_distance double (V 0 0 (bpow radix2 (-600))) = 0).
  { unfold fl_distance. cbn [vx vy vz]. rewrite Rmult_0_r, Z, Rplus_0_r, Z, Rplus_0_l, <- bpow_plus. change (-600 + -600)%Z with (-1200)%Z.
    assert (T : double (bpow radix2 (-1200)) = 0).
    { apply round_N_small_pos with (ex := (-1199)%Z); [split; [apply bpow_le; lia|apply bpow_lt; lia]|]. unfold FLT_exp. lia. }
    rewrite T, Z, sqrt_0. exact Z. }
  split; [|split; [|split]].
  - repeat split; cbn [vx vy vz]; [exact Z|exact Z|apply double_bpow; lia].
  - intro E. injection E as E. lra.
  - exact D.
  - unfold fl_sine. destruct (Req_EM_T _ 0) as [_|N]; [reflexivity|contradiction].
Qed.
Print Assumptions C81_declination_refuted.
(** A case: the position (3, 4, 12), and the angles in degrees, of whose condition this is the value. *)
Example C81_position_case : float_position (V 3 4 12) /\ visible_position (V 3 4 12) /\ V 3 4 12 <> V 0 0 0 /\ vnorm (V 3 4 12) = 13 /\ 0 < double (fl_pi double / 180) /\ rounding double.
Proof.
  assert (F : forall k, (Z.abs k < 2 ^ 53)%Z -> float_of double (IZR k)) by (intros k K; rewrite <- (Rmult_1_r (IZR k)); apply (double_make k 0); lia).
  assert (Big : forall t, 1 <= t -> visible t).
  { intros t T. right. rewrite Rabs_pos_eq by lra. apply Rle_trans with 1; [|exact T]. rewrite <- Rinv_1. apply Rinv_le_contravar; [lra|]. apply pow_R1_Rle. lra. }
  split; [repeat split; apply F; lia|]. split; [repeat split; apply Big; cbn; lra|]. split; [intro E; injection E; lra|]. split; [|split; [|exact double_rounding]].
  - unfold vnorm, vdot. cbn [vx vy vz]. replace (3 * 3 + 4 * 4 + 12 * 12) with (13 * 13) by ring. apply sqrt_square. lra.
  - destruct double_rounding as (Mo & Id & Z). assert (P : 1 <= fl_pi double). { unfold fl_pi. rewrite <- double_one. apply Mo. pose proof PI2_3_2. unfold PI2 in *. lra. }
    apply Rlt_le_trans with (double (bpow radix2 (-8))); [rewrite double_bpow by lia; apply bpow_gt_0|]. apply Mo. cbn. lra.
Qed.
(** A case: a box of size 1000 around 500 and the position 1250 in it. *)
Example C81_box_case : float_of double 1000 /\ float_of double 1 /\ fl_offset double 1000 500 = 0 /\ fl_periodic double 1000 500 1250 = 250.
Proof.
  assert (F : forall k, (Z.abs k < 2 ^ 53)%Z -> float_of double (IZR k)) by (intros k K; rewrite <- (Rmult_1_r (IZR k)); apply (double_make k 0); lia).
  assert (O : fl_offset double 1000 500 = 0). { unfold fl_offset. replace (1000 / 2) with 500 by lra. rewrite (F 500%Z) by lia. replace (500 - 500) with 0 by lra. apply double_rounding. }
  split; [apply F; lia|]. split; [exact double_one|]. split; [exact O|]. unfold fl_periodic. rewrite O, Rminus_0_r, (F 1250%Z) by lia. unfold fl_mod.
  assert (T : Rtrunc (1250 / 1000) = 1%Z) by (unfold Rtrunc; destruct (Rlt_dec _ 0); [lra|]; apply Rfloor_unique; lra). rewrite T. destruct (Req_EM_T _ 0); [lra|].
  destruct (Rltb 1000 0) eqn:A; [apply Rltb_true in A; lra|]. destruct (Rltb (1250 - _) 0) eqn:B; [apply Rltb_true in B; lra|]. cbn [xorb]. replace (1250 - 1000 * 1 + 0) with 250 by lra. apply F. lia.
Qed.
