Require Import Reals Lra Lia ZArith List Bool String.
From Verif Require Import Base Vec3 Isometry_Model Isometry_Spec Isometry_Proof Sky_Model Sky_Spec Sky_Proof Cutsky_Model Cutsky_Spec.
Import ListNotations.
Open Scope R_scope.

Lemma rad2deg_deg : forall e, rad2deg e * (PI / 180) = e.
Proof. intros. unfold rad2deg. field. apply PI_neq0. Qed.

Lemma sin_abs_le : forall a e, Rabs a <= e -> e <= PI / 2 -> Rabs (sin a) <= sin e.
Proof.
  intros a e H He. apply Rabs_le_inv in H. pose proof PI_RGT_0. apply Rabs_le. split.
  - rewrite <- sin_neg. apply sin_incr_1; lra.
  - apply sin_incr_1; lra.
Qed.

Lemma cos_abs_ge : forall a e, Rabs a <= e -> e <= PI -> cos e <= cos a.
Proof.
  intros a e H He. destruct (Rle_dec 0 a).
  - rewrite Rabs_right in H by lra. apply cos_decr_1; lra.
  - rewrite Rabs_left in H by lra. rewrite <- (cos_neg a). apply cos_decr_1; lra.
Qed.

Lemma mul_bound : forall d m x s, 0 <= d <= m -> Rabs x <= s -> Rabs (d * x) <= m * s.
Proof.
  intros d m x s Hd Hx. rewrite Rabs_mult, (Rabs_right d) by lra.
  pose proof (Rabs_pos x). apply Rmult_le_compat; lra.
Qed.

Lemma cos_dec_bounds : forall D, Rabs D <= PI / 2 -> 0 <= cos D <= 1.
Proof. intros D H. pose proof (COS_bound D). apply Rabs_le_inv in H. split; [apply cos_ge_0|]; lra. Qed.

(** Points of the region, written with angles in radians. *)
Lemma region_rad : forall dr rr de p, fst rr <= snd rr -> in_region dr rr de p ->
  exists d A D, fst dr <= d <= snd dr /\ fst rr * (PI / 180) <= A <= snd rr * (PI / 180) /\
    fst de * (PI / 180) <= D <= snd de * (PI / 180) /\ Rabs D <= PI / 2 /\
    p = V (d * cos D * cos A) (d * cos D * sin A) (d * sin D).
Proof.
  intros dr [lo hi] de p Ho (d & ra & dec & Hd & (k & Hk) & He & Hq & ->). cbn [fst snd] in *.
  destruct (Rlt_dec hi lo) as [C|_]; [lra|]. pose proof PI_RGT_0 as P.
  exists d, ((ra + 360 * IZR k) * (PI / 180)), (dec * (PI / 180)).
  split; auto. split; [split; apply Rmult_le_compat_r; lra|]. split; [split; apply Rmult_le_compat_r; lra|].
  split; [apply Rabs_le; nra|].
  replace ((ra + 360 * IZR k) * (PI / 180)) with (ra * (PI / 180) + IZR k * (2 * PI)) by field.
  rewrite cos_period_Z, sin_period_Z. reflexivity.
Qed.

(* ---------- box_to_cutsky, observer inside ---------- *)
Lemma np_arcsin_ok : forall x, 0 <= x <= 1 -> np_arcsin x = Ok (asin x).
Proof. intros. unfold np_arcsin. destruct (Rle_dec (Rabs x) 1) as [_|N]; auto. exfalso; apply N. rewrite Rabs_right; lra. Qed.

Lemma asin_range : forall x, 0 <= x <= 1 -> 0 <= asin x <= PI / 2.
Proof.
  intros x H. pose proof (asin_bound x). split; [|lra]. destruct (Rle_lt_dec 0 (asin x)); auto.
  exfalso. pose proof PI_RGT_0. assert (K : sin (asin x) < 0) by (apply sin_lt_0_var; lra). rewrite sin_asin in K; lra.
Qed.

Lemma div_range : forall b m, 0 <= b -> 0 < m -> 0 <= b / m.
Proof. intros. apply Rmult_le_pos; auto. left; apply Rinv_0_lt_compat; auto. Qed.

Lemma div_mul : forall b m, 0 < m -> m * (b / m) = b.
Proof. intros. field. lra. Qed.

(** What the two half-widths guarantee, before the y/z exchange. *)
Lemma btc_inside_ok : forall b1 b2 dx dmax, 0 < dmax -> 0 <= b2 <= b1 -> dx <= 0 ->
  exists e0 e1, btc_inside b1 b2 dx dmax = Ok (0, e0, e1) /\ 0 <= e0 <= PI /\ 0 <= e1 <= PI / 2 /\
    dmax * sin e1 <= b2 / 2 /\ dx <= dmax * cos e0 /\
    ((e0 <= PI / 2 /\ dmax * sin e0 <= b1 / 2) \/ dmax <= b1 / 2).
Proof.
  intros b1 b2 dx dmax Hm Hb Hdx. unfold btc_inside, fdiv. destruct (Req_EM_T dmax 0) as [E|_]; [lra|]. cbn [bind].
  assert (Q1 : 0 <= b1 / 2 / dmax) by (apply div_range; lra).
  assert (Q2 : 0 <= b2 / 2 / dmax) by (apply div_range; lra).
  assert (Q21 : b2 / 2 / dmax <= b1 / 2 / dmax).
  { apply Rmult_le_compat_r; [left; apply Rinv_0_lt_compat; lra|lra]. }
  pose proof (div_mul (b1 / 2) dmax Hm) as M1. pose proof (div_mul (b2 / 2) dmax Hm) as M2.
  set (q1 := b1 / 2 / dmax) in *. set (q2 := b2 / 2 / dmax) in *. pose proof PI_RGT_0 as P.
  destruct (Rlt_dec q1 1) as [L1|L1].
  - rewrite (np_arcsin_ok q1), (np_arcsin_ok q2) by lra. cbn [bind].
    pose proof (asin_range q1 ltac:(lra)). pose proof (asin_range q2 ltac:(lra)).
    exists (asin q1), (asin q2). repeat split; try lra.
    + rewrite sin_asin by lra. lra.
    + pose proof (cos_ge_0 (asin q1) ltac:(lra) ltac:(lra)). nra.
    + left. split; [lra|]. rewrite sin_asin by lra. lra.
  - assert (B1 : dmax <= b1 / 2) by nra.
    assert (QX : 0 <= Rabs dx / dmax) by (apply div_range; [apply Rabs_pos|lra]).
    assert (MX : dmax * (Rabs dx / dmax) = - dx) by (rewrite div_mul by lra; rewrite Rabs_left1 by lra; auto).
    set (q := Rabs dx / dmax) in *.
    assert (E1 : exists e1, (if Rlt_dec q2 1 then np_arcsin q2 else Ok (PI / 2)) = Ok e1 /\ 0 <= e1 <= PI / 2 /\ dmax * sin e1 <= b2 / 2).
    { destruct (Rlt_dec q2 1).
      - rewrite np_arcsin_ok by lra. pose proof (asin_range q2 ltac:(lra)). exists (asin q2). split; auto. split; [lra|]. rewrite sin_asin by lra. lra.
      - exists (PI / 2). split; auto. split; [lra|]. rewrite sin_PI2. nra. }
    destruct E1 as (e1 & E1 & R1 & S1).
    destruct (Rlt_dec q 1) as [L|L].
    + rewrite np_arcsin_ok by lra. cbn [bind]. rewrite E1. cbn [bind]. pose proof (asin_range q ltac:(lra)).
      exists (asin q + PI / 2), e1. repeat split; try lra.
      replace (cos (asin q + PI / 2)) with (- sin (asin q)) by (rewrite cos_plus, cos_PI2, sin_PI2; ring).
      rewrite sin_asin by lra. lra.
    + cbn [bind]. rewrite E1. cbn [bind]. exists PI, e1. repeat split; try lra. rewrite cos_PI. nra.
Qed.

Lemma btc_inside_cover : forall b1 b2 dx dmax e0 e1 d A D,
  dx <= 0 -> 0 <= e0 <= PI -> 0 <= e1 <= PI / 2 -> dmax * sin e1 <= b2 / 2 -> dx <= dmax * cos e0 ->
  ((e0 <= PI / 2 /\ dmax * sin e0 <= b1 / 2) \/ dmax <= b1 / 2) ->
  0 <= d <= dmax -> Rabs D <= PI / 2 ->
  (Rabs A <= e0 -> Rabs D <= e1 ->
     dx <= d * cos D * cos A <= dmax /\ Rabs (d * cos D * sin A) <= b1 / 2 /\ Rabs (d * sin D) <= b2 / 2) /\
  (Rabs A <= e1 -> Rabs D <= e0 ->
     dx <= d * cos D * cos A <= dmax /\ Rabs (d * sin D) <= b1 / 2 /\ Rabs (d * cos D * sin A) <= b2 / 2).
Proof.
  intros b1 b2 dx dmax e0 e1 d A D Hx H0 H1 S1 C0 Y Hd HD. pose proof PI_RGT_0 as P.
  pose proof (cos_dec_bounds D HD) as CD. pose proof (COS_bound A) as CA. pose proof (SIN_bound A) as SA. pose proof (SIN_bound D) as SD.
  assert (DC : 0 <= d * cos D <= dmax) by nra.
  assert (U : d * cos D * cos A <= dmax) by nra.
  assert (SA1 : Rabs (sin A) <= 1) by (apply Rabs_le; lra).
  assert (SD1 : Rabs (sin D) <= 1) by (apply Rabs_le; lra).
  split; intros HA HDe.
  - split; [split; [|exact U]|split].
    + pose proof (cos_abs_ge A e0 HA ltac:(lra)) as CG. destruct (Rle_dec 0 (cos A)); nra.
    + destruct Y as [[Y1 Y2]|Y].
      * pose proof (sin_abs_le A e0 HA Y1). pose proof (mul_bound _ _ _ _ DC H). lra.
      * pose proof (mul_bound _ _ _ _ DC SA1). lra.
    + pose proof (sin_abs_le D e1 HDe ltac:(lra)). pose proof (mul_bound _ _ _ _ Hd H). lra.
  - split; [split; [|exact U]|split].
    + pose proof (cos_abs_ge A e1 HA ltac:(lra)) as CG. pose proof (cos_ge_0 e1 ltac:(lra) ltac:(lra)). nra.
    + destruct Y as [[Y1 Y2]|Y].
      * pose proof (sin_abs_le D e0 HDe Y1). pose proof (mul_bound _ _ _ _ Hd H). lra.
      * pose proof (mul_bound _ _ _ _ Hd SD1). lra.
    + pose proof (sin_abs_le A e1 HA ltac:(lra)). pose proof (mul_bound _ _ _ _ DC H). lra.
Qed.

Lemma sym_range : forall e A, - rad2deg e * (PI / 180) <= A <= rad2deg e * (PI / 180) -> Rabs A <= e.
Proof. intros e A H. pose proof (rad2deg_deg e). apply Rabs_le. lra. Qed.

Lemma rad2deg_nonneg : forall e, 0 <= e -> 0 <= rad2deg e.
Proof. intros. unfold rad2deg. pose proof PI_RGT_0. apply div_range; nra. Qed.

Lemma btc_inside_thm : forall b dmax dmin, 0 < dmax -> dmax <= vx b -> 0 <= vy b -> 0 <= vz b ->
  exists dr rr de, box_to_cutsky b dmax dmin = Ok (dr, rr, de) /\ dr = (0, dmax) /\
    forall p, in_region dr rr de p -> in_box_at b dmax p.
Proof.
  intros b dmax dmin Hm Hx Hy Hz. unfold box_to_cutsky. destruct (Rle_dec (dmax - vx b) 0) as [Hdx|N]; [|lra].
  destruct (Rltb (vy b) (vz b)) eqn:F.
  - apply Rltb_true in F. destruct (btc_inside_ok (vz b) (vy b) (dmax - vx b) dmax Hm ltac:(lra) Hdx) as (e0 & e1 & E & R0 & R1 & S1 & C0 & Y).
    rewrite E. cbn [bind]. do 3 eexists. split; [reflexivity|]. split; [reflexivity|]. intros p Hp.
    pose proof (rad2deg_nonneg e1 ltac:(lra)).
    apply region_rad in Hp; [|cbn; lra]. destruct Hp as (d & A & D & Hd & HA & HD & HD2 & ->). cbn [fst snd] in *.
    apply sym_range in HA, HD. destruct (btc_inside_cover _ _ _ _ _ _ d A D Hdx R0 R1 S1 C0 Y Hd HD2) as [_ K].
    specialize (K HA HD). unfold in_box_at; cbn. tauto.
  - apply Rltb_false in F. destruct (btc_inside_ok (vy b) (vz b) (dmax - vx b) dmax Hm ltac:(lra) Hdx) as (e0 & e1 & E & R0 & R1 & S1 & C0 & Y).
    rewrite E. cbn [bind]. do 3 eexists. split; [reflexivity|]. split; [reflexivity|]. intros p Hp.
    pose proof (rad2deg_nonneg e0 ltac:(lra)).
    apply region_rad in Hp; [|cbn; lra]. destruct Hp as (d & A & D & Hd & HA & HD & HD2 & ->). cbn [fst snd] in *.
    apply sym_range in HA, HD. destruct (btc_inside_cover _ _ _ _ _ _ d A D Hdx R0 R1 S1 C0 Y Hd HD2) as [K _].
    specialize (K HA HD). unfold in_box_at; cbn. tauto.
Qed.

(** A box that is largest along z, with the observer inside: the declination range reaches beyond the pole. *)
Lemma btc_dec_beyond : exists dr rr de, box_to_cutsky (V 3 2 4) 2 0 = Ok (dr, rr, de) /\ 90 < snd de.
Proof.
  unfold box_to_cutsky. cbn [vx vy vz]. destruct (Rle_dec (2 - 3) 0); [|lra].
  replace (Rltb 2 4) with true by (symmetry; apply Rltb_true; lra).
  unfold btc_inside, fdiv. destruct (Req_EM_T 2 0); [lra|]. cbn [bind]. destruct (Rlt_dec (4 / 2 / 2) 1); [lra|].
  replace (Rabs (2 - 3)) with 1 by (rewrite Rabs_left by lra; lra).
  destruct (Rlt_dec (1 / 2) 1); [|lra]. rewrite np_arcsin_ok by lra. cbn [bind].
  destruct (Rlt_dec (2 / 2 / 2) 1); [|lra]. rewrite np_arcsin_ok by lra. cbn [bind]. do 3 eexists. split; [reflexivity|].
  cbn [snd]. pose proof PI_RGT_0 as P.
  assert (0 < asin (1 / 2)).
  { destruct (Rlt_le_dec 0 (asin (1 / 2))); auto. exfalso. pose proof (asin_bound (1/2)).
    assert (K : sin (asin (1/2)) <= 0) by (rewrite <- sin_0; apply sin_incr_1; lra).
    rewrite sin_asin in K; lra. }
  apply Rmult_lt_reg_r with (PI / 180); [lra|]. rewrite rad2deg_deg. lra.
Qed.

(* ---------- box_to_cutsky, observer outside ---------- *)
Lemma np_arccos_inv : forall x a, np_arccos x = Ok a -> -1 <= x <= 1 /\ a = acos x.
Proof.
  intros x a. unfold np_arccos. destruct (Rle_dec (Rabs x) 1) as [L|]; intros E; [|discriminate].
  injection E as <-. split; auto. apply Rabs_le_inv; auto.
Qed.
Lemma np_arcsin_inv : forall x a, np_arcsin x = Ok a -> -1 <= x <= 1 /\ a = asin x.
Proof.
  intros x a. unfold np_arcsin. destruct (Rle_dec (Rabs x) 1) as [L|]; intros E; [|discriminate].
  injection E as <-. split; auto. apply Rabs_le_inv; auto.
Qed.
Lemma fdiv_inv : forall x y q, fdiv x y = Ok q -> y <> 0 /\ q = x / y.
Proof. intros x y q. unfold fdiv. destruct (Req_EM_T y 0); intros E; [discriminate|]. injection E as <-. auto. Qed.

Lemma btc_outside_ok : forall b1 b2 dx dmax dmin m e0 e1, 0 < dmax -> 0 <= b2 <= b1 -> 0 < dx ->
  btc_outside b1 b2 dx dmax dmin = Ok (m, e0, e1) ->
  0 < m /\ 0 <= e0 <= PI / 2 /\ 0 <= e1 <= PI / 2 /\ cos e0 = dx / m /\ dx / m <= cos e1 /\
  dmax * sin e1 <= b2 / 2 /\ (m <= dmax -> dmax * sin e0 <= b1 / 2).
Proof.
  intros b1 b2 dx dmax dmin m e0 e1 Hm Hb Hx H. unfold btc_outside in H. pose proof PI_RGT_0 as P.
  match type of H with (do r <- ?X; _) = _ => destruct X as [[m' a]|] eqn:EX end; [|discriminate]. cbn [bind] in H.
  destruct (fdiv (b2 / 2) dmax) as [q2|] eqn:E2; cbn [bind] in H; [|discriminate]. apply fdiv_inv in E2 as [_ ->].
  destruct (np_arcsin (b2 / 2 / dmax)) as [t1|] eqn:E3; cbn [bind] in H; [|discriminate]. apply np_arcsin_inv in E3 as [R2 ->].
  destruct (fdiv dx m') as [q3|] eqn:E4; cbn [bind] in H; [|discriminate]. apply fdiv_inv in E4 as [NM ->].
  destruct (np_arccos (dx / m')) as [t2|] eqn:E5; cbn [bind] in H; [|discriminate]. apply np_arccos_inv in E5 as [R3 ->].
  injection H as -> -> <-.
  assert (K : 0 < m /\ 0 <= e0 <= PI / 2 /\ cos e0 = dx / m /\ (m <= dmax -> dmax * sin e0 <= b1 / 2)).
  { destruct (Rlt_dec (sqrt (dx ^ 2 + (b1 / 2) ^ 2)) dmax) as [L|L].
    - destruct (fdiv (b1 / 2) dmax) as [q|] eqn:F1; cbn [bind] in EX; [|discriminate]. apply fdiv_inv in F1 as [_ ->].
      destruct (np_arcsin (b1 / 2 / dmax)) as [a'|] eqn:F2; cbn [bind] in EX; [|discriminate]. apply np_arcsin_inv in F2 as [Q1 ->].
      destruct (fdiv dx (cos (asin (b1 / 2 / dmax)))) as [mm|] eqn:F3; cbn [bind] in EX; [|discriminate]. apply fdiv_inv in F3 as [NC ->].
      injection EX as <- <-. pose proof (div_range (b1 / 2) dmax ltac:(lra) Hm) as QP.
      pose proof (asin_range (b1 / 2 / dmax) ltac:(lra)) as AR. pose proof (div_mul (b1 / 2) dmax Hm) as M1.
      pose proof (cos_ge_0 (asin (b1 / 2 / dmax)) ltac:(lra) ltac:(lra)) as CG.
      assert (CP : 0 < cos (asin (b1 / 2 / dmax))) by lra.
      split; [apply Rdiv_lt_0_compat; lra|]. split; [lra|]. split; [field; lra|]. intros _. rewrite sin_asin by lra. lra.
    - destruct (Rlt_dec dmin dx); [discriminate|]. destruct (fdiv dx dmin) as [q|] eqn:F1; cbn [bind] in EX; [|discriminate].
      apply fdiv_inv in F1 as [ND ->]. destruct (np_arccos (dx / dmin)) as [a'|] eqn:F2; cbn [bind] in EX; [|discriminate].
      apply np_arccos_inv in F2 as [Q1 ->]. injection EX as <- <-. assert (MP : 0 < dmin) by lra.
      pose proof (div_range dx dmin ltac:(lra) MP) as QP. pose proof (acos_bound (dx / dmin)) as AB.
      assert (A2 : acos (dx / dmin) <= PI / 2).
      { destruct (Rle_dec (acos (dx / dmin)) (PI / 2)); auto. exfalso.
        assert (Z : cos (acos (dx / dmin)) < 0) by (apply cos_lt_0; lra). rewrite cos_acos in Z; lra. }
      split; [lra|]. split; [lra|]. split; [rewrite cos_acos; lra|]. intros LM.
      assert (SG : 0 <= sin (acos (dx / dmin))) by (apply sin_ge_0; lra).
      pose proof (sin2_cos2 (acos (dx / dmin))) as SC. unfold Rsqr in SC. rewrite cos_acos in SC by lra.
      set (s := sin (acos (dx / dmin))) in *. pose proof (div_mul dx dmin MP) as DM. set (q := dx / dmin) in *.
      assert (DM2 : dmax ^ 2 <= dx ^ 2 + (b1 / 2) ^ 2).
      { apply Rnot_lt_le in L. apply Rle_trans with (sqrt (dx ^ 2 + (b1 / 2) ^ 2) ^ 2).
        - apply pow_incr. lra.
        - rewrite pow2_sqrt; [lra|]. pose proof (pow2_ge_0 dx). pose proof (pow2_ge_0 (b1 / 2)). lra. }
      assert (DX : dx <= dmax * q) by nra.
      apply Rnot_lt_le. intros C. assert (C2 : (b1 / 2) ^ 2 < (dmax * s) ^ 2) by nra.
      assert (E : (dmax * s) ^ 2 = dmax ^ 2 - (dmax * q) ^ 2) by nra. assert (dx ^ 2 <= (dmax * q) ^ 2) by nra. lra. }
  destruct K as (K1 & K2 & K3 & K4). split; auto. split; auto.
  pose proof (div_range (b2 / 2) dmax ltac:(lra) Hm) as QP2. pose proof (asin_range (b2 / 2 / dmax) ltac:(lra)) as AR2.
  pose proof (acos_bound (dx / m)) as AB.
  assert (MN : 0 <= Rmin (asin (b2 / 2 / dmax)) (acos (dx / m)) <= PI / 2).
  { split; [apply Rmin_glb; lra|]. eapply Rle_trans; [apply Rmin_l|lra]. }
  split; auto. split; auto. split; [|split; auto].
  - rewrite <- (cos_acos (dx / m)) at 1 by lra. apply cos_decr_1; try lra. apply Rmin_r.
  - pose proof (div_mul (b2 / 2) dmax Hm) as M2. rewrite <- M2 at 2. apply Rmult_le_compat_l; [lra|].
    rewrite <- (sin_asin (b2 / 2 / dmax)) at 2 by lra. apply sin_incr_1; try lra. apply Rmin_l.
Qed.

Lemma btc_outside_cover : forall b1 b2 dx dmax m e0 e1 d A D, 0 < dx -> 0 < m -> 0 <= e0 <= PI / 2 -> 0 <= e1 <= PI / 2 ->
  cos e0 = dx / m -> dx / m <= cos e1 -> dmax * sin e1 <= b2 / 2 -> dmax * sin e0 <= b1 / 2 ->
  m <= d <= dmax -> Rabs D <= PI / 2 -> (cos A = 1 \/ cos D = 1) ->
  (Rabs A <= e0 -> Rabs D <= e1 ->
     dx <= d * cos D * cos A <= dmax /\ Rabs (d * cos D * sin A) <= b1 / 2 /\ Rabs (d * sin D) <= b2 / 2) /\
  (Rabs A <= e1 -> Rabs D <= e0 ->
     dx <= d * cos D * cos A <= dmax /\ Rabs (d * sin D) <= b1 / 2 /\ Rabs (d * cos D * sin A) <= b2 / 2).
Proof.
  intros b1 b2 dx dmax m e0 e1 d A D Hx Hm H0 H1 C0 C1 S1 S0 Hd HD Hone. pose proof PI_RGT_0 as P.
  pose proof (cos_dec_bounds D HD) as CD. pose proof (COS_bound A) as CA.
  assert (Hd' : 0 <= d <= dmax) by lra. assert (DC : 0 <= d * cos D <= dmax) by nra.
  assert (U : d * cos D * cos A <= dmax) by nra. pose proof (div_mul dx m Hm) as DM. set (q := dx / m) in *.
  assert (Q : 0 < q) by nra.
  assert (LOW : q <= cos A -> q <= cos D -> dx <= d * cos D * cos A).
  { intros X Y. destruct Hone as [E|E]; rewrite E; nra. }
  split; intros HA HDe.
  - pose proof (cos_abs_ge A e0 HA ltac:(lra)). pose proof (cos_abs_ge D e1 HDe ltac:(lra)).
    split; [split; [apply LOW; lra|exact U]|split].
    + pose proof (sin_abs_le A e0 HA ltac:(lra)) as K. pose proof (mul_bound _ _ _ _ DC K). lra.
    + pose proof (sin_abs_le D e1 HDe ltac:(lra)) as K. pose proof (mul_bound _ _ _ _ Hd' K). lra.
  - pose proof (cos_abs_ge A e1 HA ltac:(lra)). pose proof (cos_abs_ge D e0 HDe ltac:(lra)).
    split; [split; [apply LOW; lra|exact U]|split].
    + pose proof (sin_abs_le D e0 HDe ltac:(lra)) as K. pose proof (mul_bound _ _ _ _ Hd' K). lra.
    + pose proof (sin_abs_le A e1 HA ltac:(lra)) as K. pose proof (mul_bound _ _ _ _ DC K). lra.
Qed.

Lemma btc_outside_thm : forall b dmax dmin dr rr de, 0 < vx b -> vx b < dmax -> 0 <= vy b -> 0 <= vz b ->
  box_to_cutsky b dmax dmin = Ok (dr, rr, de) ->
  forall d ra dec, fst dr <= d <= snd dr -> fst rr <= ra <= snd rr -> fst de <= dec <= snd de -> (ra = 0 \/ dec = 0) ->
  in_box_at b dmax (sky_point d ra dec).
Proof.
  intros b dmax dmin dr rr de Hb Hx Hy Hz H d ra dec Hd Hra Hdec Hor. unfold box_to_cutsky in H.
  destruct (Rle_dec (dmax - vx b) 0) as [N|_]; [lra|]. pose proof PI_RGT_0 as P.
  assert (ONE : cos (ra * (PI / 180)) = 1 \/ cos (dec * (PI / 180)) = 1).
  { destruct Hor as [->| ->]; [left|right]; rewrite Rmult_0_l; apply cos_0. }
  destruct (Rltb (vy b) (vz b)) eqn:F.
  - apply Rltb_true in F. destruct (btc_outside (vz b) (vy b) (dmax - vx b) dmax dmin) as [[[m e0] e1]|] eqn:E; [|discriminate].
    cbn [bind] in H. injection H as <- <- <-. cbn [fst snd] in *.
    apply btc_outside_ok in E; try lra. destruct E as (K1 & K2 & K3 & K4 & K5 & K6 & K7). specialize (K7 ltac:(lra)).
    assert (RA : Rabs (ra * (PI / 180)) <= e1) by (apply sym_range; split; apply Rmult_le_compat_r; lra).
    assert (DE : Rabs (dec * (PI / 180)) <= e0) by (apply sym_range; split; apply Rmult_le_compat_r; lra).
    destruct (btc_outside_cover (vz b) (vy b) (dmax - vx b) dmax m e0 e1 d _ (dec * (PI / 180)) ltac:(lra) K1 K2 K3 K4 K5 K6 K7 Hd ltac:(lra) ONE) as [_ K].
    specialize (K RA DE). unfold in_box_at, sky_point; cbn. tauto.
  - apply Rltb_false in F. destruct (btc_outside (vy b) (vz b) (dmax - vx b) dmax dmin) as [[[m e0] e1]|] eqn:E; [|discriminate].
    cbn [bind] in H. injection H as <- <- <-. cbn [fst snd] in *.
    apply btc_outside_ok in E; try lra. destruct E as (K1 & K2 & K3 & K4 & K5 & K6 & K7). specialize (K7 ltac:(lra)).
    assert (RA : Rabs (ra * (PI / 180)) <= e0) by (apply sym_range; split; apply Rmult_le_compat_r; lra).
    assert (DE : Rabs (dec * (PI / 180)) <= e1) by (apply sym_range; split; apply Rmult_le_compat_r; lra).
    destruct (btc_outside_cover (vy b) (vz b) (dmax - vx b) dmax m e0 e1 d _ (dec * (PI / 180)) ltac:(lra) K1 K2 K3 K4 K5 K6 K7 Hd ltac:(lra) ONE) as [K _].
    specialize (K RA DE). unfold in_box_at, sky_point; cbn. tauto.
Qed.

Lemma asin_half : asin (1 / 2) = PI / 6.
Proof. rewrite <- sin_PI6. apply asin_sin. pose proof PI_RGT_0. lra. Qed.

(** Observer at distance 1 in front of a box (1, 2, 2), dmax = 2. *)
Lemma btc_outside_example : box_to_cutsky (V 1 2 2) 2 0 = Ok ((1 / cos (PI / 6), 2), (- rad2deg (PI / 6), rad2deg (PI / 6)), (- rad2deg (PI / 6), rad2deg (PI / 6))).
Proof.
  unfold box_to_cutsky. cbn [vx vy vz]. pose proof PI_RGT_0 as P. destruct (Rle_dec (2 - 1) 0); [lra|].
  replace (Rltb 2 2) with false by (symmetry; apply Rltb_false; lra).
  unfold btc_outside. destruct (Rlt_dec (sqrt ((2 - 1) ^ 2 + (2 / 2) ^ 2)) 2) as [L|L].
  2: { exfalso. apply L. rewrite <- (sqrt_square 2) at 4 by lra. apply sqrt_lt_1; lra. }
  unfold fdiv. destruct (Req_EM_T 2 0); [lra|]. cbn [bind]. replace (2 / 2 / 2) with (1 / 2) by lra.
  rewrite np_arcsin_ok by lra. cbn [bind]. rewrite asin_half.
  assert (C : 0 < cos (PI / 6)) by (apply cos_gt_0; lra).
  destruct (Req_EM_T (cos (PI / 6)) 0); [lra|]. cbn [bind]. replace (2 - 1) with 1 by lra.
  destruct (Req_EM_T (1 / cos (PI / 6)) 0) as [Z|_].
  { exfalso. assert (1 / cos (PI / 6) * cos (PI / 6) = 1) by (field; lra). rewrite Z in H. lra. }
  cbn [bind]. replace (1 / (1 / cos (PI / 6))) with (cos (PI / 6)) by (field; lra).
  unfold np_arccos. destruct (Rle_dec (Rabs (cos (PI / 6))) 1) as [_|N].
  2: { exfalso; apply N. apply Rabs_le. pose proof (COS_bound (PI / 6)). lra. }
  cbn [bind]. rewrite acos_cos by lra. rewrite Rmin_left by lra. reflexivity.
Qed.

Lemma btc_outside_corner : exists dr rr de p, box_to_cutsky (V 1 2 2) 2 0 = Ok (dr, rr, de) /\ in_region dr rr de p /\ ~ in_box_at (V 1 2 2) 2 p.
Proof.
  do 3 eexists. exists (sky_point (1 / cos (PI / 6)) (rad2deg (PI / 6)) (rad2deg (PI / 6))). split; [apply btc_outside_example|].
  pose proof PI_RGT_0 as P. assert (C : 0 < cos (PI / 6)) by (apply cos_gt_0; lra).
  assert (R30 : rad2deg (PI / 6) = 30) by (unfold rad2deg; field; lra). pose proof (sin2_cos2 (PI / 6)) as SC. unfold Rsqr in SC. rewrite sin_PI6 in SC.
  assert (LT : 1 / cos (PI / 6) <= 2).
  { apply Rmult_le_reg_r with (cos (PI / 6)); auto. unfold Rdiv. rewrite Rmult_assoc, Rinv_l by lra. nra. }
  split.
  - exists (1 / cos (PI / 6)), (rad2deg (PI / 6)), (rad2deg (PI / 6)). cbn [fst snd]. split; [lra|]. split.
    + exists 0%Z. rewrite R30. cbn [fst snd]. destruct (Rlt_dec 30 (- (30))); lra.
    + rewrite R30. split; [lra|]. split; [lra|]. reflexivity.
  - intros (X & _). unfold sky_point in X. cbn [vx] in X. rewrite rad2deg_deg in X.
    replace (1 / cos (PI / 6) * cos (PI / 6) * cos (PI / 6)) with (cos (PI / 6)) in X by (field; lra). nra.
Qed.

(* ---------- cutsky_to_box ---------- *)
Lemma los_y : get_los (AxStr "y") = Ok (V 0 1 0). Proof. apply (get_los_axis 1). lia. Qed.
Lemma los_z : get_los (AxStr "z") = Ok (V 0 0 1). Proof. apply (get_los_axis 2). lia. Qed.

(** The isometry: shift along x, turn by dec0 towards +z, turn by ra0 about z. *)
Lemma ctb_ok : forall dr rr de, exists s, cutsky_to_box dr rr de = Ok (ctb_boxsize dr rr de, s) /\
  is_rotation (rot s) /\
  forall p, transform s false p =
    let t := PI / 180 in
    let r0 := (fst (ctb_rarange rr) + snd (ctb_rarange rr)) / 2 * t in
    let d0 := (fst de + snd de) / 2 * t in
    let x := vx p + (snd dr - vx (ctb_boxsize dr rr de) / 2) in
    let u := cos d0 * x - sin d0 * vz p in
    V (cos r0 * u - sin r0 * vy p) (sin r0 * u + cos r0 * vy p) (sin d0 * x + cos d0 * vz p).
Proof.
  intros dr rr de. unfold cutsky_to_box.
  set (b := ctb_boxsize dr rr de). set (r := ctb_rarange rr).
  pose proof (rotation_matrix_eq _ (- (fst de + snd de) / 2) _ los_y) as MY.
  pose proof (rotation_matrix_eq _ ((fst r + snd r) / 2) _ los_z) as MZ.
  set (sh := snd dr - vx b / 2) in *.
  assert (E1 : iso_translation iso_new (ShScalar sh) (AxStr "x") "origin" = (Iso mid (V sh 0 0), Ok tt)).
  { unfold iso_translation, shift_vector, xyz_index. cbn. repeat f_equal. unfold vzero; vunfold; vsplit; ring. }
  rewrite E1. cbn [iso_then].
  rewrite (iso_rotation_ok _ _ _ _ _ MY). cbn [iso_then]. rewrite (iso_rotation_ok _ _ _ _ _ MZ). cbn [rot tra].
  eexists; split; [reflexivity|]. split.
  - cbn [rot]. apply is_rotation_mul; [apply axis_rot_rotation|apply is_rotation_mul; [apply axis_rot_rotation|]].
    + vunfold; ring.
    + pose proof (sin2_cos2 ((fst r + snd r) / 2 * PI / 180)); unfold Rsqr in *; lra.
    + vunfold; ring.
    + pose proof (sin2_cos2 (- (fst de + snd de) / 2 * PI / 180)); unfold Rsqr in *; lra.
    + vunfold; split; [vsplit; ring|ring].
  - intros p. cbv zeta.
    replace (- (fst de + snd de) / 2 * PI / 180) with (- ((fst de + snd de) / 2 * (PI / 180))) by field.
    replace ((fst r + snd r) / 2 * PI / 180) with ((fst r + snd r) / 2 * (PI / 180)) by field.
    rewrite cos_neg, sin_neg. clearbody sh.
    generalize (cos ((fst de + snd de) / 2 * (PI / 180))) (sin ((fst de + snd de) / 2 * (PI / 180)))
               (cos ((fst r + snd r) / 2 * (PI / 180))) (sin ((fst r + snd r) / 2 * (PI / 180))). clear - sh p.
    intros c s c' s'. unfold transform, axis_rot, outer, cross_matrix, tra, rot. revert sh p c s c' s'. vring.
Qed.

(** Coordinates of a sky point in the frame of the box, up to the shift along x. *)
Definition fx (d D A D0 : R) := d * (cos D0 * (cos D * cos A) + sin D0 * sin D).
Definition fy (d D A : R) := d * (cos D * sin A).
Definition fz (d D A D0 : R) := d * (cos D0 * sin D - sin D0 * (cos D * cos A)).

Lemma ctb_covered_iff : forall dr rr de s b d ra dec, cutsky_to_box dr rr de = Ok (b, s) ->
  ((exists q, in_centred_box b q /\ transform s false q = sky_point d ra dec) <->
   let t := PI / 180 in
   let A := (ra - (fst (ctb_rarange rr) + snd (ctb_rarange rr)) / 2) * t in
   let D := dec * t in let D0 := (fst de + snd de) / 2 * t in
   snd dr - vx b <= fx d D A D0 <= snd dr /\ Rabs (fy d D A) <= vy b / 2 /\ Rabs (fz d D A D0) <= vz b / 2).
Proof.
  intros dr rr de s b d ra dec E. destruct (ctb_ok dr rr de) as (s' & E' & _ & T). rewrite E in E'. injection E' as -> ->.
  set (b := ctb_boxsize dr rr de) in *. set (t := PI / 180) in *. cbv zeta in *. set (r0 := (fst (ctb_rarange rr) + snd (ctb_rarange rr)) / 2) in *.
  set (D0 := (fst de + snd de) / 2 * t) in *.
  unfold sky_point. fold t. cbv zeta. set (D := dec * t). replace (ra * t) with ((ra - r0) * t + r0 * t) by ring. set (A := (ra - r0) * t).
  rewrite cos_plus, sin_plus. set (R0 := r0 * t) in *.
  pose proof (sin2_cos2 R0) as S1. pose proof (sin2_cos2 D0) as S2. unfold Rsqr in S1, S2.
  unfold fx, fy, fz. set (sh := snd dr - vx b / 2) in *.
  assert (K1 : sin R0 * sin R0 = 1 - cos R0 * cos R0) by lra. assert (K2 : sin D0 * sin D0 = 1 - cos D0 * cos D0) by lra.
  split.
  - intros (q & (B1 & B2 & B3) & Q). rewrite T in Q. injection Q as QX QY QZ.
    destruct q as [x y z]; cbn [vx vy vz] in *.
    set (u := cos D0 * (x + sh) - sin D0 * z) in *.
    assert (U : u = d * cos D * cos A).
    { transitivity (cos R0 * (cos R0 * u - sin R0 * y) + sin R0 * (sin R0 * u + cos R0 * y)); [ring [K1]|]. rewrite QX, QY. ring [K1]. }
    assert (Y : y = d * (cos D * sin A)).
    { transitivity (cos R0 * (sin R0 * u + cos R0 * y) - sin R0 * (cos R0 * u - sin R0 * y)); [ring [K1]|]. rewrite QX, QY. ring [K1]. }
    assert (X : x + sh = d * (cos D0 * (cos D * cos A) + sin D0 * sin D)).
    { transitivity (cos D0 * u + sin D0 * (sin D0 * (x + sh) + cos D0 * z)); [unfold u; ring [K2]|]. rewrite QZ, U. ring. }
    assert (Z : z = d * (cos D0 * sin D - sin D0 * (cos D * cos A))).
    { transitivity (cos D0 * (sin D0 * (x + sh) + cos D0 * z) - sin D0 * u); [unfold u; ring [K2]|]. rewrite QZ, U. ring. }
    apply Rabs_le_inv in B1. rewrite <- X, <- Y, <- Z. unfold sh. lra.
  - intros (BX & BY & BZ).
    exists (V (d * (cos D0 * (cos D * cos A) + sin D0 * sin D) - sh) (d * (cos D * sin A)) (d * (cos D0 * sin D - sin D0 * (cos D * cos A)))).
    split.
    + unfold in_centred_box; cbn [vx vy vz]. split; [apply Rabs_le; unfold sh; lra|auto].
    + rewrite T. cbn [vx vy vz].
      replace (d * (cos D0 * (cos D * cos A) + sin D0 * sin D) - sh + sh) with (d * (cos D0 * (cos D * cos A) + sin D0 * sin D)) by ring.
      vsplit; ring [K2].
Qed.

Lemma wrap_deg : forall a, exists k, wrap_angle true a = a + 360 * IZR k /\ 0 <= wrap_angle true a < 360.
Proof. intros a. destruct (wrap_congr true a) as [k E]. exists k. pose proof (wrap_range true a) as R. cbn [turn] in *. split; [lra|auto]. Qed.

Lemma ctb_rarange_spec : forall rr, 0 <= ra_width rr < 360 ->
  exists k, fst (ctb_rarange rr) = fst rr + 360 * IZR k /\ snd (ctb_rarange rr) = fst rr + 360 * IZR k + ra_width rr.
Proof.
  intros [lo hi] W. unfold ctb_rarange. cbn [fst snd].
  destruct (wrap_deg lo) as (i & Ei & Ri). destruct (wrap_deg hi) as (j & Ej & Rj).
  assert (exists n : Z, hi = lo + ra_width (lo, hi) + 360 * IZR n) as [n Hn].
  { unfold ra_width; cbn [fst snd]. destruct (Rlt_dec hi lo); [exists (-1)%Z|exists 0%Z]; lra. }
  set (w := ra_width (lo, hi)) in *. set (a := wrap_angle true lo) in *. set (b := wrap_angle true hi) in *.
  assert (B : b = a + w + 360 * IZR (j + n - i)) by (rewrite minus_IZR, plus_IZR; lra).
  set (m := (j + n - i)%Z) in *. assert (M1 : (m < 1)%Z) by (apply lt_IZR; lra). assert (M2 : (-2 < m)%Z) by (apply lt_IZR; lra).
  assert (m = 0 \/ m = -1)%Z as [M|M] by lia; rewrite M in B.
  - destruct (Rlt_dec b a); [lra|]. exists i. lra.
  - destruct (Rlt_dec b a); [|lra]. exists (i - 1)%Z. rewrite minus_IZR. lra.
Qed.

Lemma ctb_cover_thm : forall dr rr h, 0 <= fst dr <= snd dr -> 0 <= ra_width rr <= 180 -> 0 <= h <= 90 ->
  (fst dr = 0 \/ ra_width rr = 0 \/ h = 0) ->
  exists b s, cutsky_to_box dr rr (- h, h) = Ok (b, s) /\
  forall p, in_region dr rr (- h, h) p -> exists q, in_centred_box b q /\ transform s false q = p.
Proof.
  intros dr rr h Hd Hw Hh Hor. destruct (ctb_ok dr rr (- h, h)) as (s & E & _). exists (ctb_boxsize dr rr (- h, h)), s. split; auto.
  intros p (d & ra & dec & Rd & (k & Rk) & Rdec & _ & ->). cbn [fst snd] in Rdec.
  destruct (ctb_rarange_spec rr ltac:(lra)) as (m & M1 & M2). pose proof PI_RGT_0 as P.
  (* use the representative of RA nearest to the centre *)
  assert (SP : sky_point d ra dec = sky_point d (ra + 360 * IZR (k + m)) dec).
  { unfold sky_point. replace ((ra + 360 * IZR (k + m)) * (PI / 180)) with (ra * (PI / 180) + IZR (k + m) * (2 * PI)) by field.
    rewrite cos_period_Z, sin_period_Z. reflexivity. }
  rewrite SP. apply (ctb_covered_iff _ _ _ _ _ _ _ _ E). cbv zeta. cbn [fst snd].
  replace ((- h + h) / 2 * (PI / 180)) with 0 by field. unfold fx, fy, fz. rewrite cos_0, sin_0.
  set (A := (ra + 360 * IZR (k + m) - (fst (ctb_rarange rr) + snd (ctb_rarange rr)) / 2) * (PI / 180)). set (D := dec * (PI / 180)).
  unfold ctb_boxsize. cbn [vx vy vz fst snd]. rewrite M1, M2.
  replace (Rabs (fst rr + 360 * IZR m + ra_width rr - (fst rr + 360 * IZR m))) with (ra_width rr) by (rewrite Rabs_right; lra).
  replace (Rabs (h - - h)) with (2 * h) by (rewrite Rabs_right; lra).
  set (da := ra_width rr / 2 * PI / 180). set (dd := 2 * h / 2 * PI / 180).
  assert (HA : Rabs A <= da).
  { unfold A, da. rewrite M1, M2, plus_IZR. apply Rabs_le. unfold ra_width in *. destruct (Rlt_dec (snd rr) (fst rr)); nra. }
  assert (HD : Rabs D <= dd) by (unfold D, dd; apply Rabs_le; nra).
  assert (DA : 0 <= da <= PI / 2) by (unfold da; nra). assert (DD : 0 <= dd <= PI / 2) by (unfold dd; nra).
  pose proof (sin_abs_le A da HA ltac:(lra)) as SA. pose proof (sin_abs_le D dd HD ltac:(lra)) as SD.
  pose proof (cos_abs_ge A da HA ltac:(lra)) as CA. pose proof (cos_abs_ge D dd HD ltac:(lra)) as CD.
  pose proof (cos_ge_0 da ltac:(lra) ltac:(lra)) as CA0. pose proof (cos_ge_0 dd ltac:(lra) ltac:(lra)) as CD0.
  pose proof (COS_bound A) as BA. pose proof (COS_bound D) as BD.
  assert (DC : 0 <= d * cos D <= snd dr) by nra.
  split; [split|split].
  - replace (d * (1 * (cos D * cos A) + 0 * sin D)) with (d * (cos D * cos A)) by ring.
    replace (snd dr - (snd dr - fst dr * Rmin (cos da) (cos dd))) with (fst dr * Rmin (cos da) (cos dd)) by ring.
    pose proof (Rmin_l (cos da) (cos dd)). pose proof (Rmin_r (cos da) (cos dd)).
    assert (MP : 0 <= Rmin (cos da) (cos dd)) by (apply Rmin_glb; lra).
    destruct Hor as [Z|[Z|Z]].
    + rewrite Z, Rmult_0_l. apply Rmult_le_pos; [lra|]. apply Rmult_le_pos; lra.
    + assert (cos A = 1). { replace A with 0. apply cos_0. unfold da in HA. rewrite Z in HA. apply Rabs_le_inv in HA. lra. }
      rewrite H1. assert (cos dd <= cos D) by lra. nra.
    + assert (cos D = 1). { replace D with 0. apply cos_0. unfold dd in HD. rewrite Z in HD. apply Rabs_le_inv in HD. lra. }
      rewrite H1. nra.
  - assert (d * (cos D * cos A) <= snd dr) by nra. lra.
  - replace (d * (cos D * sin A)) with (d * cos D * sin A) by ring. pose proof (mul_bound _ _ _ _ DC SA). lra.
  - replace (d * (1 * sin D - 0 * (cos D * cos A))) with (d * sin D) by ring.
    assert (Hd' : 0 <= d <= snd dr) by lra. pose proof (mul_bound _ _ _ _ Hd' SD). lra.
Qed.

(** The axis of the box points to the middle of the ranges. *)
Lemma ctb_axis : forall dr rr de b s, cutsky_to_box dr rr de = Ok (b, s) -> 0 <= ra_width rr < 360 ->
  forall x, transform s false (V (x - (snd dr - vx b / 2)) 0 0) = sky_point x (fst rr + ra_width rr / 2) ((fst de + snd de) / 2).
Proof.
  intros dr rr de b s E W x. destruct (ctb_ok dr rr de) as (s' & E' & _ & T). rewrite E in E'. injection E' as -> ->.
  rewrite T. cbv zeta. cbn [vx vy vz]. destruct (ctb_rarange_spec rr W) as (m & -> & ->).
  unfold sky_point. cbv zeta.
  replace ((fst rr + 360 * IZR m + (fst rr + 360 * IZR m + ra_width rr)) / 2 * (PI / 180))
    with ((fst rr + ra_width rr / 2) * (PI / 180) + IZR m * (2 * PI)) by field.
  rewrite cos_period_Z, sin_period_Z. vsplit; ring.
Qed.

Lemma ctb_sky : forall dr rr de b s, cutsky_to_box dr rr de = Ok (b, s) -> forall d ra dec,
  ~ (let t := PI / 180 in
     let A := (ra - (fst (ctb_rarange rr) + snd (ctb_rarange rr)) / 2) * t in
     let D := dec * t in let D0 := (fst de + snd de) / 2 * t in
     snd dr - vx b <= fx d D A D0 <= snd dr /\ Rabs (fy d D A) <= vy b / 2 /\ Rabs (fz d D A D0) <= vz b / 2) ->
  ~ exists q, in_centred_box b q /\ transform s false q = sky_point d ra dec.
Proof. intros dr rr de b s E d ra dec N H. apply N. apply (ctb_covered_iff _ _ _ _ _ _ _ _ E). exact H. Qed.

Lemma wrap_id_deg : forall a, 0 <= a < 360 -> wrap_angle true a = a.
Proof. intros. apply wrap_id. cbn; lra. Qed.

Lemma ra_in_self : forall lo hi ra, lo <= ra <= hi -> ra_in (lo, hi) ra.
Proof. intros lo hi ra H. exists 0%Z. cbn [fst snd]. destruct (Rlt_dec hi lo); lra. Qed.

(** (0, 360) is taken as an empty range. *)
Lemma ctb_full_circle : exists b s p, cutsky_to_box (0, 100) (0, 360) (-10, 10) = Ok (b, s) /\
  in_region (0, 100) (0, 360) (-10, 10) p /\ ~ exists q, in_centred_box b q /\ transform s false q = p.
Proof.
  destruct (ctb_ok (0, 100) (0, 360) (-10, 10)) as (s & E & _).
  exists (ctb_boxsize (0, 100) (0, 360) (-10, 10)), s, (sky_point 100 90 0). split; auto.
  assert (RR : ctb_rarange (0, 360) = (0, 0)).
  { unfold ctb_rarange. cbn [fst snd]. rewrite (wrap_id_deg 0) by lra.
    replace (wrap_angle true 360) with 0. destruct (Rlt_dec 0 0); [lra|reflexivity].
    rewrite <- (wrap_id_deg 0) at 1 by lra. symmetry. replace 360 with (0 + IZR 1 * turn true) by (cbn; lra). apply wrap_shift. }
  split.
  - exists 100, 90, 0. cbn [fst snd]. split; [lra|]. split; [apply ra_in_self; lra|]. split; [lra|]. split; [lra|reflexivity].
  - apply (ctb_sky _ _ _ _ _ E). cbv zeta. intros (_ & Y & _). revert Y. unfold ctb_boxsize. rewrite RR. cbn [vx vy vz fst snd].
    replace (Rabs (0 - 0) / 2 * PI / 180) with 0 by (rewrite Rminus_0_r, Rabs_R0; field).
    replace ((90 - (0 + 0) / 2) * (PI / 180)) with (PI / 2) by field. unfold fy. rewrite Rmult_0_l, cos_0, sin_0, sin_PI2.
    rewrite Rabs_right by lra. lra.
Qed.

Lemma cos60 : cos (PI / 3) = 1 / 2. Proof. apply cos_PI3. Qed.

(** A corner of a shell. *)
Lemma ctb_corner : exists b s p, cutsky_to_box (1, 1) (0, 120) (-60, 60) = Ok (b, s) /\
  in_region (1, 1) (0, 120) (-60, 60) p /\ ~ exists q, in_centred_box b q /\ transform s false q = p.
Proof.
  destruct (ctb_ok (1, 1) (0, 120) (-60, 60)) as (s & E & _).
  exists (ctb_boxsize (1, 1) (0, 120) (-60, 60)), s, (sky_point 1 120 60). split; auto.
  assert (RR : ctb_rarange (0, 120) = (0, 120)).
  { unfold ctb_rarange. cbn [fst snd]. rewrite !wrap_id_deg by lra. destruct (Rlt_dec 120 0); [lra|reflexivity]. }
  split.
  - exists 1, 120, 60. cbn [fst snd]. split; [lra|]. split; [apply ra_in_self; lra|]. split; [lra|]. split; [lra|reflexivity].
  - apply (ctb_sky _ _ _ _ _ E). cbv zeta. intros (X & _). revert X. unfold ctb_boxsize. rewrite RR. cbn [vx vy vz fst snd].
    replace (Rabs (120 - 0) / 2 * PI / 180) with (PI / 3) by (rewrite Rabs_right by lra; field).
    replace (Rabs (60 - -60) / 2 * PI / 180) with (PI / 3) by (rewrite Rabs_right by lra; field).
    replace ((120 - (0 + 120) / 2) * (PI / 180)) with (PI / 3) by field. replace (60 * (PI / 180)) with (PI / 3) by field.
    replace ((-60 + 60) / 2 * (PI / 180)) with 0 by field. unfold fx. rewrite cos_0, sin_0, cos60, Rmin_left by lra. lra.
Qed.

(** A wide range (more than half the circle). *)
Lemma ctb_wide : exists b s p, cutsky_to_box (0, 1) (0, 300) (0, 0) = Ok (b, s) /\
  in_region (0, 1) (0, 300) (0, 0) p /\ ~ exists q, in_centred_box b q /\ transform s false q = p.
Proof.
  destruct (ctb_ok (0, 1) (0, 300) (0, 0)) as (s & E & _).
  exists (ctb_boxsize (0, 1) (0, 300) (0, 0)), s, (sky_point 1 60 0). split; auto.
  assert (RR : ctb_rarange (0, 300) = (0, 300)).
  { unfold ctb_rarange. cbn [fst snd]. rewrite !wrap_id_deg by lra. destruct (Rlt_dec 300 0); [lra|reflexivity]. }
  split.
  - exists 1, 60, 0. cbn [fst snd]. split; [lra|]. split; [apply ra_in_self; lra|]. split; [lra|]. split; [lra|reflexivity].
  - apply (ctb_sky _ _ _ _ _ E). cbv zeta. intros (_ & Y & _). revert Y. unfold ctb_boxsize. rewrite RR. cbn [vx vy vz fst snd].
    replace (Rabs (300 - 0) / 2 * PI / 180) with (PI - PI / 6) by (rewrite Rabs_right by lra; field).
    replace ((60 - (0 + 300) / 2) * (PI / 180)) with (- (PI / 2)) by field. unfold fy.
    rewrite Rmult_0_l, cos_0, sin_neg, sin_PI2. rewrite sin_PI_x, sin_PI6. rewrite Rabs_left by lra. lra.
Qed.

(** A declination range that is not symmetric about the equator. *)
Lemma ctb_off_equator : exists b s p, cutsky_to_box (0, 1) (0, 180) (0, 60) = Ok (b, s) /\
  in_region (0, 1) (0, 180) (0, 60) p /\ ~ exists q, in_centred_box b q /\ transform s false q = p.
Proof.
  destruct (ctb_ok (0, 1) (0, 180) (0, 60)) as (s & E & _).
  exists (ctb_boxsize (0, 1) (0, 180) (0, 60)), s, (sky_point 1 0 60). split; auto.
  assert (RR : ctb_rarange (0, 180) = (0, 180)).
  { unfold ctb_rarange. cbn [fst snd]. rewrite !wrap_id_deg by lra. destruct (Rlt_dec 180 0); [lra|reflexivity]. }
  split.
  - exists 1, 0, 60. cbn [fst snd]. split; [lra|]. split; [apply ra_in_self; lra|]. split; [lra|]. split; [lra|reflexivity].
  - apply (ctb_sky _ _ _ _ _ E). cbv zeta. intros (_ & _ & Z). revert Z. unfold ctb_boxsize. rewrite RR. cbn [vx vy vz fst snd].
    replace (Rabs (60 - 0) / 2 * PI / 180) with (PI / 6) by (rewrite Rabs_right by lra; field).
    replace ((0 - (0 + 180) / 2) * (PI / 180)) with (- (PI / 2)) by field. replace (60 * (PI / 180)) with (PI / 3) by field.
    replace ((0 + 60) / 2 * (PI / 180)) with (PI / 6) by field. unfold fz.
    rewrite cos_neg, cos_PI2, sin_PI6. pose proof (sin2_cos2 (PI / 6)) as SC. unfold Rsqr in SC. rewrite sin_PI6 in SC.
    assert (SS : sin (PI / 3) = cos (PI / 6)). { rewrite <- cos_shift. f_equal. field. }
    rewrite SS. pose proof (Rle_abs (1 * (cos (PI / 6) * cos (PI / 6) - 1 / 2 * (1 / 2 * 0)))).
    replace (1 * (cos (PI / 6) * cos (PI / 6) - 1 / 2 * (cos (PI / 3) * 0))) with (1 * (cos (PI / 6) * cos (PI / 6) - 1 / 2 * (1 / 2 * 0))) by ring.
    lra.
Qed.
