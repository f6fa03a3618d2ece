(** Theorems C95: cuts of boxes under rounding. *)
Require Import Reals Lra Lia ZArith String List Bool Sorting.Sorted Permutation Psatz.
From Flocq Require Import Core.
From Verif Require Import Base Vec3 Isometry_Model Isometry_Spec Box_Model Box_Spec Box_Proof Box_Thm Round_Spec Round_Thm Round_Thm2 Drift_Model Drift_Spec Drift_Thm Cut_Model.
Import ListNotations.
Open Scope R_scope.

(** The rows kept are those of the exact cut whose limits are the rounded ones. *)
Lemma fl_subbox_is : forall rnd c r0 r1 r2 unit, let s := boxsize c in let o := boxcenter c in
  let lim := [fl_range rnd unit (vx s) (vx o) r0; fl_range rnd unit (vy s) (vy o) r1; fl_range rnd unit (vz s) (vz o) r2] in
  match subbox c (RList lim) false, fl_subbox rnd c (RList [r0; r1; r2]) unit with
  | Ok c0, Ok c' => bc_cat c' = bc_cat c0
  | Err e, Err e' => e = e'
  | _, _ => False
  end.
Proof.
  intros rnd c r0 r1 r2 unit s o lim. unfold subbox, fl_subbox, lim. cbn [bind]. destruct (position (bc_cat c)) as [pos|e]; cbn [bind]; auto.
  match goal with |- context [select_rows ?m (bc_cat c)] => destruct (select_rows m (bc_cat c)) as [d|e] eqn:E end; cbn [bind]; unfold s, o in *; rewrite ?E; cbn [bind]; auto.
Qed.
(** Whole rows in order: those within the rounded limits. *)
Theorem C95_rows : forall rnd c r0 r1 r2 unit n pos, rows_ok n (bc_cat c) -> column (bc_cat c) (pc_position (bc_cat c)) = Some (ColV pos) ->
  let s := boxsize c in let o := boxcenter c in
  exists c' idx, fl_subbox rnd c (RList [r0; r1; r2]) unit = Ok c' /\ StronglySorted lt idx /\
    (forall i, In i idx <-> exists p, nth_error pos i = Some p /\
      within (fl_range rnd unit (vx s) (vx o) r0) (vx p) /\ within (fl_range rnd unit (vy s) (vy o) r1) (vy p) /\ within (fl_range rnd unit (vz s) (vz o) r2) (vz p)) /\
    names (bc_cat c') = names (bc_cat c) /\
    (forall m x, column (bc_cat c) m = Some x -> column (bc_cat c') m = Some (pick_col idx x)).
Proof.
  intros rnd c r0 r1 r2 unit n pos W P s o. destruct (C14_subbox_rows c (fl_range rnd unit (vx s) (vx o) r0) (fl_range rnd unit (vy s) (vy o) r1) (fl_range rnd unit (vz s) (vz o) r2) false n pos W P) as (c0 & idx & E & S & I & N & C).
  pose proof (fl_subbox_is rnd c r0 r1 r2 unit) as H. cbn zeta in H. unfold s, o in *. rewrite E in H. destruct (fl_subbox rnd c (RList [r0; r1; r2]) unit) as [c'|e]; [|destruct H]. exists c', idx. rewrite H. repeat split; auto; apply I.
Qed.
Print Assumptions C95_rows.
Theorem C95_arguments : forall rnd c lo hi unit l, fl_subbox rnd c (ROne lo hi) unit = fl_subbox rnd c (RList [(lo, hi); (lo, hi); (lo, hi)]) unit /\ (length l <> 3%nat -> exists e, fl_subbox rnd c (RList l) unit = Err e).
Proof. intros rnd c lo hi unit l. split; [reflexivity|]. intros H. destruct l as [|a [|b [|d [|e l]]]]; try (eexists; reflexivity). exfalso; apply H; reflexivity. Qed.
Print Assumptions C95_arguments.

Lemma limit_mono : forall rnd unit s o a b, rounding rnd -> (unit = true -> 0 <= s) -> a <= b -> fl_limit rnd unit s o a <= fl_limit rnd unit s o b.
Proof. intros rnd unit s o a b (Mo & _) S H. unfold fl_limit. destruct unit; auto. specialize (S eq_refl). apply Mo. apply Rplus_le_compat_r. apply Mo. nra. Qed.
Lemma intervals_map : forall (f : R -> R) e, intervals (map f e) = map (fun r => (f (fst r), f (snd r))) (intervals e).
Proof. intros f. induction e as [|a [|b e] IH]; auto. cbn [map intervals] in *. rewrite IH. auto. Qed.
Lemma sorted_map : forall (f : R -> R) e, (forall a b, a <= b -> f a <= f b) -> StronglySorted Rle e -> StronglySorted Rle (map f e).
Proof. intros f e M H. induction H as [|a e H IH F]; cbn; constructor; auto. rewrite Forall_map. eapply Forall_impl; [|exact F]. auto. Qed.
Lemma hd_map : forall (f : R -> R) e, e <> [] -> hd 0 (map f e) = f (hd 0 e).
Proof. intros f [|a e] H; auto. congruence. Qed.
Lemma last_map : forall (f : R -> R) e, e <> [] -> last (map f e) 0 = f (last e 0).
Proof. intros f e. induction e as [|a [|b e] IH]; intros H; auto; [congruence|]. change (last (map f (b :: e)) 0 = f (last (b :: e) 0)). apply IH. discriminate. Qed.
Definition three (f0 f1 f2 : R * R -> R * R) (l : list (R * R)) : list (R * R) := match l with [a; b; d] => [f0 a; f1 b; f2 d] | _ => l end.
Lemma grid_map : forall f0 f1 f2 e0 e1 e2, let g (f : R -> R) (r : R * R) := (f (fst r), f (snd r)) in
  grid (map f0 e0) (map f1 e1) (map f2 e2) = map (three (g f0) (g f1) (g f2)) (grid e0 e1 e2).
Proof.
  intros f0 f1 f2 e0 e1 e2 g. unfold grid. rewrite !intervals_map. fold (g f0) (g f1) (g f2).
  induction (intervals e0) as [|a l0 IH]; auto. cbn [map flat_map]. rewrite map_app, IH. f_equal. clear IH.
  induction (intervals e1) as [|b l1 IH]; auto. cbn [map flat_map]. rewrite map_app, IH. f_equal. clear IH.
  rewrite !map_map. apply map_ext. intros d. reflexivity.
Qed.
Lemma values_cat : forall c c', bc_cat c = bc_cat c' -> forall name, vvals name c = vvals name c' /\ svals name c = svals name c'.
Proof. intros c c' H name. unfold vvals, svals. rewrite H. auto. Qed.
(** Nothing is lost or taken twice at the inner limits of a grid, whatever the rounding. *)
Theorem C95_grid : forall rnd c e0 e1 e2 unit n pos, rounding rnd -> rows_ok n (bc_cat c) -> column (bc_cat c) (pc_position (bc_cat c)) = Some (ColV pos) ->
  (unit = true -> 0 <= vx (boxsize c) /\ 0 <= vy (boxsize c) /\ 0 <= vz (boxsize c)) ->
  e0 <> [] -> e1 <> [] -> e2 <> [] -> StronglySorted Rle e0 -> StronglySorted Rle e1 -> StronglySorted Rle e2 ->
  exists whole cells, fl_subbox rnd c (RList (hull e0 e1 e2)) unit = Ok whole /\
    map_result (fun r => fl_subbox rnd c (RList r) unit) (grid e0 e1 e2) = Ok cells /\
    forall name, Permutation (flat_map (vvals name) cells) (vvals name whole) /\ Permutation (flat_map (svals name) cells) (svals name whole).
Proof.
  intros rnd c e0 e1 e2 unit n pos RR W P B N0 N1 N2 S0 S1 S2.
  set (f0 := fl_limit rnd unit (vx (boxsize c)) (vx (boxcenter c))). set (f1 := fl_limit rnd unit (vy (boxsize c)) (vy (boxcenter c))). set (f2 := fl_limit rnd unit (vz (boxsize c)) (vz (boxcenter c))).
  assert (M0 : forall a b, a <= b -> f0 a <= f0 b) by (intros; apply limit_mono; auto; intros U; apply B; auto).
  assert (M1 : forall a b, a <= b -> f1 a <= f1 b) by (intros; apply limit_mono; auto; intros U; apply B; auto).
  assert (M2 : forall a b, a <= b -> f2 a <= f2 b) by (intros; apply limit_mono; auto; intros U; apply B; auto).
  assert (NE : forall (f : R -> R) e, e <> [] -> map f e <> []) by (intros f [|a e] H; [congruence|discriminate]).
  destruct (C14_grid_partition c (map f0 e0) (map f1 e1) (map f2 e2) false n pos W P) as (whole0 & cells0 & E & EC & PE); auto using sorted_map; try discriminate.
  assert (HU : hull (map f0 e0) (map f1 e1) (map f2 e2) = [fl_range rnd unit (vx (boxsize c)) (vx (boxcenter c)) (hd 0 e0, last e0 0); fl_range rnd unit (vy (boxsize c)) (vy (boxcenter c)) (hd 0 e1, last e1 0); fl_range rnd unit (vz (boxsize c)) (vz (boxcenter c)) (hd 0 e2, last e2 0)]).
  { unfold hull. cbn [map]. rewrite !hd_map, !last_map by auto. reflexivity. }
  rewrite HU in E. pose proof (fl_subbox_is rnd c (hd 0 e0, last e0 0) (hd 0 e1, last e1 0) (hd 0 e2, last e2 0) unit) as H. cbn zeta in H. rewrite E in H.
  change (hull e0 e1 e2) with [(hd 0 e0, last e0 0); (hd 0 e1, last e1 0); (hd 0 e2, last e2 0)]. destruct (fl_subbox rnd c (RList [(hd 0 e0, last e0 0); (hd 0 e1, last e1 0); (hd 0 e2, last e2 0)]) unit) as [whole|]; [|destruct H]. exists whole.
  rewrite grid_map in EC.
  assert (G : exists cells, map_result (fun r => fl_subbox rnd c (RList r) unit) (grid e0 e1 e2) = Ok cells /\ Forall2 (fun a b => bc_cat a = bc_cat b) cells cells0).
  { assert (L3 : Forall (fun l => exists a b d, l = [a; b; d]) (grid e0 e1 e2)).
    { unfold grid. rewrite Forall_forall. intros l I. apply in_flat_map in I as (a & _ & I). apply in_flat_map in I as (b & _ & I). apply in_map_iff in I as (d & <- & _). eauto. }
    clear - EC L3. revert cells0 EC. induction (grid e0 e1 e2) as [|l g IH]; intros cells0 EC.
    - injection EC as <-. exists []. split; [reflexivity|constructor].
    - inversion L3 as [|? ? (a & b & d & ->) L3']; subst. cbn [map map_result three] in EC.
      match type of EC with context [subbox c (RList ?x) false] => destruct (subbox c (RList x) false) as [c0|] eqn:E0 end; cbn [bind] in EC; [|discriminate].
      match type of EC with context [map_result ?f ?x] => destruct (map_result f x) as [cs|] eqn:E1 end; cbn [bind] in EC; [|discriminate]. injection EC as <-.
      destruct (IH L3' cs eq_refl) as (cells & EQ & F). pose proof (fl_subbox_is rnd c a b d unit) as H. cbn zeta in H. unfold f0, f1, f2 in E0. change (subbox c (RList [fl_range rnd unit (vx (boxsize c)) (vx (boxcenter c)) a; fl_range rnd unit (vy (boxsize c)) (vy (boxcenter c)) b; fl_range rnd unit (vz (boxsize c)) (vz (boxcenter c)) d]) false = Ok c0) in E0. rewrite E0 in H.
      cbn [map_result]. destruct (fl_subbox rnd c (RList [a; b; d]) unit) as [c'|]; [|destruct H]. cbn [bind]. rewrite EQ. cbn [bind]. eauto. }
  destruct G as (cells & EQ & F). exists cells. split; [reflexivity|]. split; auto. intros name. destruct (PE name) as [PV PS]. destruct (values_cat _ _ H name) as [-> ->].
  assert (FV : flat_map (vvals name) cells = flat_map (vvals name) cells0 /\ flat_map (svals name) cells = flat_map (svals name) cells0) by (clear - F; induction F as [|a b l l' E F [IH1 IH2]]; auto; cbn; destruct (values_cat _ _ E name) as [-> ->]; rewrite IH1, IH2; auto).
  destruct FV as [-> ->]. auto.
Qed.
Print Assumptions C95_grid.
(** Nested ranges, nested rows. *)
Theorem C95_nested : forall rnd unit s o r r' x, rounding rnd -> (unit = true -> 0 <= s) -> fst r' <= fst r -> snd r <= snd r' -> within (fl_range rnd unit s o r) x -> within (fl_range rnd unit s o r') x.
Proof.
  intros rnd unit s o r r' x RR S H1 H2 [A B]. unfold within, fl_range in *. cbn [fst snd] in *. pose proof (limit_mono rnd unit s o _ _ RR S H1). pose proof (limit_mono rnd unit s o _ _ RR S H2). lra.
Qed.
Print Assumptions C95_nested.

(** Accuracy of the limits. *)
Lemma sum_error : forall u rnd n a a' A b b' B, 0 <= u -> accurate u rnd -> Rabs a <= A -> Rabs b <= B -> Rabs (a' - a) <= ((1 + u) ^ n - 1) * A -> Rabs (b' - b) <= ((1 + u) ^ n - 1) * B ->
  Rabs (rnd (a' + b') - (a + b)) <= ((1 + u) ^ S n - 1) * (A + B).
Proof.
  intros u rnd n a a' A b b' B U AC HA HB EA EB. pose proof (AC (a' + b')) as E. set (q := (1 + u) ^ n) in *. change ((1 + u) ^ S n) with ((1 + u) * q). assert (Q : 1 <= q) by (apply pow_R1_Rle; lra).
  assert (Rabs (a' + b') <= q * (A + B)) by (replace (a' + b') with ((a' - a) + (b' - b) + (a + b)) by ring; pose proof (Rabs_triang ((a' - a) + (b' - b)) (a + b)); pose proof (Rabs_triang (a' - a) (b' - b)); pose proof (Rabs_triang a b); lra).
  replace (rnd (a' + b') - (a + b)) with ((rnd (a' + b') - (a' + b')) + ((a' - a) + (b' - b))) by ring. pose proof (Rabs_triang (rnd (a' + b') - (a' + b')) ((a' - a) + (b' - b))). pose proof (Rabs_triang (a' - a) (b' - b)).
  assert (u * Rabs (a' + b') <= u * (q * (A + B))) by (apply Rmult_le_compat_l; auto). nra.
Qed.
Lemma low_error : forall u rnd s o, 0 <= u -> accurate u rnd -> Rabs (fl_low rnd s o - (o - s / 2)) <= ((1 + u) ^ 2 - 1) * (Rabs o + Rabs s / 2).
Proof.
  intros u rnd s o U AC. unfold fl_low.
  replace (Rabs s / 2) with (Rabs (- (s / 2))) by (rewrite Rabs_Ropp; unfold Rdiv; rewrite Rabs_mult, (Rabs_pos_eq (/ 2)); lra).
  change (Rabs (rnd (o + - rnd (s / 2)) - (o + - (s / 2))) <= ((1 + u) ^ 2 - 1) * (Rabs o + Rabs (- (s / 2)))).
  apply sum_error; auto; try apply Rle_refl.
  - replace (o - o) with 0 by ring. rewrite Rabs_R0. pose proof (Rabs_pos o). simpl. nra.
  - pose proof (AC (s / 2)). replace (- rnd (s / 2) - - (s / 2)) with (- (rnd (s / 2) - s / 2)) by ring. rewrite !Rabs_Ropp. simpl. lra.
Qed.

(** The limits are the exact ones up to three roundings. *)
Definition limit_error (u size center bb : R) : R := ((1 + u) ^ 3 - 1) * (Rabs (size * bb) + Rabs center + Rabs size / 2).
Theorem C95_limits : forall u rnd unit s o bb, 0 <= u -> accurate u rnd -> Rabs (fl_limit rnd unit s o bb - (if unit then o - s / 2 + s * bb else bb)) <= limit_error u s o bb.
Proof.
  intros u rnd unit s o bb U AC. unfold fl_limit, limit_error. destruct unit.
  - rewrite (Rplus_comm (o - s / 2)), Rplus_assoc. apply sum_error; auto; [apply Rle_refl| | |apply low_error; auto].
    + unfold Rminus. eapply Rle_trans; [apply Rabs_triang|]. rewrite Rabs_Ropp. unfold Rdiv at 1. rewrite Rabs_mult, (Rabs_pos_eq (/ 2)); lra.
    + pose proof (AC (s * bb)). pose proof (Rabs_pos (s * bb)). simpl. assert (u * Rabs (s * bb) <= ((1 + u) * ((1 + u) * 1) - 1) * Rabs (s * bb)) by (apply Rmult_le_compat_r; nra). lra.
  - replace (bb - bb) with 0 by ring. rewrite Rabs_R0. assert (1 <= (1 + u) ^ 3) by (apply pow_R1_Rle; lra). pose proof (Rabs_pos (s * bb)). pose proof (Rabs_pos o). pose proof (Rabs_pos s). apply Rmult_le_pos; lra.
Qed.
Print Assumptions C95_limits.
(** Along one axis: objects farther than that from the limits are selected as in exact arithmetic. *)
Theorem C95_far : forall u rnd unit s o r x, 0 <= u -> accurate u rnd -> let e := abs_range unit s (o - s / 2) r in
  limit_error u s o (fst r) < Rabs (x - fst e) -> limit_error u s o (snd r) < Rabs (x - snd e) -> (within (fl_range rnd unit s o r) x <-> within e x).
Proof.
  intros u rnd unit s o r x U AC e F1 F2. pose proof (C95_limits u rnd unit s o (fst r) U AC) as E1. pose proof (C95_limits u rnd unit s o (snd r) U AC) as E2. unfold within, fl_range. cbn [fst snd].
  assert (X1 : fst e = if unit then o - s / 2 + s * fst r else fst r) by (unfold e, abs_range; destruct unit; auto). assert (X2 : snd e = if unit then o - s / 2 + s * snd r else snd r) by (unfold e, abs_range; destruct unit; auto).
  rewrite <- X1 in E1. rewrite <- X2 in E2. unfold Rabs in *. repeat destruct Rcase_abs; lra.
Qed.
Print Assumptions C95_far.
(** The objects kept that were in the box are in the new box up to two roundings, along each axis. *)
Definition kept_error (u low high : R) : R := ((1 + u) ^ 2 - 1) * (Rabs low + Rabs high).
Lemma box_error : forall u rnd s o r x, 0 <= u -> accurate u rnd -> fl_low rnd s o <= x <= fl_high rnd s o -> within r x -> let b := fl_cut rnd s o r in
  Rabs (x - rnd (rnd (snd b + fst b) / 2)) <= rnd (snd b - fst b) / 2 + kept_error u (fl_low rnd s o) (fl_high rnd s o).
Proof.
  intros u rnd s o r x U AC [XL XH] [R1 R2] b. unfold b, fl_cut. cbn [fst snd]. set (L := Rmax _ _). set (H := Rmin _ _). set (l := fl_low rnd s o) in *. set (h := fl_high rnd s o) in *.
  assert (LX : L <= x) by (apply Rmax_lub; auto). assert (HX : x <= H) by (apply Rmin_glb; lra). assert (LL : l <= L) by apply Rmax_l. assert (HH : H <= h) by apply Rmin_l.
  pose proof (AC (H - L)) as E1. pose proof (AC (H + L)) as E2. pose proof (AC (rnd (H + L) / 2)) as E3. unfold kept_error.
  set (T := Rabs l + Rabs h). assert (T0 : 0 <= T) by (unfold T; pose proof (Rabs_pos l); pose proof (Rabs_pos h); lra).
  assert (B : Rabs (H - L) + Rabs (H + L) <= 2 * T) by (unfold T; rewrite (Rabs_pos_eq (H - L)) by lra; pose proof (Rle_abs h); pose proof (Rle_abs (- l)); pose proof (Rabs_pos l); pose proof (Rabs_pos h); rewrite Rabs_Ropp in *; unfold Rabs at 1; destruct (Rcase_abs (H + L)); lra).
  assert (E4 : Rabs (rnd (H + L)) <= (1 + u) * Rabs (H + L)) by (replace (rnd (H + L)) with ((rnd (H + L) - (H + L)) + (H + L)) by ring; eapply Rle_trans; [apply Rabs_triang|lra]).
  assert (E5 : Rabs (rnd (H + L) / 2) = Rabs (rnd (H + L)) / 2) by (unfold Rdiv; rewrite Rabs_mult, (Rabs_pos_eq (/ 2)); lra). rewrite E5 in E3.
  set (c := rnd (rnd (H + L) / 2)) in *. set (m := rnd (H + L)) in *. set (z := rnd (H - L)) in *.
  assert (CE : Rabs (c - (H + L) / 2) <= (2 * u + u * u) * (Rabs (H + L) / 2)).
  { replace (c - (H + L) / 2) with ((c - m / 2) + (m - (H + L)) / 2) by field. eapply Rle_trans; [apply Rabs_triang|]. unfold Rdiv at 2. rewrite Rabs_mult, (Rabs_pos_eq (/ 2)) by lra. assert (u * (Rabs m / 2) <= u * ((1 + u) * Rabs (H + L) / 2)) by (apply Rmult_le_compat_l; lra). nra. }
  assert (SE : (H - L) / 2 <= z / 2 + (2 * u + u * u) * (Rabs (H - L) / 2)) by (assert (u * Rabs (H - L) <= (2 * u + u * u) * Rabs (H - L)) by (apply Rmult_le_compat_r; [apply Rabs_pos|nra]); pose proof (Rle_abs (- (z - (H - L)))); rewrite Rabs_Ropp in *; lra).
  assert (XC : Rabs (x - (H + L) / 2) <= (H - L) / 2) by (apply Rabs_le; lra).
  replace (x - c) with ((x - (H + L) / 2) + - (c - (H + L) / 2)) by ring. eapply Rle_trans; [apply Rabs_triang|]. rewrite Rabs_Ropp.
  assert ((2 * u + u * u) * (Rabs (H - L) / 2 + Rabs (H + L) / 2) <= (2 * u + u * u) * T) by (apply Rmult_le_compat_l; nra). fold T. replace ((1 + u) ^ 2 - 1) with (2 * u + u * u) by ring. lra.
Qed.
(** A coordinate within [tol] of the box along one axis. *)
Definition near_box (tol size center x : R) : Prop := Rabs (x - center) <= size / 2 + tol.
(** Along one axis of a box of side [size] around [center], cut to the range [r]: a coordinate in the box and in the range is within the errors of the new box. *)
Definition kept_near (u : R) (rnd : R -> R) (unit : bool) (r : R * R) (size center size' center' x : R) : Prop :=
  fl_low rnd size center <= x <= fl_high rnd size center -> within (fl_range rnd unit size center r) x -> near_box (kept_error u (fl_low rnd size center) (fl_high rnd size center)) size' center' x.
Theorem C95_new_box : forall u rnd c r0 r1 r2 unit c' p, 0 <= u -> accurate u rnd -> fl_subbox rnd c (RList [r0; r1; r2]) unit = Ok c' ->
  kept_near u rnd unit r0 (vx (boxsize c)) (vx (boxcenter c)) (vx (boxsize c')) (vx (boxcenter c')) (vx p) /\
  kept_near u rnd unit r1 (vy (boxsize c)) (vy (boxcenter c)) (vy (boxsize c')) (vy (boxcenter c')) (vy p) /\
  kept_near u rnd unit r2 (vz (boxsize c)) (vz (boxcenter c)) (vz (boxsize c')) (vz (boxcenter c')) (vz p).
Proof.
  intros u rnd c r0 r1 r2 unit c' p U AC E. unfold fl_subbox in E. cbn [bind] in E. destruct (position (bc_cat c)) as [pos|]; cbn [bind] in E; [|discriminate].
  match type of E with context [select_rows ?m ?x] => destruct (select_rows m x) as [d|] end; cbn [bind] in E; [|discriminate]. injection E as <-. unfold kept_near, near_box.
  split; [|split]; intros B W; apply (box_error u rnd _ _ _ _ U AC B W).
Qed.
Print Assumptions C95_new_box.

(** The lowest object is never lost by the whole range; in exact arithmetic nothing is. *)
Theorem C95_whole : forall rnd s o x, rounding rnd -> (fl_low rnd s o <= x -> x < rnd (rnd s + fl_low rnd s o) -> within (fl_range rnd true s o (0, 1)) x) /\
  (within (fl_range rnd true s o (0, 1)) x -> fl_low rnd s o <= x).
Proof.
  intros rnd s o x (Mo & Id & Z). assert (F : rnd (0 + fl_low rnd s o) = fl_low rnd s o) by (rewrite Rplus_0_l; unfold fl_low; apply Id). unfold within, fl_range, fl_limit. cbn [fst snd]. rewrite Rmult_0_r, Rmult_1_r, Z, F. split; [intros; auto|intros [A _]; auto].
Qed.
Print Assumptions C95_whole.
(** Refuted: a box of side 1024 centered at 7e-14 from the origin along x, and an object of the box that the sub-box (0, 1) leaves out. *)
Definition off_box (x : R) : boxcat := BoxCat (pcat_new [("Position"%string, ColV [V x 0 0])] "Position" "Velocity" [] []) (V 1024 1024 1024) (V (- (5 * bpow radix2 (-46))) 0 0).
Theorem C95_whole_refuted : exists x c', float_of double x /\ fl_low double 1024 (- (5 * bpow radix2 (-46))) <= x < fl_high double 1024 (- (5 * bpow radix2 (-46))) /\
  fl_subbox double (off_box x) (ROne 0 1) true = Ok c' /\ position (bc_cat c') = Ok [].
Proof.
  set (t := bpow radix2 (-46)). assert (T : 0 < t) by apply bpow_gt_0. assert (T43 : bpow radix2 (-43) = 8 * t) by (unfold t; cbn; lra). assert (T44 : bpow radix2 (-44) = 4 * t) by (unfold t; cbn; lra). assert (T45 : bpow radix2 (-45) = 2 * t) by (unfold t; cbn; lra).
  assert (TS : 1000 * t < 1) by (unfold t; cbn; lra). assert (B9 : bpow radix2 9 = 512) by (cbn; lra). assert (B10 : bpow radix2 10 = 1024) by (cbn; lra). assert (B8 : bpow radix2 8 = 256) by (cbn; lra).
  assert (T1 : 70368744177664 * t = 1) by (unfold t; cbn; lra).
  assert (OPP : forall x, double (- x) = - double x) by (intros; apply round_NE_opp).
  assert (D512 : double (1024 / 2) = 512) by (replace (1024 / 2) with (bpow radix2 9) by lra; rewrite <- B9; apply double_bpow; lia).
  assert (D1024 : double (1024 * 1) = 1024) by (replace (1024 * 1) with (bpow radix2 10) by lra; rewrite <- B10; apply double_bpow; lia).
  assert (LOW : fl_low double 1024 (- (5 * t)) = - (512 + 8 * t)).
  { unfold fl_low. rewrite D512. replace (- (5 * t) - 512) with (- (512 + 5 * t)) by ring. rewrite OPP. f_equal. rewrite (double_near (512 + 5 * t) (-43) (512 * 8796093022208 + 1)).
    - rewrite plus_IZR, mult_IZR, T43. lra.
    - change (-43 + 52)%Z with 9%Z. change (-43 + 53)%Z with 10%Z. lra.
    - lia.
    - rewrite plus_IZR, mult_IZR, T43. change (-43 - 1)%Z with (-44)%Z. rewrite T44. apply Rabs_def1; lra. }
  assert (HIGH : fl_high double 1024 (- (5 * t)) = 512 - 4 * t).
  { unfold fl_high. rewrite D512. rewrite (double_near (- (5 * t) + 512) (-44) (512 * 17592186044416 - 1)).
    - rewrite minus_IZR, mult_IZR, T44. lra.
    - change (-44 + 52)%Z with 8%Z. change (-44 + 53)%Z with 9%Z. lra.
    - lia.
    - rewrite minus_IZR, mult_IZR, T44. change (-44 - 1)%Z with (-45)%Z. rewrite T45. apply Rabs_def1; lra. }
  assert (X : double (512 - 8 * t) = 512 - 8 * t).
  { replace (512 - 8 * t) with (IZR (512 * 17592186044416 - 2) * bpow radix2 (-44)) by (rewrite minus_IZR, mult_IZR, T44; lra). apply double_make; lia. }
  exists (512 - 8 * t). eexists. split; [exact X|]. rewrite LOW, HIGH. split; [lra|]. unfold fl_subbox, off_box. cbn [bind boxsize boxcenter vx vy vz bc_cat]. fold t.
  unfold fl_range, fl_limit. cbn [fst snd]. rewrite D1024, LOW. replace (1024 + - (512 + 8 * t)) with (512 - 8 * t) by ring. rewrite X.
  unfold position, get_vec. cbn [pcat_new pc_data pc_position lookup String.eqb Ascii.eqb Bool.eqb bind map vx vy vz].
  assert (NL : Rltb (512 - 8 * t) (512 - 8 * t) = false) by (destruct (Rltb (512 - 8 * t) (512 - 8 * t)) eqn:E; auto; apply Rltb_true in E; lra). rewrite NL, andb_false_r. cbn. split; reflexivity.
Qed.
Print Assumptions C95_whole_refuted.
(** Refuted: the cut (-2^-60, 1) of a box keeps an object at -2^-60, and the new box, rounded, starts at 0. *)
Definition edge_box : boxcat := BoxCat (pcat_new [("Position"%string, ColV [V (- bpow radix2 (-60)) 0 0])] "Position" "Velocity" [] []) (V 4 4 4) (V 0 0 0).
Theorem C95_new_box_refuted : exists c', fl_subbox double edge_box (RList [(- bpow radix2 (-60), 1); (-1, 1); (-1, 1)]) false = Ok c' /\ position (bc_cat c') = Ok [V (- bpow radix2 (-60)) 0 0] /\
  fl_low double (vx (boxsize c')) (vx (boxcenter c')) = 0.
Proof.
  set (t := bpow radix2 (-60)). assert (T : 0 < t) by apply bpow_gt_0. assert (TS : 1000 * t < 1) by (unfold t; cbn; lra). assert (T53 : bpow radix2 (-53) = 128 * t) by (unfold t; cbn; lra). assert (T54 : bpow radix2 (-54) = 64 * t) by (unfold t; cbn; lra). assert (T52 : bpow radix2 (-52) = 256 * t) by (unfold t; cbn; lra).
  assert (T1 : 1152921504606846976 * t = 1) by (unfold t; cbn; lra).
  assert (D1 : double (1 - - t) = 1).
  { rewrite (double_near (1 - - t) (-52) 4503599627370496).
    - rewrite T52. lra. 
    - change (-52 + 52)%Z with 0%Z. change (-52 + 53)%Z with 1%Z. change (bpow radix2 0) with 1. change (bpow radix2 1) with 2. lra.
    - lia.
    - rewrite T52. change (-52 - 1)%Z with (-53)%Z. rewrite T53. apply Rabs_def1; lra. }
  assert (D2 : double (1 + - t) = 1).
  { rewrite (double_near (1 + - t) (-53) 9007199254740992).
    - rewrite T53. lra. 
    - change (-53 + 52)%Z with (-1)%Z. change (-53 + 53)%Z with 0%Z. change (bpow radix2 0) with 1. change (bpow radix2 (-1)) with (/ 2). lra.
    - lia.
    - rewrite T53. change (-53 - 1)%Z with (-54)%Z. rewrite T54. apply Rabs_def1; lra. }
  assert (DH : double (1 / 2) = 1 / 2) by (replace (1 / 2) with (bpow radix2 (-1)) by (cbn; lra); apply double_bpow; lia).
  assert (D2' : double (4 / 2) = 2) by (replace (4 / 2) with (bpow radix2 1) by (cbn; lra); replace 2 with (bpow radix2 1) by (cbn; lra); apply double_bpow; lia).
  assert (F2 : double 2 = 2) by (replace 2 with (bpow radix2 1) by (cbn; lra); apply double_bpow; lia). assert (OPP : forall x, double (- x) = - double x) by (intros; apply round_NE_opp).
  unfold fl_subbox, edge_box. cbn [bind boxsize boxcenter vx vy vz bc_cat]. fold t. unfold fl_cut, fl_range, fl_limit. cbn [fst snd].
  unfold position, get_vec. cbn [pcat_new pc_data pc_position lookup String.eqb Ascii.eqb Bool.eqb bind map vx vy vz].
  assert (LE : forall a b, a <= b -> Rleb a b = true) by (intros a b H; unfold Rleb; destruct (Rle_dec a b); auto; contradiction). assert (LT : forall a b, a < b -> Rltb a b = true) by (intros a b H; unfold Rltb; destruct (Rlt_dec a b); auto; contradiction).
  rewrite !LE, !LT by lra. cbn [andb]. eexists. split; [reflexivity|]. split; [reflexivity|]. cbn [boxsize boxcenter vx vy vz].
  assert (LOW : fl_low double 4 0 = -2) by (unfold fl_low; rewrite D2'; replace (0 - 2) with (Ropp 2) by ring; rewrite OPP, F2; lra). assert (HIGH : fl_high double 4 0 = 2) by (unfold fl_high; rewrite D2'; rewrite Rplus_0_l; exact F2).
  rewrite LOW, HIGH, Rmax_right, Rmin_right by lra. rewrite D1, D2, DH. unfold fl_low. rewrite DH. replace (1 / 2 - 1 / 2) with 0 by ring. apply round_0. apply valid_rnd_N.
Qed.
Print Assumptions C95_new_box_refuted.

(** Double precision, and a grid of two cells along each axis. *)
Example C95_case : rounding double /\ accurate unit_roundoff double_free /\ rows_ok 2 (bc_cat two_particles) /\ (0 <= vx (boxsize two_particles) /\ 0 <= vy (boxsize two_particles) /\ 0 <= vz (boxsize two_particles)) /\
  StronglySorted Rle [0; 1 / 3; 1] /\ List.length (grid [0; 1 / 3; 1] [0; 1 / 3; 1] [0; 1 / 3; 1]) = 8%nat.
Proof. split; [apply double_rounding|]. split; [apply C83_double|]. split; [apply C14_case|]. split; [cbn; lra|]. split; [repeat constructor; lra|reflexivity]. Qed.
