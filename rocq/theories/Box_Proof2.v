Require Import Reals Lra Lia ZArith List Bool String Sorted Permutation.
From Verif Require Import Base Vec3 Isometry_Model Isometry_Spec Isometry_Proof Sky_Model Sky_Spec Sky_Proof
  Cutsky_Model Cutsky_Spec Cutsky_Proof Box_Model Box_Spec Box_Proof.
Import ListNotations.
Open Scope R_scope.

(* ---------- row selection ---------- *)
Fixpoint trues_from (k : nat) (mask : list bool) : list nat :=
  match mask with [] => [] | b :: m => if b then k :: trues_from (S k) m else trues_from (S k) m end.
Definition trues (mask : list bool) : list nat := trues_from 0 mask.

Lemma trues_from_ge : forall mask k i, In i (trues_from k mask) -> (k <= i < k + List.length mask)%nat.
Proof.
  induction mask as [|b m IH]; intros k i H; [inversion H|]. cbn in H |- *. destruct b.
  - destruct H as [<-|H]; [lia|]. apply IH in H. lia.
  - apply IH in H. lia.
Qed.
Lemma trues_from_sorted : forall mask k, StronglySorted lt (trues_from k mask).
Proof.
  induction mask as [|b m IH]; intros k; cbn; [constructor|]. destruct b; auto. constructor; auto.
  apply Forall_forall. intros i H. apply trues_from_ge in H. lia.
Qed.
Lemma trues_from_In : forall mask k i, In (k + i)%nat (trues_from k mask) <-> nth_error mask i = Some true.
Proof.
  induction mask as [|b m IH]; intros k i.
  - cbn. destruct i; cbn; split; intros H; try inversion H; destruct H.
  - destruct i as [|i]; cbn [nth_error].
    + rewrite Nat.add_0_r. cbn. destruct b; split; intros H; auto; [left; auto| |discriminate].
      exfalso. apply trues_from_ge in H. lia.
    + specialize (IH (S k) i). replace (S k + i)%nat with (k + S i)%nat in IH by lia. cbn. destruct b; [|exact IH].
      rewrite <- IH. cbn. split; [intros [H|H]; [lia|auto]|auto].
Qed.
Lemma trues_In : forall mask i, In i (trues mask) <-> nth_error mask i = Some true.
Proof. intros. apply (trues_from_In mask 0 i). Qed.

Lemma pick_cons_shift : forall {A} (l : list A) a k mask,
  pick (trues_from (S k) mask) (a :: l) = pick (trues_from k mask) l.
Proof.
  intros A l a k mask. revert k. induction mask as [|b m IH]; intros k; cbn; auto.
  destruct b; cbn; [f_equal|]; apply IH.
Qed.
Lemma select_pick : forall {A} mask (l : list A), List.length mask = List.length l -> select mask l = Ok (pick (trues mask) l).
Proof.
  intros A mask. induction mask as [|b m IH]; intros [|a l] H; try discriminate; [reflexivity|].
  cbn in H. injection H as H. cbn [select]. rewrite (IH l H). cbn [bind]. f_equal. unfold trues. cbn [trues_from].
  destruct b; [|symmetry; apply pick_cons_shift]. unfold pick at 2. cbn [flat_map nth_error app]. f_equal. symmetry; apply (pick_cons_shift l a 0 m).
Qed.
Lemma select_col_pick : forall mask x, List.length mask = col_rows x -> select_col mask x = Ok (pick_col (trues mask) x).
Proof. intros mask [l|l] H; cbn in *; rewrite (select_pick mask l H); reflexivity. Qed.

Lemma select_rows_spec : forall mask c n, List.length mask = n -> rows_ok n c ->
  exists c', select_rows mask c = Ok c' /\ names c' = names c /\ pc_vectors c' = pc_vectors c /\ pc_invariants c' = pc_invariants c /\
    pc_position c' = pc_position c /\ pc_velocity c' = pc_velocity c /\
    (forall m x, column c m = Some x -> column c' m = Some (pick_col (trues mask) x)) /\ (forall m, column c m = None -> column c' m = None).
Proof.
  intros mask c n L W. unfold select_rows.
  destruct (map_cols_ok (fun _ x => select_col mask x) (pc_data c)) as [d' E].
  { intros m x I. exists (pick_col (trues mask) x). apply select_col_pick. rewrite L. symmetry. apply (W m x I). }
  rewrite E. cbn [bind]. eexists; split; [reflexivity|]. apply map_cols_spec in E. destruct E as [N K].
  unfold names, column; cbn [pc_data pc_vectors pc_invariants pc_position pc_velocity]. repeat split; auto.
  - intros m x C. specialize (K m). rewrite C in K. destruct K as (x' & S & ->). rewrite select_col_pick in S.
    + injection S as <-. reflexivity.
    + rewrite L. symmetry. apply (W m x). apply lookup_In; auto.
  - intros m C. specialize (K m). rewrite C in K. exact K.
Qed.

(* ---------- subbox ---------- *)
Definition sub_in (c : boxcat) (unit : bool) (r : (R * R) * (R * R) * (R * R)) (p : vec) : bool :=
  let '(r0, r1, r2) := r in
  let a0 := abs_range unit (vx (boxsize c)) (vx (boxlow c)) r0 in
  let a1 := abs_range unit (vy (boxsize c)) (vy (boxlow c)) r1 in
  let a2 := abs_range unit (vz (boxsize c)) (vz (boxlow c)) r2 in
  Rleb (fst a0) (vx p) && Rltb (vx p) (snd a0) && (Rleb (fst a1) (vy p) && Rltb (vy p) (snd a1)) && (Rleb (fst a2) (vz p) && Rltb (vz p) (snd a2)).

Lemma within_b : forall r x, Rleb (fst r) x && Rltb x (snd r) = true <-> within r x.
Proof. intros. rewrite andb_true_iff, Rleb_true, Rltb_true. reflexivity. Qed.

Lemma sub_in_spec : forall c unit r0 r1 r2 p, sub_in c unit (r0, r1, r2) p = true <->
  within (abs_range unit (vx (boxsize c)) (vx (boxcenter c) - vx (boxsize c) / 2) r0) (vx p) /\
  within (abs_range unit (vy (boxsize c)) (vy (boxcenter c) - vy (boxsize c) / 2) r1) (vy p) /\
  within (abs_range unit (vz (boxsize c)) (vz (boxcenter c) - vz (boxsize c) / 2) r2) (vz p).
Proof.
  intros. unfold sub_in. rewrite (andb_true_iff (_ && _)), (andb_true_iff (_ && _)), !within_b.
  unfold boxlow, vsub, vscale; cbn [vx vy vz].
  replace (1 / 2 * vx (boxsize c)) with (vx (boxsize c) / 2) by field.
  replace (1 / 2 * vy (boxsize c)) with (vy (boxsize c) / 2) by field.
  replace (1 / 2 * vz (boxsize c)) with (vz (boxsize c) / 2) by field. tauto.
Qed.

Lemma contained_max : forall L C lo hi x,
  Rabs (x - 1 / 2 * (Rmin (C + 1 / 2 * L) hi + Rmax (C - 1 / 2 * L) lo)) <= (Rmin (C + 1 / 2 * L) hi - Rmax (C - 1 / 2 * L) lo) / 2
  <-> Rabs (x - C) <= L / 2 /\ lo <= x <= hi.
Proof.
  intros. split.
  - intros H. apply Rabs_le_inv in H.
    pose proof (Rmin_l (C + 1 / 2 * L) hi). pose proof (Rmin_r (C + 1 / 2 * L) hi).
    pose proof (Rmax_l (C - 1 / 2 * L) lo). pose proof (Rmax_r (C - 1 / 2 * L) lo).
    split; [apply Rabs_le|]; lra.
  - intros [H1 H2]. apply Rabs_le_inv in H1.
    assert (x <= Rmin (C + 1 / 2 * L) hi) by (apply Rmin_glb; lra).
    assert (Rmax (C - 1 / 2 * L) lo <= x) by (apply Rmax_lub; lra). apply Rabs_le; lra.
Qed.

Lemma subbox_eq : forall c r0 r1 r2 unit n pos, rows_ok n (bc_cat c) ->
  column (bc_cat c) (pc_position (bc_cat c)) = Some (ColV pos) ->
  exists c', subbox c (RList [r0; r1; r2]) unit = Ok c' /\
    let idx := trues (map (sub_in c unit (r0, r1, r2)) pos) in
    names (bc_cat c') = names (bc_cat c) /\ pc_vectors (bc_cat c') = pc_vectors (bc_cat c) /\
    pc_invariants (bc_cat c') = pc_invariants (bc_cat c) /\ pc_position (bc_cat c') = pc_position (bc_cat c) /\
    pc_velocity (bc_cat c') = pc_velocity (bc_cat c) /\
    (forall m x, column (bc_cat c) m = Some x -> column (bc_cat c') m = Some (pick_col idx x)) /\
    (forall p, contained (boxsize c') (boxcenter c') p <-> contained (boxsize c) (boxcenter c) p /\
      (let a0 := abs_range unit (vx (boxsize c)) (vx (boxcenter c) - vx (boxsize c) / 2) r0 in
       let a1 := abs_range unit (vy (boxsize c)) (vy (boxcenter c) - vy (boxsize c) / 2) r1 in
       let a2 := abs_range unit (vz (boxsize c)) (vz (boxcenter c) - vz (boxsize c) / 2) r2 in
       fst a0 <= vx p <= snd a0 /\ fst a1 <= vy p <= snd a1 /\ fst a2 <= vz p <= snd a2)).
Proof.
  intros c r0 r1 r2 unit n pos W P.
  assert (Ln : List.length pos = n) by (apply (W (pc_position (bc_cat c)) (ColV pos)); apply lookup_In; exact P).
  unfold subbox. cbn [bind]. unfold position, get_vec. unfold column in P. rewrite P. cbn [bind].
  match goal with |- context [select_rows ?m _] => replace m with (map (sub_in c unit (r0, r1, r2)) pos) end.
  2:{ apply map_ext. intros p. unfold sub_in, abs_range. destruct unit; cbn [fst snd]; auto.
      rewrite !(Rplus_comm (_ * _)). reflexivity. }
  destruct (select_rows_spec (map (sub_in c unit (r0, r1, r2)) pos) (bc_cat c) n) as (c' & E & N & V1 & V2 & V3 & V4 & K & _); auto.
  { rewrite map_length; auto. }
  rewrite E. cbn [bind]. eexists; split; [reflexivity|]. cbn zeta. cbn [bc_cat boxsize boxcenter].
  repeat (split; [auto; fail|]). intros p. unfold contained. unfold vsub, vadd, vscale, boxlow, boxhigh. cbn [vx vy vz].
  unfold vsub, vadd, vscale. cbn [vx vy vz]. rewrite !contained_max.
  unfold abs_range. destruct unit; cbn [fst snd].
  - replace (vx (boxcenter c) - 1 / 2 * vx (boxsize c)) with (vx (boxcenter c) - vx (boxsize c) / 2) by field.
    replace (vy (boxcenter c) - 1 / 2 * vy (boxsize c)) with (vy (boxcenter c) - vy (boxsize c) / 2) by field.
    replace (vz (boxcenter c) - 1 / 2 * vz (boxsize c)) with (vz (boxcenter c) - vz (boxsize c) / 2) by field.
    rewrite !(Rplus_comm (_ * _)). tauto.
  - tauto.
Qed.

Lemma subbox_rows : forall c r0 r1 r2 unit n pos, rows_ok n (bc_cat c) ->
  column (bc_cat c) (pc_position (bc_cat c)) = Some (ColV pos) ->
  exists c' idx, subbox c (RList [r0; r1; r2]) unit = Ok c' /\ StronglySorted lt idx /\
    (forall i, In i idx <-> exists p, nth_error pos i = Some p /\
      within (abs_range unit (vx (boxsize c)) (vx (boxcenter c) - vx (boxsize c) / 2) r0) (vx p) /\
      within (abs_range unit (vy (boxsize c)) (vy (boxcenter c) - vy (boxsize c) / 2) r1) (vy p) /\
      within (abs_range unit (vz (boxsize c)) (vz (boxcenter c) - vz (boxsize c) / 2) r2) (vz p)) /\
    names (bc_cat c') = names (bc_cat c) /\
    (forall m x, column (bc_cat c) m = Some x -> column (bc_cat c') m = Some (pick_col idx x)).
Proof.
  intros c r0 r1 r2 unit n pos W P. destruct (subbox_eq c r0 r1 r2 unit n pos W P) as (c' & E & N & _ & _ & _ & _ & K & _).
  exists c', (trues (map (sub_in c unit (r0, r1, r2)) pos)). split; [auto|]. split; [apply trues_from_sorted|]. split; [|split; auto].
  - intros i. rewrite trues_In, nth_error_map. split.
    + destruct (nth_error pos i) as [p|] eqn:E0; cbn; [|discriminate]. intros H. injection H as H. exists p. split; auto.
      apply sub_in_spec in H. exact H.
    + intros (p & -> & H). cbn. f_equal. apply sub_in_spec. exact H.
Qed.

Lemma subbox_box : forall c r0 r1 r2 unit c', subbox c (RList [r0; r1; r2]) unit = Ok c' ->
  forall p, contained (boxsize c') (boxcenter c') p <-> contained (boxsize c) (boxcenter c) p /\
    (let a0 := abs_range unit (vx (boxsize c)) (vx (boxcenter c) - vx (boxsize c) / 2) r0 in
     let a1 := abs_range unit (vy (boxsize c)) (vy (boxcenter c) - vy (boxsize c) / 2) r1 in
     let a2 := abs_range unit (vz (boxsize c)) (vz (boxcenter c) - vz (boxsize c) / 2) r2 in
     fst a0 <= vx p <= snd a0 /\ fst a1 <= vy p <= snd a1 /\ fst a2 <= vz p <= snd a2).
Proof.
  intros c r0 r1 r2 unit c' E p. unfold subbox in E. cbn [bind] in E.
  destruct (position (bc_cat c)) as [pos|]; [|discriminate]. cbn [bind] in E.
  match type of E with (do cat <- ?X; _) = _ => destruct X as [cat|]; [|discriminate] end.
  cbn [bind] in E. injection E as <-. cbn [boxsize boxcenter].
  unfold contained. unfold vsub, vadd, vscale, boxlow, boxhigh. cbn [vx vy vz].
  unfold vsub, vadd, vscale. cbn [vx vy vz]. rewrite !contained_max.
  unfold abs_range. destruct unit; cbn [fst snd]; [|tauto].
  replace (vx (boxcenter c) - 1 / 2 * vx (boxsize c)) with (vx (boxcenter c) - vx (boxsize c) / 2) by field.
  replace (vy (boxcenter c) - 1 / 2 * vy (boxsize c)) with (vy (boxcenter c) - vy (boxsize c) / 2) by field.
  replace (vz (boxcenter c) - 1 / 2 * vz (boxsize c)) with (vz (boxcenter c) - vz (boxsize c) / 2) by field.
  rewrite !(Rplus_comm (_ * _)). tauto.
Qed.

Lemma subbox_one : forall c lo hi unit, subbox c (ROne lo hi) unit = subbox c (RList [(lo, hi); (lo, hi); (lo, hi)]) unit.
Proof. reflexivity. Qed.
Lemma subbox_wrong : forall c l unit, List.length l <> 3%nat -> exists e, subbox c (RList l) unit = Err e.
Proof.
  intros c l unit H. destruct l as [|a [|b [|d [|e l]]]]; cbn in H; try (eexists; reflexivity). lia.
Qed.

(* ---------- partition ---------- *)
Definition count {A} (preds : list (A -> bool)) (a : A) : nat := List.length (filter (fun P => P a) preds).

Lemma flat_filter_cons : forall {A} (preds : list (A -> bool)) a l,
  Permutation (flat_map (fun P => filter P (a :: l)) preds) (repeat a (count preds a) ++ flat_map (fun P => filter P l) preds).
Proof.
  intros A preds a l. induction preds as [|P preds IH]; [apply Permutation_refl|].
  cbn [flat_map]. eapply perm_trans; [apply Permutation_app_head, IH|]. unfold count. cbn [filter]. destruct (P a); cbn [List.length repeat app].
  - apply perm_skip. rewrite !app_assoc. apply Permutation_app_tail, Permutation_app_comm.
  - rewrite !app_assoc. apply Permutation_app_tail, Permutation_app_comm.
Qed.
Lemma filter_partition : forall {A} (preds : list (A -> bool)) (Q : A -> bool) l,
  (forall a, In a l -> count preds a = if Q a then 1%nat else 0%nat) ->
  Permutation (flat_map (fun P => filter P l) preds) (filter Q l).
Proof.
  intros A preds Q l. induction l as [|a l IH]; intros H.
  - cbn. clear. induction preds; cbn; auto.
  - eapply perm_trans; [apply flat_filter_cons|]. rewrite (H a (or_introl eq_refl)). cbn [filter].
    destruct (Q a); cbn [repeat app]; [apply perm_skip|]; apply IH; intros; apply H; right; auto.
Qed.

Lemma count_app : forall {A} (l m : list (A -> bool)) a, count (l ++ m) a = (count l a + count m a)%nat.
Proof. intros. unfold count. rewrite filter_app, app_length. auto. Qed.

(* rows as pairs (position, value) *)
Lemma pick_filter : forall {A B} (P : B -> bool) (pos : list B) (l : list A), List.length pos = List.length l ->
  pick (trues (map P pos)) l = map snd (filter (fun x => P (fst x)) (combine pos l)).
Proof.
  intros A B P pos. induction pos as [|p pos IH]; intros [|a l] H; try discriminate; [reflexivity|].
  cbn in H. injection H as H. unfold trues. cbn [map trues_from combine filter fst]. destruct (P p).
  - unfold pick at 1. cbn [flat_map nth_error app map snd]. f_equal. rewrite <- IH by auto. apply (pick_cons_shift l a 0).
  - rewrite <- IH by auto. apply (pick_cons_shift l a 0).
Qed.

Definition inb (r : R * R) (x : R) : bool := Rleb (fst r) x && Rltb x (snd r).
Lemma inb_spec : forall r x, inb r x = true <-> within r x.
Proof. intros; apply within_b. Qed.

Lemma intervals_count : forall e a x, StronglySorted Rle (a :: e) ->
  List.length (filter (fun r => inb r x) (intervals (a :: e))) = if inb (a, last (a :: e) 0) x then 1%nat else 0%nat.
Proof.
  induction e as [|b e IH]; intros a x S.
  - cbn. unfold inb; cbn. destruct (Rleb a x) eqn:E1; cbn; auto. destruct (Rltb x a) eqn:E2; auto.
    apply Rleb_true in E1. apply Rltb_true in E2. lra.
  - inversion S as [|? ? S' F]; subst. specialize (IH b x S').
    assert (AB : a <= b) by (inversion F; auto).
    assert (BL : b <= last (b :: e) 0).
    { clear - S'. revert b S'. induction e as [|c e IH]; intros b S; cbn; [lra|]. inversion S as [|? ? S' F]; subst.
      specialize (IH c S'). cbn in IH. inversion F; subst. destruct e; cbn in *; lra. }
    cbn [intervals filter]. change (last (a :: b :: e) 0) with (last (b :: e) 0).
    cbn [intervals] in IH. remember (last (b :: e) 0) as l eqn:El. clear El.
    unfold inb in *. cbn [fst snd] in *.
    destruct (Rleb a x) eqn:E1, (Rltb x b) eqn:E2, (Rleb b x) eqn:E3, (Rltb x l) eqn:E4; cbn [andb List.length] in *;
      rewrite ?Rleb_true, ?Rleb_false, ?Rltb_true, ?Rltb_false in *; try lra; cbn; rewrite ?IH; auto.
Qed.

Definition in3 (c : list (R * R)) (p : vec) : bool :=
  match c with [a; b; d] => inb a (vx p) && inb b (vy p) && inb d (vz p) | _ => false end.

Lemma filter_flat_len : forall {A B} (f : A -> list B) (Q : B -> bool) (P : A -> bool) k l,
  (forall a, List.length (filter Q (f a)) = if P a then k else 0%nat) ->
  List.length (filter Q (flat_map f l)) = (List.length (filter P l) * k)%nat.
Proof.
  intros A B f Q P k l H. induction l as [|a l IH]; auto. cbn. rewrite filter_app, app_length, IH, H. destruct (P a); cbn; lia.
Qed.
Lemma grid_count : forall e0 e1 e2 a0 a1 a2 p, StronglySorted Rle (a0 :: e0) -> StronglySorted Rle (a1 :: e1) -> StronglySorted Rle (a2 :: e2) ->
  List.length (filter (fun c => in3 c p) (grid (a0 :: e0) (a1 :: e1) (a2 :: e2))) =
  if in3 (hull (a0 :: e0) (a1 :: e1) (a2 :: e2)) p then 1%nat else 0%nat.
Proof.
  intros e0 e1 e2 a0 a1 a2 p S0 S1 S2. unfold grid.
  set (k2 := List.length (filter (fun r => inb r (vz p)) (intervals (a2 :: e2)))).
  set (k1 := List.length (filter (fun r => inb r (vy p)) (intervals (a1 :: e1)))).
  rewrite (filter_flat_len _ _ (fun a => inb a (vx p)) (k1 * k2)).
  - unfold k1, k2. rewrite !intervals_count by auto. unfold in3, hull; cbn [fst snd map hd].
    destruct (inb (a0, last (a0 :: e0) 0) (vx p)), (inb (a1, last (a1 :: e1) 0) (vy p)), (inb (a2, last (a2 :: e2) 0) (vz p)); reflexivity.
  - intros a. destruct (inb a (vx p)) eqn:Ea.
    + rewrite (filter_flat_len _ _ (fun b => inb b (vy p)) k2); [reflexivity|]. intros b. destruct (inb b (vy p)) eqn:Eb.
      * unfold k2. generalize (intervals (a2 :: e2)). induction l as [|d l IH]; auto. cbn. unfold in3 at 1; cbn. rewrite Ea, Eb; cbn.
        destruct (inb d (vz p)); cbn; auto.
      * generalize (intervals (a2 :: e2)). induction l as [|d l IH]; auto. cbn. unfold in3 at 1; cbn. rewrite Ea, Eb; cbn. auto.
    + rewrite (filter_flat_len _ _ (fun b => false) 0); [lia|]. intros b.
      generalize (intervals (a2 :: e2)). induction l as [|d l IH]; auto. cbn. unfold in3 at 1; cbn. rewrite Ea; cbn. auto.
Qed.

(* affine image of the ranges *)
Definition aff (unit : bool) (size low x : R) : R := if unit then low + size * x else x.
Lemma aff_range : forall unit size low r, abs_range unit size low r = (aff unit size low (fst r), aff unit size low (snd r)).
Proof. intros [] size low [a b]; reflexivity. Qed.
Lemma aff_sorted : forall unit size low e, (unit = true -> 0 <= size) -> StronglySorted Rle e -> StronglySorted Rle (map (aff unit size low) e).
Proof.
  intros unit size low e H S. induction S as [|a e S IH F]; cbn; constructor; auto.
  rewrite Forall_forall in *. intros y I. apply in_map_iff in I. destruct I as (x & <- & I). apply F in I. unfold aff. destruct unit; auto.
  specialize (H eq_refl). nra.
Qed.
Lemma intervals_map : forall f e, intervals (map f e) = map (fun r => (f (fst r), f (snd r))) (intervals e).
Proof. intros f e. induction e as [|a [|b e] IH]; auto. cbn in *. f_equal. auto. Qed.
Lemma last_map : forall (f : R -> R) e a, last (map f (a :: e)) 0 = f (last (a :: e) 0).
Proof. intros f e. induction e as [|b e IH]; intros a; auto. cbn in *. apply IH. Qed.

Definition absc (c : boxcat) (unit : bool) (r : list (R * R)) : list (R * R) :=
  match r with
  | [r0; r1; r2] => [abs_range unit (vx (boxsize c)) (vx (boxlow c)) r0; abs_range unit (vy (boxsize c)) (vy (boxlow c)) r1;
                     abs_range unit (vz (boxsize c)) (vz (boxlow c)) r2]
  | _ => []
  end.
Lemma absc_grid : forall c unit e0 e1 e2, map (absc c unit) (grid e0 e1 e2) =
  grid (map (aff unit (vx (boxsize c)) (vx (boxlow c))) e0) (map (aff unit (vy (boxsize c)) (vy (boxlow c))) e1) (map (aff unit (vz (boxsize c)) (vz (boxlow c))) e2).
Proof.
  intros. unfold grid. rewrite !intervals_map. generalize (intervals e0) (intervals e1) (intervals e2). intros l0 l1 l2.
  induction l0 as [|x l0 IH0]; [reflexivity|]. cbn [flat_map map]. rewrite map_app, IH0. f_equal. clear IH0 l0.
  induction l1 as [|y l1 IH1]; [reflexivity|]. cbn [flat_map map]. rewrite map_app, IH1. f_equal. clear IH1 l1.
  rewrite !map_map. apply map_ext. intros z. cbn [absc]. rewrite !aff_range. reflexivity.
Qed.
Lemma grid_shape : forall e0 e1 e2 r, In r (grid e0 e1 e2) -> exists a b d, r = [a; b; d].
Proof.
  intros e0 e1 e2 r H. unfold grid in H. apply in_flat_map in H. destruct H as (a & _ & H). apply in_flat_map in H. destruct H as (b & _ & H).
  apply in_map_iff in H. destruct H as (d & <- & _). eauto.
Qed.

Lemma map_result_all : forall {A B} (f : A -> result B) (Q : A -> B -> Prop) l, (forall a, In a l -> exists b, f a = Ok b /\ Q a b) ->
  exists m, map_result f l = Ok m /\ Forall2 Q l m.
Proof.
  intros A B f Q l. induction l as [|a l IH]; intros H; [exists []; split; auto|].
  destruct (H a (or_introl eq_refl)) as (b & E & K). destruct IH as (m & Em & Fm); [intros; apply H; right; auto|].
  exists (b :: m). split; auto. cbn. rewrite E, Em. reflexivity.
Qed.

Lemma vals_perm : forall {A} (vals : boxcat -> list A) (cells : list boxcat) (rows : list (vec * A)) (rs : list (list (R * R))) (Q : vec -> bool),
  Forall2 (fun r cell => vals cell = map snd (filter (fun x : vec * A => in3 r (fst x)) rows)) rs cells ->
  (forall p, List.length (filter (fun c => in3 c p) rs) = if Q p then 1%nat else 0%nat) ->
  Permutation (flat_map vals cells) (map snd (filter (fun x : vec * A => Q (fst x)) rows)).
Proof.
  intros A vals cells rows rs Q F H.
  assert (E : flat_map vals cells = map snd (flat_map (fun P => filter P rows) (map (fun r (x : vec * A) => in3 r (fst x)) rs))).
  { clear H. induction F as [|r cell rs cells E F IH]; auto. cbn. rewrite E, IH, map_app. reflexivity. }
  rewrite E. apply Permutation_map. apply filter_partition. intros [p a] _. cbn. unfold count. rewrite <- H.
  clear. induction rs as [|r rs IH]; auto. cbn. destruct (in3 r p); cbn; auto.
Qed.

Lemma subbox_partition : forall c e0 e1 e2 unit n pos, rows_ok n (bc_cat c) ->
  column (bc_cat c) (pc_position (bc_cat c)) = Some (ColV pos) ->
  (unit = true -> 0 <= vx (boxsize c) /\ 0 <= vy (boxsize c) /\ 0 <= vz (boxsize c)) ->
  e0 <> [] -> e1 <> [] -> e2 <> [] -> StronglySorted Rle e0 -> StronglySorted Rle e1 -> StronglySorted Rle e2 ->
  exists whole cells, subbox c (RList (hull e0 e1 e2)) unit = Ok whole /\
    map_result (fun r => subbox c (RList r) unit) (grid e0 e1 e2) = Ok cells /\
    forall name, Permutation (flat_map (vvals name) cells) (vvals name whole) /\ Permutation (flat_map (svals name) cells) (svals name whole).
Proof.
  intros c e0 e1 e2 unit n pos W P U N0 N1 N2 S0 S1 S2.
  assert (Ln : List.length pos = n) by (apply (W (pc_position (bc_cat c)) (ColV pos)); apply lookup_In; exact P).
  assert (G : forall a b d, exists cell, subbox c (RList [a; b; d]) unit = Ok cell /\
    (forall name, vvals name cell = map snd (filter (fun x => in3 (absc c unit [a; b; d]) (fst x)) (combine pos (vvals name c)))) /\
    (forall name, svals name cell = map snd (filter (fun x => in3 (absc c unit [a; b; d]) (fst x)) (combine pos (svals name c))))).
  { intros a b d. destruct (subbox_eq c a b d unit n pos W P) as (cell & E & N & _ & _ & _ & _ & K & _). exists cell. split; auto.
    assert (None' : forall name, column (bc_cat c) name = None -> column (bc_cat cell) name = None).
    { intros name H. destruct (column (bc_cat cell) name) eqn:C; auto. exfalso. apply lookup_In in C.
      assert (I : In name (names (bc_cat cell))) by (apply in_map_iff; exists (name, c0); auto).
      rewrite N in I. clear - I H. unfold names, column in *. induction (pc_data (bc_cat c)) as [|[m x] dd IH]; [auto|].
      cbn in *. destruct (String.eqb name m) eqn:Q; [discriminate|]. destruct I as [<-|I]; [rewrite String.eqb_refl in Q; discriminate|auto]. }
    split; intros name; unfold vvals, svals; destruct (column (bc_cat c) name) as [[l|l]|] eqn:C;
      try (rewrite (K _ _ C)); try (rewrite (None' _ C)); cbn [pick_col];
      rewrite ?combine_nil; try (clear; induction pos; cbn; auto; fail); auto;
      (rewrite pick_filter; [reflexivity|]); rewrite Ln; symmetry; apply lookup_In in C; apply (W _ _ C). }
  destruct e0 as [|a0 e0]; [congruence|]. destruct e1 as [|a1 e1]; [congruence|]. destruct e2 as [|a2 e2]; [congruence|].
  clear N0 N1 N2. destruct (G (a0, last (a0 :: e0) 0) (a1, last (a1 :: e1) 0) (a2, last (a2 :: e2) 0)) as (whole & Ew & Vw & Sw).
  exists whole.
  destruct (map_result_all (fun r => subbox c (RList r) unit) (fun r cell => 
    (forall name, vvals name cell = map snd (filter (fun x => in3 (absc c unit r) (fst x)) (combine pos (vvals name c)))) /\
    (forall name, svals name cell = map snd (filter (fun x => in3 (absc c unit r) (fst x)) (combine pos (svals name c)))))
    (grid (a0 :: e0) (a1 :: e1) (a2 :: e2))) as (cells & Ec & Fc).
  { intros r I. destruct (grid_shape _ _ _ _ I) as (a & b & d & ->). apply G. }
  exists cells. split; auto. split; auto.
  assert (F' : forall R0 : list (R * R) -> boxcat -> Prop,
    (forall r cell, ((forall name, vvals name cell = map snd (filter (fun x => in3 (absc c unit r) (fst x)) (combine pos (vvals name c)))) /\
    (forall name, svals name cell = map snd (filter (fun x => in3 (absc c unit r) (fst x)) (combine pos (svals name c))))) -> R0 (absc c unit r) cell) ->
    Forall2 R0 (map (absc c unit) (grid (a0 :: e0) (a1 :: e1) (a2 :: e2))) cells).
  { intros R0 HR. clear - Fc HR. induction Fc; cbn; constructor; auto. }
  assert (Q : forall p, List.length (filter (fun c => in3 c p) (map (absc c unit) (grid (a0 :: e0) (a1 :: e1) (a2 :: e2)))) =
     if in3 (absc c unit [(a0, last (a0 :: e0) 0); (a1, last (a1 :: e1) 0); (a2, last (a2 :: e2) 0)]) p then 1%nat else 0%nat).
  { intros p. rewrite absc_grid. cbn [map]. rewrite grid_count; cycle 1.
    - apply (aff_sorted unit _ _ (a0 :: e0)); auto. intros Hu; apply U; auto.
    - apply (aff_sorted unit _ _ (a1 :: e1)); auto. intros Hu; apply U; auto.
    - apply (aff_sorted unit _ _ (a2 :: e2)); auto. intros Hu; apply U; auto.
    - cbn [absc]. rewrite !aff_range. cbn [fst snd]. unfold hull. cbn [map hd].
      rewrite <- !last_map. reflexivity. }
  intros name. split.
  - rewrite Vw. eapply (vals_perm (vvals name) cells (combine pos (vvals name c))); [|apply Q]. apply F'. intros r cell [A _]. apply A.
  - rewrite Sw. eapply (vals_perm (svals name) cells (combine pos (svals name c))); [|apply Q]. apply F'. intros r cell [_ A]. apply A.
Qed.
