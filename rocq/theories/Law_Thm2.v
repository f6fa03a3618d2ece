(** C82, the box: RandomBoxCatalog. *)
Require Import Reals Lra Lia ZArith List Bool FinFun.
From Verif Require Import Base Vec3 Sample_Model Sample_Spec Random_Model Law_Spec Law_Proof Law_Proof2 Law_Thm.
Import ListNotations.
Open Scope R_scope.

(** ** Specification: the numbers of the three axes, each of a generator of step 1 / n; the share of the box below a corner. *)
Definition numbers3 (n : nat) : list vec := map (fun x => V (fst (fst x)) (snd (fst x)) (snd x)) (list_prod (list_prod (grid n) (grid n)) (grid n)).
Definition below (c p : vec) : bool := Rleb (vx p) (vx c) && Rleb (vy p) (vy c) && Rleb (vz p) (vz c).
Definition axis_share (size center x : R) : R := (x - (center - size / 2)) / size.
Definition box_share (boxsize boxcenter c : vec) : R :=
  axis_share (vx boxsize) (vx boxcenter) (vx c) * axis_share (vy boxsize) (vy boxcenter) (vy c) * axis_share (vz boxsize) (vz boxcenter) (vz c).
Definition in_interval (size center x : R) : Prop := center - size / 2 <= x <= center + size / 2.

(** ** Proofs *)
Lemma share_range : forall size center x, 0 < size -> in_interval size center x -> 0 <= axis_share size center x <= 1.
Proof.
  intros size center x S [A B]. unfold axis_share. split; [apply Rmult_le_pos; [lra|apply Rlt_le, Rinv_0_lt_compat, S]|].
  apply Rmult_le_reg_r with size; auto. unfold Rdiv at 1. rewrite Rmult_assoc, Rinv_l by lra. lra.
Qed.
Lemma axis_test : forall size center x t, 0 < size -> (size * uniform (-0.5) 0.5 t + center <= x <-> t <= axis_share size center x).
Proof.
  intros size center x t S. unfold uniform, axis_share. set (b := x - (center - size / 2)).
  assert (E : t <= b / size <-> size * t <= b).
  { split; intros H; [apply Rmult_le_compat_l with (r := size) in H; [|lra]; replace (size * (b / size)) with b in H by (field; lra); auto|].
    apply Rmult_le_reg_l with size; auto. replace (size * (b / size)) with b by (field; lra). auto. }
  rewrite E. unfold b. split; lra.
Qed.

(** C82 *)
(** Any number of objects: their positions are independent, and each is below the corner c on the three axes with the probability of
    the share of the volume of the box that is below c, up to three steps of the generator. *)
Theorem C82_box : forall n m boxsize boxcenter cs s0, 0 < vx boxsize -> 0 < vy boxsize -> 0 < vz boxsize -> (0 < n)%nat -> length cs = m ->
  (forall c, In c cs -> in_interval (vx boxsize) (vx boxcenter) (vx c) /\ in_interval (vy boxsize) (vy boxcenter) (vy c) /\ in_interval (vz boxsize) (vz boxcenter) (vz c)) ->
  exists qs, Forall2 (fun c q => Rabs (q - box_share boxsize boxcenter c) <= 3 * (1 / INR n)) cs qs /\
  mean (numbers3 n) (places 1 [m]) (fun s => match random_box (fun m => drawn [m] s 0 0) boxsize boxcenter (Some (Z.of_nat m)) None with
                                             | Ok out => ind (forallb (fun q => below (snd q) (fst q)) (combine out cs)) | Err _ => 0 end) s0 = Rprod qs.
Proof.
  intros n m bs bc cs s0 Sx Sy Sz N L B. set (vals := numbers3 n).
  assert (G : grid n <> []) by (apply grid_nil; auto).
  assert (VN : vals <> []). { unfold vals, numbers3. destruct (list_prod (list_prod (grid n) (grid n)) (grid n)) eqn:E; [|discriminate]. apply prod_nil in E; [tauto|apply prod_nil|]; auto. }
  exists (map (fun c => avg vals (fun t => ind (below c (box_position bs bc t)))) cs). split.
  - apply Forall2_map_r. intros c I. destruct (B c I) as (Bx & By & Bz).
    set (px := axis_share (vx bs) (vx bc) (vx c)). set (py := axis_share (vy bs) (vy bc) (vy c)). set (pz := axis_share (vz bs) (vz bc) (vz c)).
    assert (Px : 0 <= px <= 1) by (apply share_range; auto). assert (Py : 0 <= py <= 1) by (apply share_range; auto). assert (Pz : 0 <= pz <= 1) by (apply share_range; auto).
    assert (E : avg vals (fun t => ind (below c (box_position bs bc t))) =
                avg (grid n) (fun t => ind (Rleb t px)) * avg (grid n) (fun t => ind (Rleb t py)) * avg (grid n) (fun t => ind (Rleb t pz))).
    { unfold vals, numbers3. rewrite avg_map.
      rewrite (avg_ext _ _ (fun x => (fun y => ind (Rleb (fst y) px) * ind (Rleb (snd y) py)) (fst x) * (fun t => ind (Rleb t pz)) (snd x))).
      - rewrite (avg_pairs (list_prod (grid n) (grid n)) (grid n) (fun y => ind (Rleb (fst y) px) * ind (Rleb (snd y) py)) (fun t => ind (Rleb t pz))).
        rewrite (avg_pairs (grid n) (grid n) (fun t => ind (Rleb t px)) (fun t => ind (Rleb t py))). reflexivity.
      - intros [[tx ty] tz]. cbn [fst snd]. unfold below, box_position. cbn [vx vy vz vadd].
        assert (R : forall size center x t, 0 < size -> Rleb (size * uniform (-0.5) 0.5 t + center) x = Rleb t (axis_share size center x)).
        { intros size center x t S. apply eq_true_iff_eq. rewrite !Rleb_true. apply axis_test, S. }
        rewrite !R by auto. fold px py pz. destruct (Rleb tx px), (Rleb ty py), (Rleb tz pz); cbn; ring. }
    rewrite E. unfold box_share. fold px py pz.
    assert (D : forall p, 0 <= p <= 1 -> 0 <= avg (grid n) (fun t => ind (Rleb t p)) <= 1 /\ Rabs (avg (grid n) (fun t => ind (Rleb t p)) - p) <= 1 / INR n).
    { intros p P. split; [apply (avg_unit n (fun t => Rleb t p)); auto|]. apply (grid_test n p (fun t => Rleb t p)); auto. intros t _. apply Rleb_true. }
    destruct (D px Px) as [A1 A2]. destruct (D py Py) as [B1 B2]. destruct (D pz Pz) as [C1 C2].
    set (a := avg _ (fun t => ind (Rleb t px))) in *. set (b := avg _ (fun t => ind (Rleb t py))) in *. set (d := avg _ (fun t => ind (Rleb t pz))) in *.
    pose proof (prod_close a b px py (1 / INR n) A1 Py A2 B2) as AB.
    replace (a * b * d - px * py * pz) with (a * b * (d - pz) + pz * (a * b - px * py)) by ring.
    eapply Rle_trans; [apply Rabs_triang|]. rewrite (Rabs_mult (a * b)), (Rabs_mult pz), (Rabs_right (a * b)), (Rabs_right pz) by nra.
    pose proof (Rabs_pos (d - pz)). pose proof (Rabs_pos (a * b - px * py)). assert (0 <= a * b <= 1) by nra. nra.
  - set (js := map (fun i => (0, 0, i)%nat) (seq 0 m)).
    assert (PL : places 1 [m] = js) by (unfold places; cbn; rewrite !app_nil_r; reflexivity).
    assert (NJ : NoDup js). { unfold js. apply Injective_map_NoDup; [intros i j E; injection E; auto|apply seq_NoDup]. }
    rewrite PL.
    rewrite (mean_ext vals js _ (fun s => joint (map (fun c t => ind (below c (box_position bs bc t))) cs) (map s js))).
    + rewrite mean_joint; auto; [rewrite map_map; reflexivity|intros x I; auto|unfold js; rewrite !map_length, seq_length; auto].
    + intros s. unfold random_box, collective_size. cbn [bind]. replace (Z.of_nat m <? 0)%Z with false by (symmetry; apply Z.ltb_ge; lia). rewrite Nat2Z.id.
      unfold drawn. cbn [nth]. unfold js. rewrite !map_map.
      rewrite (joint_ind (fun c t => below c (box_position bs bc t)) cs (map (fun i => s (0, 0, i)%nat) (seq 0 m))). f_equal.
      generalize (seq 0 m). clear. intros l. revert cs. induction l as [|i l IH]; intros [|c cs]; cbn; auto. rewrite IH. reflexivity.
Qed.
Print Assumptions C82_box.
(** Three objects in a box of sides 1, 2, 3: the corner at the centre has an eighth of the volume below it. *)
Example C82_box_case : box_share (V 1 2 3) (V 10 20 30) (V 10 20 30) = 1 / 8 /\ in_interval 1 10 10 /\ in_interval 2 20 20 /\ in_interval 3 30 30.
Proof. unfold box_share, axis_share, in_interval. cbn. repeat split; lra. Qed.
