(** Property C34: the redshift density conserves weight, its bins cover the sample, and it does not depend on the processes. *)
Require Import Reals Lra Lia ZArith List Bool Permutation.
From Verif Require Import Base Cutsky_Model Box_Model Remap_Model Mask_Model Sample_Model Density_Model Density_Spec.
From Verif Require Import Mask_Proof Sample_Proof Density_Proof Mask_Thm.
Import ListNotations.
Open Scope R_scope.

(** In every bin, density times volume is the weight of the objects in the bin. *)
Theorem C34_bins : forall cvar spline elsewhere objs b fsky distance order d,
  new_density cvar spline elsewhere objs b fsky distance order = Ok d ->
  let e := d_edges d in length (d_nbar d) = (length e - 1)%nat /\
  forall i, (S i < length e)%nat ->
    nth i (d_nbar d) 0 * shell fsky (distance_of distance) (nth i e 0) (nth (S i) e 0)
    = weight_where (in_bin (Nat.eqb (S (S i)) (length e)) (nth i e 0) (nth (S i) e 0)) (concat objs).
Proof. intros cvar spline elsewhere objs b fsky distance order d H e. apply new_density_inv in H. destruct H as (_ & _ & _ & L & _ & V). split; [exact L|exact V]. Qed.
Print Assumptions C34_bins.

(** Summed over bins: the weight of all objects between the first and the last edge. *)
Theorem C34_total : forall cvar spline elsewhere objs b fsky distance order d, objs <> [] ->
  new_density cvar spline elsewhere objs b fsky distance order = Ok d ->
  let e := d_edges d in (2 <= length e)%nat ->
  Rsum (map (fun i => nth i (d_nbar d) 0 * shell fsky (distance_of distance) (nth i e 0) (nth (S i) e 0)) (seq 0 (length (d_nbar d))))
  = weight_where (in_interval (first e) (final e)) (concat objs).
Proof.
  intros cvar spline elsewhere objs b fsky distance order d NE H e L2. apply new_density_inv in H. destruct H as (_ & _ & _ & L & D & V). specialize (D NE).
  fold e in L, D, V. assert (HH : exists l, histogram (concat objs) e = Ok l) by (unfold histogram; rewrite D; eauto). destruct HH as [l HH].
  assert (Q : map (fun i => nth i (d_nbar d) 0 * shell fsky (distance_of distance) (nth i e 0) (nth (S i) e 0)) (seq 0 (length (d_nbar d))) = l).
  { apply list_eq_nth. { rewrite map_length, seq_length. rewrite (histogram_length _ _ _ HH). auto. }
    intros i Hi. rewrite map_length, seq_length in Hi. rewrite (histogram_nth _ _ _ i HH) by lia.
    rewrite nth_indep with (d' := (fun i => nth i (d_nbar d) 0 * shell fsky (distance_of distance) (nth i e 0) (nth (S i) e 0)) 0%nat) by (rewrite map_length, seq_length; auto).
    rewrite map_nth with (f := fun i => nth i (d_nbar d) 0 * shell fsky (distance_of distance) (nth i e 0) (nth (S i) e 0)). rewrite seq_nth by auto. apply V. lia. }
  rewrite Q. destruct e as [|x [|y e0]]; cbn [length] in L2; try lia. rewrite (histogram_sum _ _ _ _ _ HH). reflexivity.
Qed.
Print Assumptions C34_total.

(** Automatic bins and bins given by their number cover every redshift, so no weight is lost; a number of bins is respected. *)
Theorem C34_covers : forall cvar spline elsewhere objs b fsky distance order d, objs <> [] -> (forall e, b <> Edges e) ->
  new_density cvar spline elsewhere objs b fsky distance order = Ok d ->
  let e := d_edges d in
  (forall o, In o (concat objs) -> first e <= fst o <= final e) /\ (2 <= length e)%nat /\ (forall n, b = Equal n -> length (d_nbar d) = Z.to_nat n) /\
  Rsum (map (fun i => nth i (d_nbar d) 0 * shell fsky (distance_of distance) (nth i e 0) (nth (S i) e 0)) (seq 0 (length (d_nbar d)))) = total_weight (concat objs).
Proof.
  intros cvar spline elsewhere objs b fsky distance order d NE NB H e.
  assert (C : (2 <= length e)%nat /\ (forall o, In o (concat objs) -> first e <= fst o <= final e) /\ forall n, b = Equal n -> length e = S (Z.to_nat n)).
  { pose proof (new_density_inv _ _ _ _ _ _ _ _ _ H) as (E & _). fold e in E. destruct b as [|n|e0]; [| |destruct (NB e0); auto]; cbn [bin_edges] in E.
    - destruct (scott_covers _ _ _ _ E) as [A B]. split; [auto|]. split; auto. intros n Q; discriminate.
    - destruct (equal_covers _ _ _ E) as [A [B C]]. split; [lia|]. split; auto. intros m Q; injection Q as <-; auto. }
  destruct C as [L [C N]]. split; auto. split; auto. split.
  - intros n Q. apply new_density_inv in H. destruct H as (_ & _ & _ & LN & _). fold e in LN. rewrite (N n Q) in LN. lia.
  - pose proof (C34_total _ _ _ _ _ _ _ _ _ NE H L) as T. cbv zeta in T. fold e in T. rewrite T. apply weight_all.
    intros o I. destruct (C o I) as [A B]. unfold in_interval, in_bin. destruct (Rle_dec (first e) (fst o)); [|contradiction].
    destruct (Rle_dec (fst o) (final e)); [auto|contradiction].
Qed.
Print Assumptions C34_covers.

(** The same objects, in any order and on any number of processes, give the same density, or the same error. [cvar] is a variance:
    it does not depend on the order either. *)
Theorem C34_processes : forall cvar spline elsewhere objs objs' b fsky distance order, (forall a a', Permutation a a' -> cvar a = cvar a') ->
  objs <> [] -> objs' <> [] -> Permutation (concat objs) (concat objs') ->
  new_density cvar spline elsewhere objs b fsky distance order = new_density cvar spline elsewhere objs' b fsky distance order.
Proof.
  intros cvar spline elsewhere objs objs' b fsky distance order C N N' P. unfold new_density. rewrite (edges_perm _ _ _ _ _ C P).
  destruct (bin_edges cvar elsewhere b (concat objs')) as [e|]; auto. cbn [bind].
  destruct (parts_cases objs e) as [[D [p Hp]]|[D Hp]]; destruct (parts_cases objs' e) as [[D' [p' Hp']]|[D' Hp']]; try congruence; rewrite Hp, Hp'.
  - cbn [bind]. replace (reduce_sum (length e - 1) p') with (reduce_sum (length e - 1) p); auto.
    apply list_eq_nth. { rewrite (counts_length _ _ _ Hp), (counts_length _ _ _ Hp'). auto. }
    intros i Hi. rewrite (counts_length _ _ _ Hp) in Hi. rewrite (counts_nth _ _ _ i Hp), (counts_nth _ _ _ i Hp') by lia. apply weight_perm; auto.
  - destruct objs; [congruence|]. destruct objs'; [congruence|]. reflexivity.
Qed.
Print Assumptions C34_processes.

(** The interpolator passes through the density at the middle of every bin, and is zero before the first and after the last middle. *)
Theorem C34_interpolator : forall cvar spline elsewhere objs b fsky distance order d, interpolates spline ->
  new_density cvar spline elsewhere objs b fsky distance order = Ok d ->
  let e := d_edges d in
  (forall i, (S i < length e)%nat -> d_interp d ((nth i e 0 + nth (S i) e 0) / 2) * shell fsky (distance_of distance) (nth i e 0) (nth (S i) e 0)
     = weight_where (in_bin (Nat.eqb (S (S i)) (length e)) (nth i e 0) (nth (S i) e 0)) (concat objs)) /\
  (forall a b t x, e = a :: b :: t -> x < (a + b) / 2 -> d_interp d x = 0).
Proof.
  intros cvar spline elsewhere objs b fsky distance order d I H e. apply new_density_inv in H. destruct H as (_ & Z & S & L & _ & V). fold e in Z, L, V.
  destruct (I _ _ _ _ S) as [LL [P O]]. rewrite Z in LL, P, O. rewrite centres_length in LL, P. split.
  - intros i Hi. replace ((nth i e 0 + nth (Datatypes.S i) e 0) / 2) with (nth i (centres e) 0).
    + rewrite P by lia. apply V. auto.
    + clear - Hi. revert i Hi. induction e as [|a [|c e]]; intros i Hi; cbn [length] in Hi; try lia. destruct i; [reflexivity|].
      change (nth (Datatypes.S i) (centres (a :: c :: e)) 0) with (nth i (centres (c :: e)) 0). rewrite IHe by (cbn [length]; lia). reflexivity.
  - intros a c t x Q X. apply O. left. rewrite Q. unfold first. cbn [centres nth]. auto.
Qed.
Print Assumptions C34_interpolator.

(** With a communicator other than the current one, Scott's rule is applied with the wrong number of objects: here the bins of a
    sample of two change with objects of other processes. *)
Theorem C34_communicator_refuted : exists cvar all e e', bin_edges cvar 0 Scott all = Ok e /\ bin_edges cvar 14 Scott all = Ok e' /\ e <> e'.
Proof.
  set (all := [(0, 1); (1, 1)]). set (cvar := fun _ : list (R * R) => Ok (1 / 2)).
  assert (S : 0 < sqrt (1 / 2)) by (apply sqrt_lt_R0; lra). pose proof PI_RGT_0 as PI0. assert (SP : 0 < sqrt PI) by (apply sqrt_lt_R0; lra).
  assert (A : forall k, (0 < 2 + k)%nat -> exists e, bin_edges cvar k Scott all = Ok e /\ nth 1 e 0 = sqrt (1 / 2) * cbrt (24 * sqrt PI / INR (2 + k))).
  { intros k K. cbn [bin_edges]. unfold scott_edges, cvar. cbn [bind]. change (length all) with 2%nat. set (dx := sqrt (1 / 2) * _).
    assert (dx <> 0).
    { unfold dx. apply Rmult_integral_contrapositive_currified; [lra|]. unfold cbrt. destruct (Req_EM_T _ 0) as [Q|Q].
      - exfalso. assert (0 < 24 * sqrt PI / INR (2 + k)) by (apply Rdiv_lt_0_compat; [lra|apply lt_0_INR; lia]). lra.
      - apply Rgt_not_eq. apply exp_pos. }
    change (map fst all) with [0; 1]. unfold redshift_range. cbn [bind list_min list_max fold_left]. rewrite Rmin_left, Rmax_right by lra.
    unfold fdiv. destruct (Req_EM_T dx 0) as [|_]; [contradiction|]. cbn [bind]. eexists. split; [reflexivity|].
    rewrite (grid_nth (fun x => 0 + dx * x)) by lia. cbn [INR]. ring. }
  destruct (A 0%nat ltac:(lia)) as [e [E1 E2]]. destruct (A 14%nat ltac:(lia)) as [e' [E1' E2']].
  exists cvar, all, e, e'. split; auto. split; auto. intros ->. rewrite E2 in E2'. apply Rmult_eq_reg_l in E2'; [|lra].
  assert (P : forall n, (0 < n)%nat -> cbrt (24 * sqrt PI / INR n) ^ 3 = 24 * sqrt PI / INR n).
  { intros n N. apply cbrt_cube. left. apply Rdiv_lt_0_compat; [lra|apply lt_0_INR; auto]. }
  pose proof (P 2%nat ltac:(lia)) as P1. pose proof (P 16%nat ltac:(lia)) as P2. change (2 + 0)%nat with 2%nat in E2'. change (2 + 14)%nat with 16%nat in E2'.
  rewrite E2', P2 in P1. replace (INR 2) with 2 in P1 by (cbn; ring). replace (INR 16) with 16 in P1 by (cbn; ring). lra.
Qed.
Print Assumptions C34_communicator_refuted.

(** The linear spline meets the contract, and three objects on two processes in two bins go through. *)
Lemma linear_interpolates : interpolates (fun _ z y => lin_spline z y).
Proof.
  intros k z y f H. apply spline_inv in H. destruct H as (S & L & L2 & ->). split; auto. split.
  - intros i Hi. apply lin_knot; auto. rewrite <- (combine_nth z y i 0 0 L). apply nth_In. rewrite combine_length. lia.
  - intros x [X|X].
    + destruct z as [|z0 z]; [cbn in L2; lia|]. apply lin_outside_low; auto.
    + clear - S L X. unfold final in X. revert y L. induction z as [|z0 [|z1 z] IH]; intros y L; auto. destruct y as [|y0 [|y1 y]]; try discriminate.
      apply sorted_cons in S. destruct S as [S1 S2]. rewrite lin_step. pose proof (sorted_last _ _ S2). change (last (z0 :: z1 :: z) 0) with (last (z1 :: z) 0) in X.
      unfold Rltb, Rleb. destruct (Rlt_dec x z0); auto. destruct (Rle_dec x z1); [lra|]. apply IH; auto.
Qed.
Example C34_case : exists d, new_density (fun _ => Err ValueError) (fun _ z y => lin_spline z y) 0 [[(0, 1); (2, 3)]; [(1, 2)]] (Equal 2) None None 1 = Ok d /\
  d_edges d = [0; 1; 2] /\ d_nbar d = [1; 5].
Proof.
  assert (E : bin_edges (fun _ => Err ValueError) 0 (Equal 2) (concat [[(0, 1); (2, 3)]; [(1, 2)]]) = Ok [0; 1; 2]).
  { cbn [concat app bin_edges]. unfold equal_edges. cbn [map fst redshift_range bind list_min list_max fold_left]. 
    replace (Rmin (Rmin 0 2) 1) with 0 by (unfold Rmin; repeat destruct Rle_dec; lra). replace (Rmax (Rmax 0 2) 1) with 2 by (unfold Rmax; repeat destruct Rle_dec; lra).
    change (2 <? 1)%Z with false. cbv iota. f_equal. apply list_eq_nth; [reflexivity|]. intros i Hi. rewrite (grid_nth (fun k => 0 + (2 - 0) / 2 * k)) by exact Hi.
    change (length _) with 3%nat in Hi. destruct i as [|[|[|]]]; cbn [nth INR]; try lra. lia. }
  unfold new_density. rewrite E. cbn [bind map_result]. unfold histogram. cbn [not_decreasing]. decide_R. cbn [andb bind cumulated]. unfold below, upto. cbn [filter fst snd]. decide_R.
  cbn [map snd diff reduce_sum zip_with fold_right length Nat.sub repeat combine fst volumes map_result bind Rsum]. rewrite !Box_Proof3.fdiv_ok by lra. cbn [bind].
  cbn [centres]. rewrite spline_ok; [|apply sorted_cons; split; [lra|repeat constructor]|reflexivity|cbn; lia].
  cbn [bind]. eexists. split; [reflexivity|]. split; [reflexivity|]. cbn [d_nbar]. repeat (f_equal; try lra).
Qed.
