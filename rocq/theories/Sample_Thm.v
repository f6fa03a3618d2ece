(** Properties of sampling from masks (C31). [draws k r] is what process [r] draws in round [k]; [fuel] bounds the number of rounds. *)
Require Import Reals Lra Lia ZArith List Bool.
From Verif Require Import Base Sky_Model Sky_Proof Cutsky_Model Mask_Model Mask_Spec Mask_Proof4 Sample_Model Sample_Spec Sample_Proof.
Import ListNotations.
Open Scope R_scope.

(** Each process gets exactly what it asked for. *)
Theorem C31_sizes : forall (A : Type) (prob : A -> R) draws fuel sizes out, sample prob draws fuel sizes = Ok out -> map (@length A) out = sizes.
Proof. intros A prob draws fuel sizes out H. apply sample_spec in H. destruct H as (k & _ & -> & T & _). apply cuts_lengths. exact T. Qed.
(** All of them are draws that the mask kept. *)
Theorem C31_kept : forall (A : Type) (prob : A -> R) draws fuel sizes out, sample prob draws fuel sizes = Ok out ->
  forall l a, In l out -> In a l -> exists k r u, (r < length sizes)%nat /\ In (a, u) (draws k r) /\ kept prob (a, u).
Proof.
  intros A prob draws fuel sizes out H l a Il Ia. apply sample_spec in H. destruct H as (k & _ & -> & T & _).
  assert (I : In a (concat (state prob draws (length sizes) k))).
  { assert (C : In a (concat (cuts sizes (concat (state prob draws (length sizes) k))))) by (apply in_concat; eauto). rewrite cuts_concat in C.
    rewrite <- (firstn_skipn (total sizes)). apply in_or_app. auto. }
  apply in_state in I. destruct I as (j & r & u & _ & Hr & Id & K). exists j, r, u. auto.
Qed.
(** Together they are the first kept draws, ordered by process, then by round, of the smallest number of rounds that is enough. *)
Theorem C31_first_kept : forall (A : Type) (prob : A -> R) draws fuel sizes out, sample prob draws fuel sizes = Ok out ->
  let kept_by n := flat_map (fun r => flat_map (fun k => map fst (filter (fun x => if Rle_dec (snd x) (prob (fst x)) then true else false) (draws k r))) (seq 0 n)) (seq 0 (length sizes)) in
  exists rounds, (1 <= rounds)%nat /\ concat out = firstn (total sizes) (kept_by rounds) /\ (total sizes <= length (kept_by rounds))%nat /\
    forall j, (j < rounds)%nat -> (length (kept_by j) < total sizes)%nat.
Proof.
  intros A prob draws fuel sizes out H kept_by.
  assert (E : forall n, concat (state prob draws (length sizes) n) = kept_by n).
  { intros n. unfold state, kept_by. rewrite <- flat_map_concat_map. apply flat_map_ext. intros r. unfold got. apply flat_map_ext. intros k. unfold accepted.
    reflexivity. }
  apply sample_spec in H. destruct H as (k & K & -> & T & N). exists k. rewrite cuts_concat, <- E. split; auto. split; auto. split; auto. intros j Hj. rewrite <- E. auto.
Qed.
(** If every round keeps something somewhere, the call ends, after at most as many rounds as objects are asked for. *)
Theorem C31_ends : forall (A : Type) (prob : A -> R) (draws : nat -> nat -> list (A * R)) fuel sizes,
  (forall k, exists r a u, (r < length sizes)%nat /\ In (a, u) (draws k r) /\ kept prob (a, u)) -> (1 <= total sizes <= fuel)%nat ->
  exists out, sample prob draws fuel sizes = Ok out.
Proof.
  intros A prob draws fuel sizes P H. apply sample_ends; auto. intros k. destruct (P k) as (r & a & u & Hr & I & K). exists r. split; auto.
  assert (J : In a (accepted prob (draws k r))) by (apply accepted_In; eauto). intros E. rewrite E in J. easy.
Qed.
(** Asking for nothing on all processes is an error instead of empty arrays. *)
Theorem C31_nothing_refuted : forall (A : Type) (prob : A -> R) draws fuel sizes, total sizes = 0%nat -> sample prob draws fuel sizes = Err ValueError.
Proof.
  intros A prob draws fuel sizes H. unfold sample. rewrite (start_state prob draws), (start_need prob draws).
  destruct fuel as [|fuel]; cbn [sample_loop]; unfold need at 1; rewrite need_total by apply state_length; rewrite H;
    (replace (0 <? _)%Z with false by (symmetry; apply Z.ltb_ge; lia)); reflexivity.
Qed.
(** A mask that keeps nothing: no number of rounds is enough. *)
Theorem C31_empty_mask_refuted : forall (A : Type) (prob : A -> R) (draws : nat -> nat -> list (A * R)) sizes, (1 <= total sizes)%nat ->
  (forall k r a u, In (a, u) (draws k r) -> ~ kept prob (a, u)) -> forall fuel, sample prob draws fuel sizes = Err OutOfFuel.
Proof.
  intros A prob draws sizes T H fuel. unfold sample. rewrite (start_state prob draws), (start_need prob draws), loop_stuck; auto.
  intros j r _. destruct (accepted prob (draws j r)) as [|a l] eqn:E; auto. exfalso. assert (I : In a (accepted prob (draws j r))) by (rewrite E; left; auto).
  apply accepted_In in I. destruct I as (u & I & K). exact (H j r a u I K).
Qed.

(** Radial candidates: inside the range of distances, and uniform in volume. *)
Theorem C31_radial_candidates : forall distance z0 z1 t, 0 <= distance z0 < distance z1 -> 0 <= t < 1 ->
  let d := radial_candidate distance z0 z1 t in
  distance z0 <= d <= distance z1 /\
  forall x, distance z0 <= x -> (d <= x <-> t <= (x ^ 3 - distance z0 ^ 3) / (distance z1 ^ 3 - distance z0 ^ 3)).
Proof.
  intros distance z0 z1 t D T d.
  assert (C : distance z0 ^ 3 < distance z1 ^ 3) by (apply Rnot_le_lt; intros C; assert (Q : distance z1 <= distance z0) by (apply (proj1 (cube_le (distance z1) (distance z0) ltac:(lra) ltac:(lra))); exact C); lra).
  assert (N0 : 0 <= distance z0 ^ 3) by (apply pow_le; lra).
  destruct (uniform_range (distance z0 ^ 3) (distance z1 ^ 3) t) as [U0 U1]; [lra|auto|].
  destruct (cbrt_cube (uniform (distance z0 ^ 3) (distance z1 ^ 3) t)) as [P E]; [lra|]. unfold d, radial_candidate.
  split; [split; (eapply cube_le; [| |rewrite E]; lra)|]. intros x Hx. rewrite <- uniform_le by auto. rewrite <- cube_le by lra. rewrite E. reflexivity.
Qed.

Lemma deg_bounds : forall x, -90 <= x <= 90 -> - (PI / 2) <= x * PI / 180 <= PI / 2.
Proof. intros x H. pose proof PI_RGT_0. nra. Qed.
Lemma asin_le : forall y x, -1 <= y <= 1 -> - (PI / 2) <= x <= PI / 2 -> (asin y <= x <-> y <= sin x).
Proof.
  intros y x Y X. pose proof (asin_bound y) as B. split; intros H.
  - rewrite <- (sin_asin y Y). apply sin_incr_1; lra.
  - apply sin_incr_0; try lra. rewrite sin_asin; auto.
Qed.
(** Angular candidates, for any range the user gives: on the arc, inside the declination range, and uniform on the sphere. *)
Theorem C31_angular_candidates : forall lo hi d0 d1 t u, -90 <= d0 < d1 -> d1 <= 90 -> 0 <= t < 1 -> 0 <= u < 1 ->
  let '(ra, dec) := angular_candidate (angular_rarange (Some (lo, hi))) (d0, d1) t u in
  0 <= ra < 360 /\ on_arc lo hi ra /\ d0 <= dec <= d1 /\
  forall x, d0 <= x <= d1 -> (dec <= x <-> u <= (sin (x * PI / 180) - sin (d0 * PI / 180)) / (sin (d1 * PI / 180) - sin (d0 * PI / 180))).
Proof.
  intros lo hi d0 d1 t u D0 D1 T U. unfold angular_candidate. set (r := angular_rarange (Some (lo, hi))). cbn [fst snd].
  split; [apply Rmod_range; lra|]. split.
  - set (v := uniform _ _ t). destruct (Rmod_congr v 360 ltac:(lra)) as (n & En).
    enough (Q : exists k : Z, on_arc lo hi (v + 360 * IZR k)).
    { destruct Q as (k & Q). unfold on_arc in *. destruct Q as [(H & k' & Hk)|(H & j & k' & Hj & Hk)].
      - left. split; auto. exists (n + k + k')%Z. rewrite !plus_IZR. lra.
      - right. split; auto. exists j, (n + k + k')%Z. rewrite !plus_IZR. lra. }
    unfold v, r, angular_rarange. destruct (wrap360 lo) as (i & Ea & Ra). destruct (wrap360 hi) as (j & Eb & Rb). rewrite Ea, Eb.
    destruct (Rltb lo hi) eqn:D; cbn [andb].
    + apply Rltb_true in D. exists (- i)%Z. left. split; auto. exists 0%Z. rewrite opp_IZR.
      assert (J : IZR (j - i) = IZR j - IZR i) by apply minus_IZR.
      destruct (Rleb _ _) eqn:E; cbn [fst snd].
      * apply Rleb_true in E. assert (Lt : Rltb (hi + 360 * IZR j + 360) (lo + 360 * IZR i) = false) by (apply Rltb_false; lra). rewrite Lt.
        destruct (uniform_range (lo + 360 * IZR i) (hi + 360 * IZR j + 360) t) as [U0 U1]; [lra|auto|].
        assert (IZR (j - i) <= -1). { assert (Q : IZR (j - i) < 0) by lra. apply lt_IZR in Q. apply (IZR_le _ (-1)). lia. } lra.
      * apply Rleb_false in E. assert (Lt : Rltb (hi + 360 * IZR j) (lo + 360 * IZR i) = false) by (apply Rltb_false; lra). rewrite Lt.
        destruct (uniform_range (lo + 360 * IZR i) (hi + 360 * IZR j) t) as [U0 U1]; [lra|auto|].
        assert (IZR (j - i) <= 0). { assert (Q : IZR (j - i) < 1) by lra. apply lt_IZR in Q. apply (IZR_le _ 0). lia. } lra.
    + apply Rltb_false in D. cbn [fst snd]. destruct (Rltb (hi + 360 * IZR j) (lo + 360 * IZR i)) eqn:E.
      * apply Rltb_true in E. destruct (uniform_range (lo + 360 * IZR i - 360) (hi + 360 * IZR j) t) as [U0 U1]; [lra|auto|].
        exists (1 - i)%Z. right. split; auto. exists (j - i + 1)%Z, 0%Z. rewrite plus_IZR, !minus_IZR. lra.
      * apply Rltb_false in E. destruct (uniform_range (lo + 360 * IZR i) (hi + 360 * IZR j) t) as [U0 U1]; [lra|auto|].
        exists (- i)%Z. right. split; auto. exists (j - i)%Z, 0%Z. rewrite minus_IZR, opp_IZR. lra.
  - pose proof PI_RGT_0 as Pp. pose proof (deg_bounds d0 ltac:(lra)) as B0. pose proof (deg_bounds d1 ltac:(lra)) as B1.
    assert (S01 : sin (d0 * PI / 180) < sin (d1 * PI / 180)) by (apply sin_increasing_1; nra).
    destruct (uniform_range (sin (d0 * PI / 180)) (sin (d1 * PI / 180)) u) as [U0 U1]; [lra|auto|].
    pose proof (SIN_bound (d0 * PI / 180)). pose proof (SIN_bound (d1 * PI / 180)). set (y := uniform _ _ u) in *.
    assert (Q : forall x, asin y / (PI / 180) <= x <-> asin y <= x * PI / 180).
    { intros x. assert (E : asin y / (PI / 180) * (PI / 180) = asin y) by (field; lra). split; intros C.
      - apply (Rmult_le_compat_r (PI / 180)) in C; lra.
      - apply Rmult_le_reg_r with (PI / 180); lra. }
    assert (Law : forall x, -90 <= x <= 90 -> (asin y / (PI / 180) <= x <-> y <= sin (x * PI / 180))).
    { intros x Hx. rewrite Q. apply asin_le; [lra|apply deg_bounds; auto]. }
    split.
    + split; [|apply Law; lra].
      assert (E : asin y / (PI / 180) * (PI / 180) = asin y) by (field; lra). apply Rmult_le_reg_r with (PI / 180); [lra|]. rewrite E.
      pose proof (asin_bound y). replace (d0 * (PI / 180)) with (d0 * PI / 180) by field. apply sin_incr_0; try lra. rewrite sin_asin; lra.
    + intros x Hx. rewrite Law by lra. unfold y. apply uniform_le. auto.
Qed.
Print Assumptions C31_sizes.
Print Assumptions C31_kept.
Print Assumptions C31_first_kept.
Print Assumptions C31_ends.
Print Assumptions C31_nothing_refuted.
Print Assumptions C31_empty_mask_refuted.
Print Assumptions C31_radial_candidates.
Print Assumptions C31_angular_candidates.
(** Two processes asking for 1 and 3 objects; the first process keeps all it draws, the second nothing: it is given draws of the first. *)
Definition two_draws (k r : nat) : list (bool * R) := if Nat.eqb r 0 then [(true, /2)] else [(false, /2); (false, /2); (false, /2)].
Example C31_case : exists out, sample (fun b : bool => if b then 1 else 0) two_draws 10 [1; 3]%nat = Ok out /\ out = [[true]; [true; true; true]].
Proof.
  destruct (C31_ends bool (fun b : bool => if b then 1 else 0) two_draws 10 [1; 3]%nat) as (out & E).
  - intros k. exists 0%nat, true, (/2). split; [cbn; lia|]. split; [left; reflexivity|]. unfold kept. cbn. lra.
  - cbn. lia.
  - exists out. split; auto. pose proof (C31_sizes _ _ _ _ _ _ E) as L. pose proof (C31_kept _ _ _ _ _ _ E) as K.
    assert (T : forall l b, In l out -> In b l -> b = true).
    { intros l b Il Ib. destruct (K l b Il Ib) as (k & r & u & _ & I & Q). destruct b; auto. exfalso. unfold kept in Q. cbn in Q. unfold two_draws in I.
      destruct (Nat.eqb r 0); cbn in I; repeat destruct I as [I|I]; try easy; injection I as <-; lra. }
    destruct out as [|l1 [|l2 [|? ?]]]; try discriminate. cbn in L. destruct l1 as [|a [|? ?]]; try discriminate. destruct l2 as [|b [|c [|d [|? ?]]]]; try discriminate.
    rewrite (T [a] a), (T [b; c; d] b), (T [b; c; d] c), (T [b; c; d] d); cbn; auto 6.
Qed.
