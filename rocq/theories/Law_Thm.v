(** C82: sampled objects are independent and follow the documented law. *)
Require Import Reals Lra Lia ZArith List Bool FinFun FunctionalExtensionality.
From Verif Require Import Base Vec3 Sky_Model Sky_Proof Cutsky_Model Cutsky_Spec Mask_Model Mask_Spec Mask_Proof4 Mask_Thm Mask_Thm2 Sample_Model Sample_Spec Sample_Proof Sample_Thm
  Random_Model Random_Thm Law_Spec Law_Proof Law_Proof2.
Import ListNotations.
Open Scope R_scope.

(** C82 *)
(** Any mask, any sizes on any number of processes, any number of rounds. Each draw (candidate, number of the mask) is one of the
    equally likely values [vals], independently of the others. For any quantities f1, f2, ... of the objects (for instance indicators
    of events), the mean of f1(first object) f2(second object) ... over the draws for which sampling ends is the probability that it
    ends, times the product of the means of f1, f2, ... over candidates given that the mask keeps them: given that sampling ends, the
    objects returned, on all processes, are independent and distributed as kept candidates. *)
Theorem C82_independent : forall (A : Type) (prob : A -> R) (vals : list (A * R)), avg vals (fun x => ind (Rleb (snd x) (prob (fst x)))) <> 0 ->
  forall fuel sizes (fs : list (A -> R)) s0, length fs = total sizes ->
  mean vals (places fuel sizes) (fun s => match sample prob (drawn sizes s) fuel sizes with Ok out => joint fs (concat out) | Err _ => 0 end) s0 =
  Rprod (map (given_kept prob vals) fs) *
  mean vals (places fuel sizes) (fun s => match sample prob (drawn sizes s) fuel sizes with Ok _ => 1 | Err _ => 0 end) s0.
Proof. intros A prob vals P. exact (independent prob vals P). Qed.
Print Assumptions C82_independent.
(** Candidates 1, 2, 3 kept with probabilities 1, 1/2, 0 (numbers of the mask 1/4 and 3/4); two processes ask for 2 objects and 1. *)
Example C82_case : let prob := fun a : nat => match a with 1%nat => 1 | 2%nat => 1 / 2 | _ => 0 end in
  let vals := list_prod [1%nat; 2%nat; 3%nat] [1 / 4; 3 / 4] in
  avg vals (fun x => ind (Rleb (snd x) (prob (fst x)))) = 1 / 2 /\ total [2%nat; 1%nat] = 3%nat /\
  given_kept prob vals (fun a => ind (Nat.eqb a 1)) = 2 / 3.
Proof.
  assert (E : forall x y, Rleb x y = if Rle_dec x y then true else false) by reflexivity.
  cbn. unfold given_kept, avg. cbn. rewrite !E. repeat (destruct (Rle_dec _ _); try lra). cbn. repeat split; lra.
Qed.

(** The probability that sampling has not ended after (number of objects asked for) * m rounds is at most (number of objects) times
    the m-th power of the probability that a candidate is refused: sampling ends with probability one unless the mask keeps nothing. *)
Theorem C82_failure : forall (A : Type) (prob : A -> R) (vals : list (A * R)) sizes m s0, vals <> [] -> (1 <= total sizes)%nat ->
  mean vals (places (total sizes * m) sizes) (fun s => match sample prob (drawn sizes s) (total sizes * m) sizes with Ok _ => 0 | Err _ => 1 end) s0 <=
  INR (total sizes) * (1 - avg vals (fun x => ind (Rleb (snd x) (prob (fst x))))) ^ m.
Proof. intros A prob vals sizes m s0 V T. exact (fail_bound prob vals sizes m s0 V T). Qed.
Print Assumptions C82_failure.
Theorem C82_ends : forall (A : Type) (prob : A -> R) (vals : list (A * R)) sizes s0 eps, (1 <= total sizes)%nat ->
  avg vals (fun x => ind (Rleb (snd x) (prob (fst x)))) <> 0 -> 0 < eps -> exists fuel,
  1 - eps <= mean vals (places fuel sizes) (fun s => match sample prob (drawn sizes s) fuel sizes with Ok _ => 1 | Err _ => 0 end) s0 <= 1.
Proof.
  intros A prob vals sizes s0 eps T P He.
  assert (V : vals <> []) by (intros ->; apply P; unfold avg; cbn; unfold Rdiv; ring).
  set (p := avg vals (fun x => ind (Rleb (snd x) (prob (fst x))))) in *.
  assert (P0 : 0 <= p) by (rewrite <- (avg_const vals 0 V); apply avg_mono; intros x _; destruct (Rleb _ _); cbn; lra).
  assert (P1 : p <= 1) by (rewrite <- (avg_const vals 1 V); apply avg_mono; intros x _; destruct (Rleb _ _); cbn; lra).
  assert (TP : 0 < INR (total sizes)) by (apply lt_0_INR; lia).
  destruct (pow_lt_1_zero (1 - p)) with (y := eps / INR (total sizes)) as (m & M); [apply Rabs_def1; lra|apply Rdiv_lt_0_compat; lra|].
  specialize (M m (le_n m)). assert (Q : 0 <= (1 - p) ^ m) by (apply pow_le; lra). rewrite Rabs_right in M by lra.
  exists (total sizes * m)%nat. set (ks := places (total sizes * m) sizes).
  set (ok := fun s => match sample prob (drawn sizes s) (total sizes * m) sizes with Ok _ => 1 | Err _ => 0 end).
  set (ko := fun s => match sample prob (drawn sizes s) (total sizes * m) sizes with Ok _ => 0 | Err _ => 1 end).
  assert (S : mean vals ks ok s0 = 1 - mean vals ks ko s0).
  { rewrite (mean_ext vals ks ok (fun s => 1 * 1 + -1 * ko s)) by (intros s; unfold ok, ko; destruct (sample _ _ _ _); ring).
    rewrite (mean_lin vals ks 1 (-1) (fun _ => 1) ko), mean_one by auto. ring. }
  pose proof (C82_failure A prob vals sizes m s0 V T) as F. fold ks ko p in F.
  assert (E : INR (total sizes) * (1 - p) ^ m <= eps).
  { apply Rmult_le_reg_r with (/ INR (total sizes)); [apply Rinv_0_lt_compat; auto|]. rewrite (Rmult_comm (INR _)), Rmult_assoc, Rinv_r by lra. unfold Rdiv in M. lra. }
  assert (K : 0 <= mean vals ks ko s0). { rewrite <- (mean_zero vals ks s0). apply mean_mono. intros s. unfold ko. destruct (sample _ _ _ _); lra. }
  rewrite S. lra.
Qed.
Print Assumptions C82_ends.

(** A candidate is kept with its selection probability, up to the step 1 / n of the generator (never less). *)
Theorem C82_kept : forall n p, (0 < n)%nat -> 0 <= p <= 1 -> p <= avg (grid n) (fun u => ind (Rleb u p)) <= p + 1 / INR n.
Proof. exact grid_share. Qed.
Print Assumptions C82_kept.
Example C82_kept_case : (0 < 2 ^ 53)%nat /\ 0 <= 1 / 3 <= 1.
Proof. split; [apply Nat.neq_0_lt_0, Nat.pow_nonzero; discriminate|lra]. Qed.

(** *** The catalogs *)
Lemma avg_map : forall {X Y} (f : X -> Y) (vals : list X) g, avg (map f vals) g = avg vals (fun x => g (f x)).
Proof. intros. unfold avg. rewrite map_map, map_length. reflexivity. Qed.
Lemma mean_map : forall {X Y} (f : X -> Y) (vals : list X) ks (g : (place -> Y) -> R) s,
  mean vals ks (fun s => g (fun k => f (s k))) s = mean (map f vals) ks g (fun k => f (s k)).
Proof.
  intros X Y f vals. induction ks as [|k ks IH]; intros g s; cbn; auto. rewrite avg_map. apply avg_ext. intros x. rewrite IH. f_equal.
  extensionality k'. unfold set_at. destruct (place_dec k k'); reflexivity.
Qed.
Lemma joint_ind : forall {A B} (e : B -> A -> bool) (xs : list B) (l : list A),
  joint (map (fun x d => ind (e x d)) xs) l = ind (forallb (fun q => e (snd q) (fst q)) (combine l xs)).
Proof. intros A B e. induction xs as [|x xs IH]; intros [|d l]; cbn; auto. rewrite IH. destruct (e x d); cbn; ring. Qed.

Lemma grid_in : forall n t, In t (grid n) -> 0 <= t < 1.
Proof.
  intros n t I. unfold grid in I. apply in_map_iff in I. destruct I as (i & <- & Ii). apply in_seq in Ii.
  assert (N : 0 < INR n) by (apply lt_0_INR; lia). pose proof (pos_INR i). assert (INR i < INR n) by (apply lt_INR; lia). split; [apply Rmult_le_pos; [lra|apply Rlt_le, Rinv_0_lt_compat, N]|].
  apply Rmult_lt_reg_r with (INR n); auto. unfold Rdiv. rewrite Rmult_assoc, Rinv_l by lra. lra.
Qed.
(** A mask that keeps everything: nothing is conditioned. *)
Lemma given_all : forall {A} (prob : A -> R) (vals : list (A * R)) f, vals <> [] -> (forall x, In x vals -> snd x <= prob (fst x)) ->
  avg vals (fun x => ind (Rleb (snd x) (prob (fst x)))) = 1 /\ given_kept prob vals f = avg vals (fun x => f (fst x)).
Proof.
  intros A prob vals f V H.
  assert (E : avg vals (fun x => ind (Rleb (snd x) (prob (fst x)))) = 1).
  { rewrite <- (avg_const vals 1 V). unfold avg. f_equal. f_equal. apply map_ext_in. intros x I. rewrite (proj2 (Rleb_true _ _) (H x I)). reflexivity. }
  split; auto. unfold given_kept. rewrite E. unfold Rdiv at 1. rewrite Rinv_1, Rmult_1_r. unfold avg. f_equal. f_equal. apply map_ext_in. intros x I.
  rewrite (proj2 (Rleb_true _ _) (H x I)). cbn. ring.
Qed.
Lemma avg_fst : forall {X Y} (a : list X) (b : list Y) g, b <> [] -> avg (list_prod a b) (fun x => g (fst x)) = avg a g.
Proof.
  intros X Y a b g B. rewrite (avg_ext (list_prod a b) _ (fun x => g (fst x) * (fun _ => 1) (snd x))) by (intros; ring).
  rewrite (avg_pairs a b g (fun _ => 1)), avg_const by auto. ring.
Qed.
Lemma prod_nil : forall {X Y} (a : list X) (b : list Y), a <> [] -> b <> [] -> list_prod a b <> [].
Proof. intros X Y [|x a] [|y b] A B; try tauto. discriminate. Qed.

Lemma mean_in : forall {X} (vals : list X) ks g h s, (forall k, In (s k) vals) -> (forall s, (forall k, In (s k) vals) -> g s = h s) -> mean vals ks g s = mean vals ks h s.
Proof.
  intros X vals. induction ks as [|k ks IH]; intros g h s S H; cbn; auto. unfold avg. f_equal. f_equal. apply map_ext_in. intros x I. apply IH; auto.
  intros k'. unfold set_at. destruct (place_dec k k'); auto.
Qed.
Lemma Forall2_map_r : forall {X Y} (f : X -> Y) (P : X -> Y -> Prop) l, (forall x, In x l -> P x (f x)) -> Forall2 P l (map f l).
Proof. intros X Y f P. induction l as [|x l IH]; intros H; constructor; [apply H; left|apply IH; intros; apply H; right]; auto. Qed.
(** A sampler that builds candidates from raw numbers, all kept by the mask. *)
Lemma from_numbers : forall {X A B} (numbers : list X) (cand : X -> A * R) (prob : A -> R) (F : (nat -> nat -> list X) -> result (list (list A))) (e : B -> A -> bool)
  fuel sizes xs s0, (forall s, F (drawn sizes s) = sample prob (drawn sizes (fun k => cand (s k))) fuel sizes) ->
  (forall x, In x numbers -> snd (cand x) <= prob (fst (cand x))) -> (forall k, In (s0 k) numbers) -> (1 <= total sizes <= fuel)%nat -> length xs = total sizes ->
  mean numbers (places fuel sizes) (fun s => match F (drawn sizes s) with Ok out => ind (forallb (fun q => e (snd q) (fst q)) (combine (concat out) xs)) | Err _ => 0 end) s0 =
  Rprod (map (fun x => avg numbers (fun y => ind (e x (fst (cand y))))) xs).
Proof.
  intros X A B numbers cand prob F e fuel sizes xs s0 SD K S0 T L. set (vals := map cand numbers).
  assert (NN : numbers <> []) by (intros E; specialize (S0 (0, 0, 0)%nat); rewrite E in S0; destruct S0). assert (VN : vals <> []) by (unfold vals; destruct numbers; [tauto|discriminate]).
  assert (ALL : forall x, In x vals -> snd x <= prob (fst x)) by (intros x I; unfold vals in I; apply in_map_iff in I; destruct I as (y & <- & I); auto).
  assert (P : avg vals (fun x => ind (Rleb (snd x) (prob (fst x)))) <> 0) by (rewrite (proj1 (given_all prob vals (fun _ => 1) VN ALL)); lra).
  pose proof (C82_independent A prob vals P fuel sizes (map (fun x d => ind (e x d)) xs) (fun k => cand (s0 k))) as Q.
  rewrite map_length in Q. specialize (Q L).
  set (g := fun s' => match sample prob (drawn sizes s') fuel sizes with Ok out => joint (map (fun x d => ind (e x d)) xs) (concat out) | Err _ => 0 end) in Q.
  rewrite (mean_ext numbers (places fuel sizes) _ (fun s => g (fun k => cand (s k)))).
  2:{ intros s. unfold g. rewrite SD. destruct (sample _ _ _ _); auto. rewrite joint_ind. reflexivity. }
  rewrite (mean_map cand numbers (places fuel sizes) g). fold vals. rewrite Q, (mean_in vals (places fuel sizes) _ (fun _ => 1)), mean_one, Rmult_1_r; auto.
  - f_equal. rewrite map_map. apply map_ext. intros x. rewrite (proj2 (given_all prob vals (fun d => ind (e x d)) VN ALL)). unfold vals. apply (avg_map cand numbers (fun z => ind (e x (fst z)))).
  - intros k. unfold vals. apply in_map, S0.
  - intros s I. destruct (C31_ends A prob (drawn sizes s) fuel sizes) as (out & ->); [|lia|auto].
    intros k. destruct (first_process sizes) as (r & Hr & Pr); [lia|]. destruct (s (k, r, 0%nat)) as [a u] eqn:E. exists r, a, u.
    assert (J : In (a, u) (drawn sizes s k r)) by (unfold drawn; rewrite <- E; apply (in_map (fun i => s (k, r, i))), in_seq; lia).
    repeat split; auto. unfold kept. specialize (I (k, r, 0%nat)). rewrite E in I. apply (ALL _ I).
Qed.

Lemma avg_probability : forall {X} (vals : list X) (e : X -> bool), vals <> [] -> 0 <= avg vals (fun x => ind (e x)) <= 1.
Proof.
  intros X vals e V. split; [rewrite <- (avg_const vals 0 V)|rewrite <- (avg_const vals 1 V)]; apply avg_mono; intros x _; destruct (e x); cbn; lra.
Qed.
(** Distances of RandomCutskyCatalog, when as many rounds are allowed as there are objects or more: they are independent, and each is at most x with the
    probability (x^3 - r0^3) / (r1^3 - r0^3), the share of the volume, up to the step of the generator. [xs] has one bound per object. *)
Theorem C82_distances : forall inverse n r0 r1 fuel sizes xs s0, let numbers := list_prod (grid n) (grid n) in
  0 <= r0 < r1 -> (forall x, 0 <= x <= r1 -> inverse x = x) -> (1 <= total sizes <= fuel)%nat -> (forall k, In (s0 k) numbers) ->
  length xs = total sizes -> (forall x, In x xs -> r0 <= x <= r1) ->
  exists qs, Forall2 (fun x q => 0 <= q <= 1 /\ Rabs (q - (x ^ 3 - r0 ^ 3) / (r1 ^ 3 - r0 ^ 3)) <= 1 / INR n) xs qs /\
  mean numbers (places fuel sizes) (fun s => match sample_distances inverse (drawn sizes s) fuel (r0, r1) sizes with
                                             | Ok out => ind (forallb (fun q => Rleb (fst q) (snd q)) (combine (concat out) xs)) | Err _ => 0 end) s0 = Rprod qs.
Proof.
  intros inverse n r0 r1 fuel sizes xs s0 numbers Hr INV T S0 L B.
  assert (N : (0 < n)%nat) by (specialize (S0 (0, 0, 0)%nat); destruct n; [destruct S0|lia]).
  set (cand := fun y : R * R => (inverse (radial_candidate (fun z => z) r0 r1 (fst y)), snd y)). set (prob := uniform_radial_prob 1 (r0, Some r1)).
  exists (map (fun x => avg numbers (fun y => ind (Rleb (fst (cand y)) x))) xs). split.
  - assert (NN : numbers <> []) by (apply prod_nil; apply grid_nil; auto).
    apply Forall2_map_r. intros x Ix. specialize (B x Ix). split; [apply (avg_probability numbers (fun y => Rleb (fst (cand y)) x)), NN|]. unfold numbers.
    assert (C3 : r0 ^ 3 < r1 ^ 3). { assert (0 < (r1 - r0) * (r1 * r1 + r1 * r0 + r0 * r0)) by (apply Rmult_lt_0_compat; nra). nra. }
    unfold cand; cbn [fst]; rewrite (avg_fst (grid n) (grid n) (fun t => ind (Rleb (inverse (radial_candidate (fun z => z) r0 r1 t)) x))) by (apply grid_nil; auto).
    apply grid_test; auto.
    + assert (r0 ^ 3 <= x ^ 3) by (apply pow_incr; lra). assert (x ^ 3 <= r1 ^ 3) by (apply pow_incr; lra).
      split; [apply Rmult_le_pos; [lra|apply Rlt_le, Rinv_0_lt_compat; lra]|].
      apply Rmult_le_reg_r with (r1 ^ 3 - r0 ^ 3); [lra|]. unfold Rdiv. rewrite Rmult_assoc, Rinv_l by lra. lra.
    + intros t Tt. rewrite Rleb_true. destruct (C31_radial_candidates (fun z => z) r0 r1 t Hr Tt) as [C0 C]. rewrite INV by lra. apply C. lra.
  - apply (from_numbers numbers cand prob (fun draws => sample_distances inverse draws fuel (r0, r1) sizes) (fun x d => Rleb d x)); auto.
    + intros s. unfold sample_distances. cbn [fst snd]. fold prob. f_equal. extensionality k. extensionality r.
      unfold drawn. rewrite map_map. apply map_ext. intros i. unfold cand. destruct (s (k, r, i)); reflexivity.
    + intros [t u] I. apply in_prod_iff in I. destruct I as [It Iu]. apply grid_in in It, Iu.
      unfold cand. cbn [fst snd]. destruct (C31_radial_candidates (fun z => z) r0 r1 t Hr It) as [C _]. rewrite INV by lra.
      unfold prob, uniform_radial_prob, in_zrange. cbn [fst snd]. rewrite (proj2 (Rleb_true _ _) (proj1 C)), (proj2 (Rleb_true _ _) (proj2 C)). cbn [andb].
      unfold Rclip. rewrite Rmax_left, Rmin_left by lra. lra.
Qed.
Print Assumptions C82_distances.

(** Right ascensions and declinations: the candidates of a range of positive width, at most one turn. *)
Lemma arc_start : forall lo hi, 0 < ra_width (lo, hi) <= 360 -> let r := angular_rarange (Some (lo, hi)) in
  exists i : Z, (if Rltb (snd r) (fst r) then fst r - 360 else fst r) = lo + 360 * IZR i /\
                snd r - (if Rltb (snd r) (fst r) then fst r - 360 else fst r) = ra_width (lo, hi).
Proof.
  intros lo hi W r. unfold r, angular_rarange. destruct (wrap360 lo) as (i & Ea & Ra). destruct (wrap360 hi) as (j & Eb & Rb). rewrite Ea, Eb.
  assert (J : forall z : Z, IZR (j - i + z) = IZR j - IZR i + IZR z) by (intros; rewrite plus_IZR, minus_IZR; ring).
  unfold ra_width in *. cbn [fst snd] in *. destruct (Rltb lo hi) eqn:D.
  - apply Rltb_true in D. destruct (Rlt_dec hi lo) as [|_]; [lra|]. cbn [andb]. destruct (Rleb (hi + 360 * IZR j) (lo + 360 * IZR i)) eqn:C; cbn [fst snd].
    + apply Rleb_true in C. replace (Rltb _ _) with false by (symmetry; apply Rltb_false; lra). exists i. split; auto.
      pose proof (J 1%Z) as J1. destruct (Z.eq_dec (j - i + 1) 0) as [Z0|Z0]; [rewrite Z0 in J1; lra|]. exfalso.
      assert (Z2 : (j - i + 1 <= -1 \/ 1 <= j - i + 1)%Z) by lia. destruct Z2 as [Z2|Z2]; apply IZR_le in Z2; lra.
    + apply Rleb_false in C. replace (Rltb _ _) with false by (symmetry; apply Rltb_false; lra). exists i. split; auto.
      pose proof (J 0%Z) as J1. destruct (Z.eq_dec (j - i + 0) 0) as [Z0|Z0]; [rewrite Z0 in J1; lra|]. exfalso.
      assert (Z2 : (j - i + 0 <= -1 \/ 1 <= j - i + 0)%Z) by lia. destruct Z2 as [Z2|Z2]; apply IZR_le in Z2; lra.
  - apply Rltb_false in D. destruct (Rlt_dec hi lo) as [Dl|Dl]; [|lra]. cbn [andb fst snd]. destruct (Rltb (hi + 360 * IZR j) (lo + 360 * IZR i)) eqn:C.
    + apply Rltb_true in C. exists (i - 1)%Z. rewrite minus_IZR. split; [ring|].
      pose proof (J 0%Z) as J1. destruct (Z.eq_dec (j - i + 0) 0) as [Z0|Z0]; [rewrite Z0 in J1; lra|]. exfalso.
      assert (Z2 : (j - i + 0 <= -1 \/ 1 <= j - i + 0)%Z) by lia. destruct Z2 as [Z2|Z2]; apply IZR_le in Z2; lra.
    + apply Rltb_false in C. exists i. split; auto.
      pose proof (J (-1)%Z) as J1. destruct (Z.eq_dec (j - i + -1) 0) as [Z0|Z0]; [rewrite Z0 in J1; lra|]. exfalso.
      assert (Z2 : (j - i + -1 <= -1 \/ 1 <= j - i + -1)%Z) by lia. destruct Z2 as [Z2|Z2]; apply IZR_le in Z2; lra.
Qed.
Lemma arc_share : forall lo hi t v dd y, 0 < ra_width (lo, hi) <= 360 -> 0 <= t < 1 -> 0 <= y <= ra_width (lo, hi) ->
  ((exists k : Z, lo <= fst (angular_candidate (angular_rarange (Some (lo, hi))) dd t v) + 360 * IZR k <= lo + y) <-> t <= y / ra_width (lo, hi)).
Proof.
  intros lo hi t v dd y W T Y. destruct (arc_start lo hi W) as (i & S & D). unfold angular_candidate. cbn [fst].
  set (r0 := if Rltb _ _ then _ else _) in *. set (w := ra_width (lo, hi)) in *. unfold uniform. rewrite D, S.
  destruct (Rmod_congr (lo + 360 * IZR i + w * t) 360 ltac:(lra)) as (m & M).
  assert (Q : t <= y / w <-> w * t <= y).
  { split; intros H; [apply Rmult_le_compat_l with (r := w) in H; [|lra]; replace (w * (y / w)) with y in H by (field; lra); auto|].
    apply Rmult_le_reg_l with w; [lra|]. replace (w * (y / w)) with y by (field; lra). auto. }
  rewrite Q. assert (WT : 0 <= w * t < w) by nra. split.
  - intros (k & H). destruct (Z.eq_dec (i - m + k) 0) as [Z0|Z0].
    + apply (f_equal IZR) in Z0. rewrite plus_IZR, minus_IZR in Z0. lra.
    + assert (Z2 : (i - m + k <= -1 \/ 1 <= i - m + k)%Z) by lia. destruct Z2 as [Z2|Z2]; apply IZR_le in Z2; rewrite plus_IZR, minus_IZR in Z2; lra.
  - intros H. exists (m - i)%Z. rewrite minus_IZR. lra.
Qed.
(** RandomCutskyCatalog, right ascensions and declinations, for a range that the masks follow (C30_exactly), at most one turn wide:
    each object is within y degrees after the start of the range, and at most at declination x, with the probability
    (y / width) (sin x - sin d0) / (sin d1 - sin d0), the share of the area, up to twice the step of the generator; and objects are
    independent. [e] tells whether an object is so. *)
Definition sky_event (lo : R) (e : R * R -> R * R -> bool) : Prop :=
  forall y x ra dec, e (y, x) (ra, dec) = true <-> (exists k : Z, lo <= ra + 360 * IZR k <= lo + y) /\ dec <= x.
Definition sky_share (lo hi d0 d1 y x : R) : R :=
  y / ra_width (lo, hi) * ((sin (x * PI / 180) - sin (d0 * PI / 180)) / (sin (d1 * PI / 180) - sin (d0 * PI / 180))).
Theorem C82_angles : forall n lo hi d0 d1 fuel sizes e xs s0, let numbers := list_prod (list_prod (grid n) (grid n)) (grid n) in
  followed_range lo hi -> 0 < ra_width (lo, hi) <= 360 -> -90 <= d0 < d1 -> d1 <= 90 -> (1 <= total sizes <= fuel)%nat -> (forall k, In (s0 k) numbers) ->
  sky_event lo e -> length xs = total sizes -> (forall y x, In (y, x) xs -> 0 <= y <= ra_width (lo, hi) /\ d0 <= x <= d1) ->
  exists qs, Forall2 (fun x q => 0 <= q <= 1 /\ Rabs (q - sky_share lo hi d0 d1 (fst x) (snd x)) <= 2 * (1 / INR n)) xs qs /\
  mean numbers (places fuel sizes) (fun s => match sample_angles (drawn sizes s) fuel (lo, hi) (d0, d1) sizes with
                                             | Ok out => ind (forallb (fun q => e (snd q) (fst q)) (combine (concat out) xs)) | Err _ => 0 end) s0 = Rprod qs.
Proof.
  intros n lo hi d0 d1 fuel sizes e xs s0 numbers FR W D0 D1 T S0 EV L B.
  assert (N : (0 < n)%nat) by (specialize (S0 (0, 0, 0)%nat); destruct n; [destruct S0|lia]).
  set (cand := fun y : R * R * R => (angular_candidate (angular_rarange (Some (lo, hi))) (d0, d1) (fst (fst y)) (snd (fst y)), snd y)).
  set (prob := fun a : R * R => uniform_angular_prob 1 (Some (lo, hi)) (Some (d0, d1)) (fst a) (snd a)).
  exists (map (fun x => avg numbers (fun y => ind (e x (fst (cand y))))) xs). split.
  - assert (NN : numbers <> []) by (apply prod_nil; [apply prod_nil|]; apply grid_nil; auto).
    apply Forall2_map_r. intros [y x] Ix. destruct (B y x Ix) as [Y X]. split; [apply (avg_probability numbers (fun z => e (y, x) (fst (cand z)))), NN|]. unfold numbers, cand. cbn [fst snd].
    rewrite (avg_fst (list_prod (grid n) (grid n)) (grid n) (fun t => ind (e (y, x) (angular_candidate (angular_rarange (Some (lo, hi))) (d0, d1) (fst t) (snd t))))) by (apply grid_nil; auto).
    set (w := ra_width (lo, hi)) in *. set (g := sin (d0 * PI / 180)) in *. set (s := sin (d1 * PI / 180)) in *.
    set (P := (sin (x * PI / 180) - g) / (s - g)).
    assert (GS : 0 <= P <= 1).
    { pose proof PI_RGT_0 as PP. assert (RNG : forall z, -90 <= z <= 90 -> - (PI / 2) <= z * PI / 180 <= PI / 2) by (intros z Z; split; nra).
      pose proof (RNG d0 ltac:(lra)). pose proof (RNG d1 ltac:(lra)). pose proof (RNG x ltac:(lra)).
      assert (g < s) by (apply sin_increasing_1; nra).
      assert (g <= sin (x * PI / 180)) by (apply sin_incr_1; nra). assert (sin (x * PI / 180) <= s) by (apply sin_incr_1; nra).
      unfold P. split; [apply Rmult_le_pos; [lra|apply Rlt_le, Rinv_0_lt_compat; lra]|].
      apply Rmult_le_reg_r with (s - g); [lra|]. unfold Rdiv. rewrite Rmult_assoc, Rinv_l by lra. lra. }
    assert (GY : 0 <= y / w <= 1).
    { split; [apply Rmult_le_pos; [lra|apply Rlt_le, Rinv_0_lt_compat; lra]|]. apply Rmult_le_reg_r with w; [lra|]. unfold Rdiv. rewrite Rmult_assoc, Rinv_l by lra. lra. }
    assert (SPLIT : avg (list_prod (grid n) (grid n)) (fun t => ind (e (y, x) (angular_candidate (angular_rarange (Some (lo, hi))) (d0, d1) (fst t) (snd t)))) =
                    avg (list_prod (grid n) (grid n)) (fun t => ind (Rleb (fst t) (y / w)) * ind (Rleb (snd t) P))).
    { unfold avg. f_equal. f_equal. apply map_ext_in. intros [t v] I. apply in_prod_iff in I. destruct I as [It Iv]. apply grid_in in It, Iv. cbn [fst snd].
      pose proof (C31_angular_candidates lo hi d0 d1 t v ltac:(lra) ltac:(lra) It Iv) as C. pose proof (arc_share lo hi t v (d0, d1) y W It Y) as A. fold w in A.
      destruct (angular_candidate _ _ t v) as [ra dec]. cbn [fst] in A. destruct C as (_ & _ & _ & C). specialize (C x X). fold g s P in C. specialize (EV y x ra dec).
      destruct (Rleb t (y / w)) eqn:R1, (Rleb v P) eqn:R2; destruct (e (y, x) (ra, dec)) eqn:R3; cbn [ind]; try lra; exfalso;
        try apply Rleb_true in R1; try apply Rleb_false in R1; try apply Rleb_true in R2; try apply Rleb_false in R2.
      - enough (false = true) by discriminate. apply EV. split; [apply A; auto|apply C; auto].
      - destruct EV as [EV _]. destruct (EV eq_refl) as [_ K]. apply C in K. lra.
      - destruct EV as [EV _]. destruct (EV eq_refl) as [K _]. apply A in K. lra.
      - destruct EV as [EV _]. destruct (EV eq_refl) as [K _]. apply A in K. lra. }
    rewrite SPLIT, (avg_pairs (grid n) (grid n) (fun t => ind (Rleb t (y / w))) (fun t => ind (Rleb t P))). unfold sky_share. fold w g s P.
    apply prod_close; auto; [apply avg_unit; auto| |]; (apply grid_test; auto; intros t _; apply Rleb_true).
  - apply (from_numbers numbers cand prob (fun draws => sample_angles draws fuel (lo, hi) (d0, d1) sizes) e); auto.
    + intros s. unfold sample_angles. fold prob. f_equal. extensionality k. extensionality r.
      unfold drawn. rewrite map_map. apply map_ext. intros i. unfold cand. destruct (s (k, r, i)) as [[t v] u]; reflexivity.
    + intros [[t v] u] I. apply in_prod_iff in I. destruct I as [I Iu]. apply in_prod_iff in I. destruct I as [It Iv]. apply grid_in in It, Iu, Iv.
      unfold cand, prob. cbn [fst snd]. pose proof (C31_angular_candidates lo hi d0 d1 t v ltac:(lra) ltac:(lra) It Iv) as C.
      destruct (angular_candidate _ _ t v) as [ra dec]. destruct C as (_ & C1 & C2 & _). cbn [fst snd].
      pose proof (proj2 (C30_exactly lo hi d0 d1 1 ltac:(lra) ltac:(lra)) FR ra dec) as K. pose proof (proj2 K (conj C1 C2)) as K2.
      revert K2. unfold uniform_angular_prob. destruct (mask_ranges _ _ _ dec); [intros _|lra]. unfold Rclip. rewrite Rmax_left, Rmin_left by lra. lra.
Qed.
Print Assumptions C82_angles.

(** The whole of RandomCutskyCatalog: right ascension, declination and distance of all the objects together. The two masks draw from
    generators of their own ([adraws] and [ddraws] of the model), so the mean is over both. *)
Lemma zip_concat : forall {A B C} (f : A -> B -> C) a b, map (@length A) a = map (@length B) b -> concat (zip_with (zip_with f) a b) = zip_with f (concat a) (concat b).
Proof.
  intros A B C f. induction a as [|x a IH]; intros [|y b] L; try discriminate; auto. injection L as L1 L. unfold zip_with in *. cbn. rewrite IH by auto.
  clear - L1. revert y L1. induction x as [|u x IH]; intros [|v y] L; try discriminate; auto. injection L as L. cbn. f_equal. apply IH, L.
Qed.
Lemma events_split : forall {X Y A B C} (f : A -> B -> C) (ex : X -> A -> bool) (ey : Y -> B -> bool) (g : X * Y -> C -> bool) a b xs, length a = length b ->
  (forall x y u v, g (x, y) (f u v) = ex x u && ey y v) ->
  ind (forallb (fun q => g (snd q) (fst q)) (combine (zip_with f a b) xs)) =
  ind (forallb (fun q => ex (snd q) (fst q)) (combine a (map fst xs))) * ind (forallb (fun q => ey (snd q) (fst q)) (combine b (map snd xs))).
Proof.
  intros X Y A B C f ex ey g a b xs L G. revert b xs L. induction a as [|u a IH]; intros [|v b] xs L; try discriminate; [cbn; ring|]. injection L as L.
  destruct xs as [|[x y] xs]; [cbn; ring|]. specialize (IH b xs L). unfold zip_with in *. cbn [combine map fst snd forallb]. rewrite G.
  destruct (ex x u), (ey y v); cbn [andb ind]; rewrite ?IH; ring.
Qed.
Lemma Forall2_len : forall {X Y} (P : X -> Y -> Prop) a b, Forall2 P a b -> length a = length b.
Proof. intros X Y P a b F. induction F; cbn; auto. Qed.
Lemma Rprod_zip : forall a b, length a = length b -> Rprod a * Rprod b = Rprod (zip_with Rmult a b).
Proof.
  induction a as [|x a IH]; intros [|y b] L; try discriminate; [cbn; ring|]. injection L as L. specialize (IH b L). unfold Rprod, zip_with in *. cbn. rewrite <- IH. ring.
Qed.
Theorem C82_cutsky : forall split inverse n lo hi d0 d1 r0 r1 m fuel e xs s0 s1,
  let anumbers := list_prod (list_prod (grid n) (grid n)) (grid n) in let dnumbers := list_prod (grid n) (grid n) in let sizes := split m in
  total sizes = m -> followed_range lo hi -> 0 < ra_width (lo, hi) <= 360 -> -90 <= d0 < d1 -> d1 <= 90 -> 0 <= r0 < r1 -> (forall x, 0 <= x <= r1 -> inverse x = x) ->
  (1 <= m <= fuel)%nat -> (forall k, In (s0 k) anumbers) -> (forall k, In (s1 k) dnumbers) -> sky_event lo e -> length xs = m ->
  (forall y x d, In (y, x, d) xs -> 0 <= y <= ra_width (lo, hi) /\ d0 <= x <= d1 /\ r0 <= d <= r1) ->
  exists qs, Forall2 (fun b q => Rabs (q - sky_share lo hi d0 d1 (fst (fst b)) (snd (fst b)) * ((snd b ^ 3 - r0 ^ 3) / (r1 ^ 3 - r0 ^ 3))) <= 3 * (1 / INR n)) xs qs /\
  mean anumbers (places fuel sizes) (fun s => mean dnumbers (places fuel sizes) (fun s' =>
    match random_cutsky split inverse (drawn sizes s) (drawn sizes s') fuel (lo, hi) (d0, d1) (Some (r0, r1)) (Some (Z.of_nat m)) None with
    | Ok out => ind (forallb (fun q => e (fst (snd q)) (o_ra (fst q), o_dec (fst q)) && Rleb (o_dist (fst q)) (snd (snd q))) (combine (concat out) xs))
    | Err _ => 0
    end) s1) s0 = Rprod qs.
Proof.
  intros split inverse n lo hi d0 d1 r0 r1 m fuel e xs s0 s1 anumbers dnumbers sizes TS FR W D0 D1 Hr INV T S0 S1 EV L B.
  destruct (C82_angles n lo hi d0 d1 fuel sizes e (map fst xs) s0) as (qa & QA & MA); auto; [rewrite TS; auto|rewrite map_length; lia| |].
  { intros y x I. apply in_map_iff in I. destruct I as ([[y' x'] d] & E & I). injection E as -> ->. destruct (B y x d I) as (? & ? & _). auto. }
  destruct (C82_distances inverse n r0 r1 fuel sizes (map snd xs) s1) as (qd & QD & MD); auto; [rewrite TS; auto|rewrite map_length; lia| |].
  { intros d I. apply in_map_iff in I. destruct I as ([[y x] d'] & E & I). cbn in E. subst d'. destruct (B y x d I) as (_ & _ & ?). auto. }
  exists (zip_with Rmult qa qd). split.
  - clear MA MD L S0 S1 TS T sizes anumbers dnumbers. revert qa qd QA QD. induction xs as [|[ [y x] d] xs IH]; intros qa qd QA QD; inversion QA as [|? q ? qa' A QA']; inversion QD as [|? q' ? qd' D QD']; subst; constructor.
    + cbn [fst snd] in *. destruct (B y x d (or_introl eq_refl)) as (By & Bx & Bd). destruct A as [A1 A2], D as [D2 D3].
      assert (V : 0 <= (d ^ 3 - r0 ^ 3) / (r1 ^ 3 - r0 ^ 3) <= 1).
      { assert (C3 : r0 ^ 3 < r1 ^ 3). { assert (0 < (r1 - r0) * (r1 * r1 + r1 * r0 + r0 * r0)) by (apply Rmult_lt_0_compat; nra). nra. }
        assert (r0 ^ 3 <= d ^ 3) by (apply pow_incr; lra). assert (d ^ 3 <= r1 ^ 3) by (apply pow_incr; lra).
        split; [apply Rmult_le_pos; [lra|apply Rlt_le, Rinv_0_lt_compat; lra]|].
        apply Rmult_le_reg_r with (r1 ^ 3 - r0 ^ 3); [lra|]. unfold Rdiv. rewrite Rmult_assoc, Rinv_l by lra. lra. }
      set (v := (d ^ 3 - r0 ^ 3) / (r1 ^ 3 - r0 ^ 3)) in *. set (a := sky_share lo hi d0 d1 y x) in *.
      replace (q * q' - a * v) with (q * (q' - v) + v * (q - a)) by ring.
      eapply Rle_trans; [apply Rabs_triang|]. rewrite !Rabs_mult, (Rabs_right q), (Rabs_right v) by lra.
      pose proof (Rabs_pos (q - a)). pose proof (Rabs_pos (q' - v)). nra.
    + apply IH; auto. intros; eapply B; right; eauto.
  - assert (LQ : length qa = length qd) by (rewrite <- (Forall2_len _ _ _ QA), <- (Forall2_len _ _ _ QD), !map_length; auto).
    rewrite <- Rprod_zip, <- MA, <- MD by auto.
    set (a := fun s => match sample_angles (drawn sizes s) fuel (lo, hi) (d0, d1) sizes with
                       | Ok out => ind (forallb (fun q => e (snd q) (fst q)) (combine (concat out) (map fst xs))) | Err _ => 0 end).
    set (d := fun s' => match sample_distances inverse (drawn sizes s') fuel (r0, r1) sizes with
                        | Ok out => ind (forallb (fun q => Rleb (fst q) (snd q)) (combine (concat out) (map snd xs))) | Err _ => 0 end).
    rewrite (mean_ext anumbers (places fuel sizes) _ (fun s => mean dnumbers (places fuel sizes) d s1 * a s)).
    + rewrite (mean_scal anumbers (places fuel sizes) (mean dnumbers (places fuel sizes) d s1) a). fold anumbers dnumbers. ring.
    + intros s. rewrite (mean_ext dnumbers (places fuel sizes) _ (fun s' => a s * d s')); [rewrite (mean_scal dnumbers (places fuel sizes) (a s) d); ring|].
      intros s'. unfold random_cutsky, collective_size. cbn [bind]. replace (Z.of_nat m <? 0)%Z with false by (symmetry; apply Z.ltb_ge; lia). rewrite Nat2Z.id. fold sizes.
      unfold a, d. destruct (sample_angles _ _ _ _ _) as [angles|] eqn:EA; cbn [bind]; [|ring].
      destruct (sample_distances _ _ _ _ _) as [dist|] eqn:ED; cbn [bind]; [|ring].
      unfold sample_angles in EA. unfold sample_distances in ED. apply C31_sizes in EA, ED. rewrite zip_concat by congruence.
      apply (events_split (fun a d => Object (fst a) (snd a) d (sky_to_cartesian true None (NFloat d) (NFloat (fst a)) (NFloat (snd a)))) e (fun d y => Rleb y d)
        (fun b o => e (fst b) (o_ra o, o_dec o) && Rleb (o_dist o) (snd b))).
      * assert (CL : forall A (l : list (list A)), length (concat l) = total (map (@length A) l)) by (intros A l; induction l as [|x l IHl]; cbn; rewrite ?app_length, ?IHl; auto).
        rewrite !CL, EA, ED. reflexivity.
      * intros x y u v. cbn. destruct u; reflexivity.
Qed.
Print Assumptions C82_cutsky.
(** 300 to 40 degrees, twenty degrees wide in declination, two processes, generator of step 2^-53. *)
Example C82_cutsky_case : followed_range 300 40 /\ 0 < ra_width (300, 40) <= 360 /\ total ((fun m => [m - Nat.div2 m; Nat.div2 m]) 5)%nat = 5%nat /\
  (forall n, (0 < n)%nat -> exists s : place -> R * R, forall k, In (s k) (list_prod (grid n) (grid n))) /\
  exists e, sky_event 300 e.
Proof.
  split; [left; lra|]. split; [unfold ra_width; cbn; destruct (Rlt_dec 40 300); lra|]. split; [reflexivity|]. split.
  - intros n N. exists (fun _ => (0, 0)). intros _. assert (I : In 0 (grid n)).
    { unfold grid. apply in_map_iff. exists 0%nat. split; [cbn; unfold Rdiv; ring|apply in_seq; lia]. }
    apply in_prod; auto.
  - (* the number of turns is the floor *)
    exists (fun b a => Rleb (fst a - 300 - 360 * IZR (Rfloor ((fst a - 300) / 360))) (fst b) && Rleb (snd a) (snd b)).
    intros y x ra dec. cbn [fst snd]. rewrite andb_true_iff, !Rleb_true. destruct (Rfloor_spec ((ra - 300) / 360)) as [F0 F1].
    assert (E : ra - 300 = 360 * ((ra - 300) / 360)) by field. set (f := Rfloor _) in *. split; intros [H K]; split; auto.
    + exists (- f)%Z. rewrite opp_IZR. lra.
    + destruct H as (k & H). assert (Q : (- f <= k)%Z). { apply Z.lt_succ_r. apply lt_IZR. rewrite succ_IZR, opp_IZR. lra. } apply IZR_le in Q. rewrite opp_IZR in Q. lra.
Qed.
