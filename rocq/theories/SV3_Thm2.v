(** Property C78: weights of groups of rosettes, mean and covariance. *)
Require Import Reals Lra Lia ZArith String List Bool Arith.
From Verif Require Import Base Box_Model Blind_Model Cutsky_Model Cutsky_Thm FA_Model Smear_Model Smear_Proof Density_Proof Mesh_Thm2 SV3_Model SV3_Spec Blind_Thm2.
Import ListNotations.
Open Scope R_scope.

Lemma Rsum_cons : forall x l, Rsum (x :: l) = x + Rsum l. Proof. reflexivity. Qed.
Lemma Rsum_nil : Rsum [] = 0. Proof. reflexivity. Qed.
Ltac rs := cbn [map filter]; rewrite ?Rsum_cons, ?Rsum_nil.

Lemma fdiv_ok : forall x y v, fdiv x y = Ok v -> y <> 0 /\ v = x / y.
Proof. intros x y v H. unfold fdiv in H. destruct (Req_EM_T y 0); [discriminate|]. apply ok_inj_p in H. auto. Qed.
Lemma map_result_In : forall {A B} (f : A -> result B) l out, map_result f l = Ok out -> Forall2 (fun a b => f a = Ok b) l out.
Proof. intros A B f. induction l as [|a l IH]; intros out H; cbn in H; [apply ok_inj_p in H; subst; constructor|]. destruct (f a) eqn:E; [|discriminate]. cbn [bind] in H. destruct (map_result f l); [|discriminate]. cbn [bind] in H. apply ok_inj_p in H. subst. constructor; auto. Qed.

(** After rescaling, random pairs of a region have the normalisation of its data pairs. *)
Theorem C78_rescaled : forall groups out region, map_result (rescaled groups) groups = Ok out -> in_region region groups <> [] ->
  Rsum (map pr_rnorm (in_region region out)) = Rsum (map pr_dnorm (in_region region groups)).
Proof.
  intros groups out region H NE. apply map_result_In in H.
  assert (F : exists p, In p groups /\ pr_region p = region).
  { destruct (in_region region groups) as [|p l] eqn:E; [easy|]. assert (P : In p (in_region region groups)) by (rewrite E; left; auto). apply filter_In in P. destruct P as [P Q]. apply String.eqb_eq in Q. eauto. }
  destruct F as (p & P & Rp).
  assert (G : exists f, rescale_region groups region = Ok f).
  { clear -H P Rp. assert (X : forall l o, Forall2 (fun a b => rescaled groups a = Ok b) l o -> In p l -> exists b, rescaled groups p = Ok b) by (induction 1; intros I; [destruct I|destruct I as [->|I]; eauto]). destruct (X _ _ H P) as [b B]. unfold rescaled in B. rewrite Rp in B. destruct (rescale_region groups region); [eauto|discriminate]. }
  destruct G as [f G].
  assert (S1 : Rsum (map pr_rnorm (in_region region out)) = Rsum (map pr_rnorm (in_region region groups)) * f).
  { clear -H G. assert (X : forall l o, Forall2 (fun a b => rescaled groups a = Ok b) l o -> Rsum (map pr_rnorm (in_region region o)) = Rsum (map pr_rnorm (in_region region l)) * f); [|apply X; auto]. clear H. intros l o H. unfold in_region. induction H as [|a b l o E H IH]; rs; [lra|]. unfold rescaled in E. destruct (rescale_region groups (pr_region a)) as [fa|] eqn:Fa; [|discriminate]. cbn [bind] in E. destruct (fdiv _ (pr_rnorm a)); [|discriminate]. cbn [bind] in E. apply ok_inj_p in E. subst b. cbn [pr_region].
    destruct (String.eqb_spec (pr_region a) region); rs; cbn [pr_rnorm]; [|exact IH]. rewrite IH. subst region. rewrite Fa in G. apply ok_inj_p in G. subst. lra. }
  rewrite S1. unfold rescale_region in G. apply fdiv_ok in G. destruct G as [N ->]. field. exact N.
Qed.
Print Assumptions C78_rescaled.
(** Counts of a group change by one factor, that of the region, in all bins. *)
Theorem C78_counts : forall groups p q bin, rescaled groups p = Ok q -> pr_region q = pr_region p /\ List.length (pr_counts q) = List.length (pr_counts p) /\ pr_rnorm p * nth bin (pr_counts q) 0 = pr_rnorm q * nth bin (pr_counts p) 0.
Proof.
  intros groups p q bin H. unfold rescaled in H. destruct (rescale_region groups (pr_region p)) as [f|]; [|discriminate]. cbn [bind] in H. destruct (fdiv _ _) as [k|] eqn:K; [|discriminate]. cbn [bind] in H. apply ok_inj_p in H. subst q. cbn. apply fdiv_ok in K. destruct K as [N ->]. rewrite map_length. repeat split; auto.
  replace 0 with (pr_rnorm p * f / pr_rnorm p * 0) at 1 by lra. rewrite map_nth. field. exact N.
Qed.
Print Assumptions C78_counts.
(** Shares of groups sum to one in every bin where there are random pairs, and are not negative. *)
Theorem C78_shares : forall all bin shares, all <> [] -> map_result (fun p => ratio all p bin) all = Ok shares -> Rsum shares = 1.
Proof.
  intros all bin shares NE H. apply map_result_In in H. set (T := Rsum (map (fun q => nth bin (pr_counts q) 0) all)).
  assert (NT : T <> 0) by (unfold T; clear T; destruct all as [|a l]; [congruence|]; inversion H as [|? b ? ? E]; subst; unfold ratio in E; apply fdiv_ok in E; tauto).
  assert (S1 : Rsum shares = T / T); [|rewrite S1; field; auto].
  unfold T at 1. clear NE. assert (X : forall l o, Forall2 (fun a b => ratio all a bin = Ok b) l o -> Rsum o = Rsum (map (fun q => nth bin (pr_counts q) 0) l) / T); [|apply X; auto].
  clear H. induction 1 as [|a b l o E F IH]; rs; [lra|]. unfold ratio in E. apply fdiv_ok in E. destruct E as [_ ->]. rewrite IH. fold T. lra.
Qed.
Print Assumptions C78_shares.
Theorem C78_shares_exist : forall all bin, Forall (fun p => 0 <= nth bin (pr_counts p) 0) all -> Rsum (map (fun q => nth bin (pr_counts q) 0) all) <> 0 ->
  exists shares, map_result (fun p => ratio all p bin) all = Ok shares /\ Forall (fun w => 0 <= w <= 1) shares.
Proof.
  intros all bin P N. set (T := Rsum (map (fun q => nth bin (pr_counts q) 0) all)) in *.
  assert (Pos : forall l, Forall (fun p => 0 <= nth bin (pr_counts p) 0) l -> 0 <= Rsum (map (fun q => nth bin (pr_counts q) 0) l)) by (induction 1; rs; lra).
  assert (LE : forall l p, Forall (fun p => 0 <= nth bin (pr_counts p) 0) l -> In p l -> nth bin (pr_counts p) 0 <= Rsum (map (fun q => nth bin (pr_counts q) 0) l)).
  { induction 1 as [|a l A F IH]; intros I; [destruct I|]. rs. specialize (Pos l F). destruct I as [->|I]; [lra|]. specialize (IH I). lra. }
  assert (T0 : 0 < T) by (specialize (Pos all P); fold T in Pos; lra).
  assert (X : forall l, incl l all -> exists o, map_result (fun p => ratio all p bin) l = Ok o /\ Forall (fun w => 0 <= w <= 1) o).
  { induction l as [|a l IH]; intros I; [exists []; auto|]. destruct IH as (o & O1 & O2); [intros x; intros; apply I; right; auto|]. assert (Ia : In a all) by (apply I; left; auto).
    exists (nth bin (pr_counts a) 0 / T :: o). cbn. unfold ratio at 1, fdiv. fold T. destruct (Req_EM_T T 0); [easy|]. cbn [bind]. rewrite O1. cbn [bind]. split; auto. constructor; auto. specialize (LE all a P Ia). fold T in LE. rewrite Forall_forall in P. specialize (P a Ia). cbn in P.
    split; [apply Rmult_le_pos; [auto|left; apply Rinv_0_lt_compat; auto]|]. apply Rmult_le_reg_r with T; auto. unfold Rdiv. rewrite Rmult_assoc, Rinv_l by auto. lra. }
  apply X, incl_refl.
Qed.
Print Assumptions C78_shares_exist.

(** ** Mean *)
Lemma mean_ok : forall n x b, (0 < n)%nat -> exists v, mean_of n x b = Ok v /\ is_mean n (fun m => x m b) v.
Proof.
  intros n x b N. assert (Z0 : INR n <> 0) by (apply not_0_INR; lia). unfold mean_of, fdiv. destruct (Req_EM_T (INR n) 0); [easy|]. eexists. split; [reflexivity|]. unfold is_mean. field. auto.
Qed.
Lemma sum_groups_ok : forall {A} (f : A -> result R) (g : A -> R) l, (forall a, In a l -> f a = Ok (g a)) -> sum_groups f l = Ok (Rsum (map g l)).
Proof.
  intros A f g l H. unfold sum_groups. assert (M : map_result f l = Ok (map g l)); [|rewrite M; reflexivity]. induction l as [|a l IH]; auto. cbn. rewrite H by (left; auto). cbn [bind]. rewrite IH by (intros; apply H; right; auto). reflexivity.
Qed.
Lemma mean_val : forall n x b, (0 < n)%nat -> mean_of n x b = Ok (Rsum (map (fun m => x m b) (seq 0 n)) / INR n).
Proof. intros n x b N. assert (Z0 : INR n <> 0) by (apply not_0_INR; lia). unfold mean_of, fdiv. destruct (Req_EM_T (INR n) 0); easy. Qed.
Lemma Rsum_swap : forall {A B} (f : A -> B -> R) l m, Rsum (map (fun a => Rsum (map (f a) m)) l) = Rsum (map (fun b => Rsum (map (fun a => f a b) l)) m).
Proof.
  intros A B f. induction l as [|a l IH]; intros m; rs.
  - induction m; rs; lra.
  - rewrite IH. clear IH. induction m as [|b m IHm]; rs; [lra|]. lra.
Qed.
(** The mean is that, over mocks, of the correlation functions summed over groups with their shares. *)
Theorem C78_mean : forall {A} (weight : A -> nat -> R) xi n groups b, (0 < n)%nat -> exists v, total_mean weight xi n groups b = Ok v /\ is_mean n (fun m => Rsum (map (fun g => weight g b * xi g m b) groups)) v.
Proof.
  intros A w xi n groups b N. unfold total_mean. rewrite (sum_groups_ok _ (fun g => Rsum (map (fun m => weighted_corr w xi g m b) (seq 0 n)) / INR n)) by (intros; apply mean_val; auto).
  eexists. split; [reflexivity|]. unfold is_mean. rewrite <- (Rsum_swap (fun g m => w g b * xi g m b)). assert (Z0 : INR n <> 0) by (apply not_0_INR; lia).
  induction groups as [|g gs IH]; rs; [lra|]. rewrite <- IH. unfold weighted_corr. field. auto.
Qed.
Print Assumptions C78_mean.
(** If all groups and mocks have the same correlation function, this is the mean. *)
Theorem C78_mean_same : forall {A} (weight : A -> nat -> R) xi n groups b x, (0 < n)%nat -> Rsum (map (fun g => weight g b) groups) = 1 -> (forall g m, In g groups -> xi g m b = x) -> total_mean weight xi n groups b = Ok x.
Proof.
  intros A w xi n groups b x N W X. destruct (C78_mean w xi n groups b N) as (v & E & M). rewrite E. f_equal. unfold is_mean in M. assert (P : 0 < INR n) by (apply lt_0_INR; auto).
  assert (S1 : forall m, Rsum (map (fun g => w g b * xi g m b) groups) = x). { intros m. transitivity (Rsum (map (fun g => w g b) groups) * x); [|rewrite W; lra]. clear -X. induction groups as [|g gs IH]; rs; [lra|]. rewrite IH by (intros; apply X; right; auto). rewrite X by (left; auto). lra. }
  assert (S2 : Rsum (map (fun m => Rsum (map (fun g => w g b * xi g m b) groups)) (seq 0 n)) = INR n * x). { clear -S1. rewrite (Rsum_map_ext _ (fun _ => x)) by (intros; apply S1). generalize 0%nat. induction n as [|n IH]; intros k; [cbn; lra|]. cbn [seq]; rs. rewrite IH, S_INR. lra. }
  rewrite S2 in M. apply Rmult_eq_reg_l in M; lra.
Qed.
Print Assumptions C78_mean_same.

(** ** Covariance *)
Definition dev (n : nat) (x : nat -> nat -> R) (m b : nat) : R := x m b - Rsum (map (fun m => x m b) (seq 0 n)) / INR n.
Lemma cov_val : forall n x b c, (2 <= n)%nat -> cov_of n x b c = Ok (Rsum (map (fun m => dev n x m b * dev n x m c) (seq 0 n)) / (INR n - 1)).
Proof.
  intros n x b c N. assert (L : 2 <= INR n) by (replace 2 with (INR 2) by (cbn; lra); apply le_INR; auto). unfold cov_of. rewrite !mean_val by lia. cbn [bind]. unfold fdiv. destruct (Req_EM_T (INR n - 1) 0); [lra|]. reflexivity.
Qed.
(** With two mocks or more there is a covariance; with fewer there is none. *)
Theorem C78_cov_exists : forall {A} (weight : A -> nat -> R) xi n groups b c, groups <> [] -> ((exists v, total_cov weight xi n groups b c = Ok v) <-> (2 <= n)%nat).
Proof.
  intros A w xi n groups b c NE. split.
  - intros [v H]. destruct (le_lt_dec 2 n); auto. exfalso. destruct groups as [|g gs]; [easy|]. unfold total_cov, sum_groups in H. cbn [map_result] in H. assert (C : cov_of n (weighted_corr w xi g) b c = Err ZeroDivision); [|rewrite C in H; discriminate].
    unfold cov_of. destruct n as [|[|n] ]; [| |lia].
    + unfold mean_of, fdiv. cbn [INR]. destruct (Req_EM_T 0 0); [reflexivity|lra].
    + rewrite !mean_val by lia. cbn [bind]. unfold fdiv. cbn [INR]. destruct (Req_EM_T (1 - 1) 0); [reflexivity|lra].
  - intros N. eexists. unfold total_cov. erewrite sum_groups_ok; [reflexivity|]. intros; cbn. apply cov_val; auto.
Qed.
Print Assumptions C78_cov_exists.
Theorem C78_cov_symmetric : forall {A} (weight : A -> nat -> R) xi n groups b c, (2 <= n)%nat -> total_cov weight xi n groups b c = total_cov weight xi n groups c b.
Proof.
  intros A w xi n groups b c N. unfold total_cov. rewrite (sum_groups_ok _ _ groups (fun g _ => cov_val n (weighted_corr w xi g) b c N)), (sum_groups_ok _ _ groups (fun g _ => cov_val n (weighted_corr w xi g) c b N)). f_equal. apply Rsum_map_ext. intros g _. f_equal. apply Rsum_map_ext. intros. apply Rmult_comm.
Qed.
Print Assumptions C78_cov_symmetric.
(** The covariance is the sum over groups of products of deviations from the mean, over n - 1. *)
Theorem C78_cov_value : forall {A} (weight : A -> nat -> R) xi n groups b c means, (2 <= n)%nat -> (forall g k, In g groups -> is_mean n (fun m => weight g k * xi g m k) (means g k)) ->
  total_cov weight xi n groups b c = Ok (Rsum (map (fun g => Rsum (map (fun m => (weight g b * xi g m b - means g b) * (weight g c * xi g m c - means g c)) (seq 0 n)) / (INR n - 1)) groups)).
Proof.
  intros A w xi n groups b c means N M. unfold total_cov. rewrite (sum_groups_ok _ _ groups (fun g _ => cov_val n (weighted_corr w xi g) b c N)). f_equal. apply Rsum_map_ext. intros g G. f_equal. apply Rsum_map_ext. intros m _.
  assert (P : 0 < INR n) by (apply lt_0_INR; lia). assert (Q : forall k, dev n (weighted_corr w xi g) m k = w g k * xi g m k - means g k); [|rewrite !Q; reflexivity]. intros k. unfold dev. specialize (M g k G). unfold is_mean in M. unfold weighted_corr at 1. f_equal. unfold weighted_corr. rewrite <- M. field. lra.
Qed.
Print Assumptions C78_cov_value.
(** It is positive: no combination of bins (or multipoles, that are combinations) has a negative variance. *)
Theorem C78_cov_positive : forall {A} (weight : A -> nat -> R) xi n groups C nb v, (2 <= n)%nat -> (forall b c, (b < nb)%nat -> (c < nb)%nat -> total_cov weight xi n groups b c = Ok (C b c)) -> 0 <= quadratic nb C v.
Proof.
  intros A w xi n groups C nb v N H. unfold quadratic. assert (L : 2 <= INR n) by (replace 2 with (INR 2) by (cbn; lra); apply le_INR; auto).
  set (D := fun g m b => dev n (weighted_corr w xi g) m b).
  assert (E : forall b c, (b < nb)%nat -> (c < nb)%nat -> C b c = Rsum (map (fun g => Rsum (map (fun m => D g m b * D g m c) (seq 0 n)) / (INR n - 1)) groups)).
  { intros b c B1 C1. specialize (H b c B1 C1). unfold total_cov in H. rewrite (sum_groups_ok _ _ groups (fun g _ => cov_val n (weighted_corr w xi g) b c N)) in H. apply ok_inj_p in H. symmetry. exact H. }
  assert (Q : Rsum (map (fun b => Rsum (map (fun c => v b * v c * C b c) (seq 0 nb))) (seq 0 nb)) = Rsum (map (fun g => Rsum (map (fun m => Rsum (map (fun b => v b * D g m b) (seq 0 nb)) * Rsum (map (fun b => v b * D g m b) (seq 0 nb))) (seq 0 n)) / (INR n - 1)) groups)).
  { transitivity (Rsum (map (fun b => Rsum (map (fun c => Rsum (map (fun g => Rsum (map (fun m => v b * D g m b * (v c * D g m c) / (INR n - 1)) (seq 0 n))) groups)) (seq 0 nb))) (seq 0 nb))).
    - apply Rsum_map_ext. intros b Hb. apply in_seq in Hb. apply Rsum_map_ext. intros c Hc. apply in_seq in Hc. rewrite E by lia. clear. induction groups as [|g gs IH]; rs; [lra|]. rewrite <- IH. rewrite Rmult_plus_distr_l. f_equal. clear. induction (seq 0 n) as [|m l IH]; rs; [lra|]. rewrite <- IH. lra.
    - assert (Sc : forall {B} (f : B -> R) k l, Rsum (map (fun a => f a * k) l) = Rsum (map f l) * k) by (intros B f k l; induction l as [|a l IH]; rs; [lra|rewrite IH; lra]).
      transitivity (Rsum (map (fun b => Rsum (map (fun g => Rsum (map (fun m => v b * D g m b * Rsum (map (fun c => v c * D g m c) (seq 0 nb)) / (INR n - 1)) (seq 0 n))) groups)) (seq 0 nb))).
      { apply Rsum_map_ext. intros b _. rewrite (Rsum_swap (fun c g => Rsum (map (fun m => v b * D g m b * (v c * D g m c) / (INR n - 1)) (seq 0 n)))). apply Rsum_map_ext. intros g _. rewrite (Rsum_swap (fun c m => v b * D g m b * (v c * D g m c) / (INR n - 1))). apply Rsum_map_ext. intros m _.
        transitivity (Rsum (map (fun c => v c * D g m c * (v b * D g m b / (INR n - 1))) (seq 0 nb))); [apply Rsum_map_ext; intros; lra|]. rewrite Sc. lra. }
      rewrite (Rsum_swap (fun b g => Rsum (map (fun m => v b * D g m b * Rsum (map (fun c => v c * D g m c) (seq 0 nb)) / (INR n - 1)) (seq 0 n)))). apply Rsum_map_ext. intros g _. rewrite (Rsum_swap (fun b m => v b * D g m b * Rsum (map (fun c => v c * D g m c) (seq 0 nb)) / (INR n - 1))).
      unfold Rdiv at 2. rewrite <- Sc. apply Rsum_map_ext. intros m _. unfold Rdiv. rewrite Sc, Sc. reflexivity. }
  rewrite Q. clear Q E H. induction groups as [|g gs IH]; rs; [lra|].
  assert (0 <= Rsum (map (fun m => Rsum (map (fun b => v b * D g m b) (seq 0 nb)) * Rsum (map (fun b => v b * D g m b) (seq 0 nb))) (seq 0 n)) / (INR n - 1)); [|lra].
  apply Rmult_le_pos; [|left; apply Rinv_0_lt_compat; lra]. generalize (seq 0 n). intros l. induction l as [|m l IHl]; rs; [lra|]. pose proof (Rle_0_sqr (Rsum (map (fun b => v b * D g m b) (seq 0 nb)))) as K. unfold Rsqr in K. lra.
Qed.
Print Assumptions C78_cov_positive.
(** Two groups in one region: 4 and 4 data pairs, 10 and 30 random pairs, two bins. *)
Example C78_case : let p := Pairs "N" [1; 2] 10 4 in let q := Pairs "N" [3; 2] 30 4 in
  (exists out, map_result (rescaled [p; q]) [p; q] = Ok out) /\ in_region "N" [p; q] <> [] /\ ratio [p; q] p 0 = Ok (1 / 4) /\ ratio [p; q] p 1 = Ok (1 / 2) /\
  total_mean (fun (_ : nat) _ => 1 / 2) (fun g m b => INR (g + m)) 2 [0; 1]%nat 0 = Ok 1.
Proof.
  intros p q.
  assert (F : forall x y v, y <> 0 -> v = x / y -> fdiv x y = Ok v) by (intros x y v N ->; unfold fdiv; destruct (Req_EM_T y 0); easy).
  repeat split.
  - cbn [map_result]. unfold rescaled, rescale_region, in_region, p, q. cbn [pr_region pr_rnorm pr_dnorm pr_counts filter String.eqb Ascii.eqb Bool.eqb map Rsum fold_right]. rewrite (F (4 + (4 + 0)) (10 + (30 + 0)) (1 / 5)) by lra. cbn [bind]. rewrite (F (10 * (1 / 5)) 10 (1 / 5)) by lra. rewrite (F (30 * (1 / 5)) 30 (1 / 5)) by lra. cbn [bind]. eauto.
  - discriminate.
  - apply F; cbn; lra.
  - apply F; cbn; lra.
  - unfold total_mean, sum_groups, mean_of, weighted_corr. cbn [map_result map seq Rsum fold_right]. cbn [INR Nat.add]. rewrite (F (1 / 2 * 0 + (1 / 2 * 1 + 0)) (1 + 1) (1 / 4)) by lra. rewrite (F (1 / 2 * 1 + (1 / 2 * (1 + 1) + 0)) (1 + 1) (3 / 4)) by lra. cbn [bind Rsum fold_right]. f_equal. lra.
Qed.
