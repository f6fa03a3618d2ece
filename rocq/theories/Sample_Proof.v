(** Proofs about sampling from masks. *)
Require Import Reals Lra Lia ZArith List Bool.
From Verif Require Import Base Sky_Model Cutsky_Model Mask_Model Sample_Model Sample_Spec.
Import ListNotations.
Open Scope R_scope.

Section S.
Context {A : Type}.
Variable prob : A -> R.
Variable draws : nat -> nat -> list (A * R).

(** What process [r] has after [k] rounds. *)
Definition got (k r : nat) : list A := flat_map (fun j => accepted prob (draws j r)) (seq 0 k).
Definition state (n k : nat) : list (list A) := map (got k) (seq 0 n).

Lemma zip_map : forall {B C D E} (f : C -> D -> E) (g : B -> C) (h : B -> D) l, zip_with f (map g l) (map h l) = map (fun x => f (g x) (h x)) l.
Proof. intros B C D E f g h l. unfold zip_with. induction l as [|b l IH]; auto. cbn. f_equal. apply IH. Qed.
Lemma state_S : forall n k, zip_with (@app A) (state n k) (round prob draws k n) = state n (S k).
Proof.
  intros n k. unfold state, round. rewrite zip_map. apply map_ext. intros r. unfold got. rewrite seq_S, flat_map_app. cbn [flat_map]. rewrite app_nil_r. reflexivity.
Qed.
Lemma state_length : forall n k, length (state n k) = n.
Proof. intros. unfold state. rewrite map_length, seq_length. reflexivity. Qed.
Definition need (sizes : list nat) (k : nat) : list Z := zip_with (fun s t => Z.of_nat s - Z.of_nat (length t))%Z sizes (state (length sizes) k).
Lemma zip_zip : forall {B C D E F} (f : B -> C -> D) (g : D -> E -> F) (a : list B) (b : list C) (c : list E), length b = length c ->
  zip_with g (zip_with f a b) c = zip_with (fun x y => g (f x (fst y)) (snd y)) a (combine b c).
Proof.
  intros B C D E F f g. induction a as [|x a IH]; intros [|y b] [|z c] L; cbn in *; try lia; auto. unfold zip_with in *. cbn. f_equal. apply IH. lia.
Qed.
Lemma need_S : forall sizes k, zip_with (fun d t => d - Z.of_nat (length t))%Z (need sizes k) (round prob draws k (length sizes)) = need sizes (S k).
Proof.
  intros sizes k. unfold need. rewrite zip_zip by (rewrite state_length; unfold round; rewrite map_length, seq_length; reflexivity).
  rewrite <- state_S. unfold zip_with. generalize (state (length sizes) k) (round prob draws k (length sizes)). induction sizes as [|s sizes IH]; intros [|x a] [|y b]; cbn; auto.
  f_equal; [rewrite app_length; lia|]. apply IH.
Qed.
Lemma need_total : forall sizes (st : list (list A)), length st = length sizes ->
  allreduce (zip_with (fun s t => Z.of_nat s - Z.of_nat (length t))%Z sizes st) = (Z.of_nat (total sizes) - Z.of_nat (length (concat st)))%Z.
Proof.
  induction sizes as [|s sizes IH]; intros [|x st] L; cbn in L; try lia; auto. cbn. rewrite app_length.
  unfold allreduce, total in *. unfold zip_with in IH. rewrite IH by lia. lia.
Qed.

Lemma loop_spec : forall fuel sizes k out, sample_loop prob draws fuel k (state (length sizes) k) (need sizes k) = Ok out ->
  exists k', out = (k', state (length sizes) k') /\ (k <= k')%nat /\ (total sizes <= length (concat (state (length sizes) k')))%nat /\
    forall j, (k <= j < k')%nat -> (length (concat (state (length sizes) j)) < total sizes)%nat.
Proof.
  induction fuel as [|fuel IH]; intros sizes k out H; cbn [sample_loop] in H; unfold need at 1 in H; rewrite need_total in H by apply state_length; destruct (0 <? _)%Z eqn:E.
  - discriminate.
  - injection H as <-. apply Z.ltb_ge in E. exists k. split; auto. split; auto. split; [lia|]. intros j Hj. lia.
  - rewrite state_length, state_S, need_S in H. apply IH in H. destruct H as (k' & -> & K & T & N). exists k'. split; auto. split; [lia|]. split; auto.
    intros j Hj. apply Z.ltb_lt in E. destruct (Nat.eq_dec j k) as [->|Nj]; [lia|]. apply N. lia.
  - injection H as <-. apply Z.ltb_ge in E. exists k. split; auto. split; auto. split; [lia|]. intros j Hj. lia.
Qed.
Lemma start_state : forall sizes : list nat, map (fun _ => []) sizes = state (length sizes) 0.
Proof. intros. unfold state, got. cbn. generalize 0%nat. induction sizes as [|s sizes IH]; intros n; auto. cbn. f_equal. apply IH. Qed.
Lemma start_need : forall sizes, map Z.of_nat sizes = need sizes 0.
Proof.
  intros sizes. unfold need. rewrite <- start_state. unfold zip_with. induction sizes as [|s sizes IH]; auto. cbn. f_equal; auto. lia.
Qed.

Lemma skipn_skipn : forall a b (l : list A), skipn a (skipn b l) = skipn (a + b) l.
Proof. intros a b. revert a. induction b as [|b IH]; intros a l; [rewrite Nat.add_0_r; reflexivity|]. rewrite Nat.add_succ_r. destruct l; [rewrite !skipn_nil; auto|apply IH]. Qed.
(** Cutting a list according to sizes. *)
Fixpoint cuts (sizes : list nat) (l : list A) : list (list A) := match sizes with [] => [] | s :: sizes => firstn s l :: cuts sizes (skipn s l) end.
Lemma cuts_eq : forall sizes l, map (fun rank => global_slice (offset_of sizes rank) (offset_of sizes (S rank)) l) (seq 0 (length sizes)) = cuts sizes l.
Proof.
  induction sizes as [|s sizes IH]; intros l; auto. cbn [length seq map cuts]. f_equal.
  - unfold global_slice, offset_of. cbn. rewrite Nat.sub_0_r, Nat.add_0_r. reflexivity.
  - rewrite <- IH, <- seq_shift, map_map. apply map_ext. intros r. unfold global_slice, offset_of. cbn [firstn fold_right].
    rewrite skipn_skipn. f_equal; [lia|f_equal; lia].
Qed.
Lemma cuts_concat : forall sizes l, concat (cuts sizes l) = firstn (total sizes) l.
Proof.
  induction sizes as [|s sizes IH]; intros l; auto. cbn. rewrite IH. clear. revert l. induction s as [|s IH]; intros l; auto. destruct l; cbn; [rewrite firstn_nil; auto|f_equal; auto].
Qed.
Lemma cuts_lengths : forall sizes l, (total sizes <= length l)%nat -> map (@length A) (cuts sizes l) = sizes.
Proof.
  induction sizes as [|s sizes IH]; intros l H; auto. cbn in *. rewrite firstn_length, IH by (rewrite skipn_length; unfold total in *; lia). f_equal. lia.
Qed.

Lemma sample_spec : forall fuel sizes out, sample prob draws fuel sizes = Ok out ->
  exists k, (1 <= k)%nat /\ out = cuts sizes (concat (state (length sizes) k)) /\ (total sizes <= length (concat (state (length sizes) k)))%nat /\
    forall j, (j < k)%nat -> (length (concat (state (length sizes) j)) < total sizes)%nat.
Proof.
  intros fuel sizes out H. unfold sample in H. rewrite start_state, start_need in H. destruct (sample_loop _ _ _ _ _ _) as [o|] eqn:E; [|discriminate].
  apply loop_spec in E. destruct E as (k & -> & _ & T & N). cbn [bind] in H. destruct k as [|k]; [discriminate|]. injection H as <-. exists (S k).
  split; [lia|]. split; [apply cuts_eq|]. split; auto. intros j Hj. apply N. lia.
Qed.

Lemma accepted_In : forall l a, In a (accepted prob l) <-> exists u, In (a, u) l /\ kept prob (a, u).
Proof.
  intros l a. unfold accepted. rewrite in_map_iff. split.
  - intros ([x u] & <- & I). apply filter_In in I. destruct I as [I B]. apply Rleb_true in B. exists u. auto.
  - intros (u & I & K). exists (a, u). split; auto. apply filter_In. split; auto. apply Rleb_true. exact K.
Qed.
Lemma in_state : forall n k a, In a (concat (state n k)) -> exists j r u, (j < k)%nat /\ (r < n)%nat /\ In (a, u) (draws j r) /\ kept prob (a, u).
Proof.
  intros n k a I. apply in_concat in I. destruct I as (l & Il & I). unfold state in Il. apply in_map_iff in Il. destruct Il as (r & <- & Ir). apply in_seq in Ir.
  unfold got in I. apply in_flat_map in I. destruct I as (j & Ij & I). apply in_seq in Ij. apply accepted_In in I. destruct I as (u & I & K). exists j, r, u. split; [lia|]. split; [lia|]. auto.
Qed.

(** Termination: a round that accepts something makes progress. *)
Definition progress (n : nat) : Prop := forall k, exists r, (r < n)%nat /\ accepted prob (draws k r) <> [].
Lemma concat_zip_length : forall (a b : list (list A)), length a = length b -> length (concat (zip_with (@app A) a b)) = (length (concat a) + length (concat b))%nat.
Proof. induction a as [|x a IH]; intros [|y b] L; cbn in *; try lia; auto. unfold zip_with in *. rewrite !app_length, IH by lia. lia. Qed.
Lemma in_concat_length : forall (l : list (list A)) x, In x l -> (length x <= length (concat l))%nat.
Proof. induction l as [|y l IH]; intros x I; [easy|]. cbn. rewrite app_length. destruct I as [->|I]; [lia|]. apply IH in I. lia. Qed.
Lemma progress_state : forall n, progress n -> forall k, (k <= length (concat (state n k)))%nat.
Proof.
  intros n P. induction k as [|k IH]; [lia|]. rewrite <- state_S, concat_zip_length by (rewrite state_length; unfold round; rewrite map_length, seq_length; reflexivity).
  destruct (P k) as (r & Hr & Ne). assert (I : In (accepted prob (draws k r)) (round prob draws k n)) by (unfold round; apply (in_map (fun r => accepted prob (draws k r))); apply in_seq; lia).
  apply in_concat_length in I. destruct (accepted prob (draws k r)); [easy|]. cbn in I. lia.
Qed.
Lemma loop_ends : forall sizes, progress (length sizes) -> forall fuel k, (total sizes <= k + fuel)%nat ->
  exists out, sample_loop prob draws fuel k (state (length sizes) k) (need sizes k) = Ok out.
Proof.
  intros sizes P. induction fuel as [|fuel IH]; intros k H; cbn [sample_loop]; unfold need at 1; rewrite need_total by apply state_length; destruct (0 <? _)%Z eqn:E; try (eexists; reflexivity).
  - apply Z.ltb_lt in E. pose proof (progress_state _ P k). lia.
  - rewrite state_length, state_S, need_S. apply IH. lia.
Qed.
Lemma sample_ends : forall sizes fuel, progress (length sizes) -> (1 <= total sizes <= fuel)%nat -> exists out, sample prob draws fuel sizes = Ok out.
Proof.
  intros sizes fuel P H. unfold sample. rewrite start_state, start_need. destruct (loop_ends sizes P fuel 0%nat) as ([k z] & E); [lia|]. rewrite E. cbn [bind].
  apply loop_spec in E. destruct E as (k' & E & _ & T & _). injection E as -> ->. destruct k' as [|k']; [|eexists; reflexivity].
  rewrite <- start_state in T. assert (Z0 : length (concat (map (fun _ : nat => @nil A) sizes)) = 0%nat) by (clear; induction sizes; auto). lia.
Qed.

Lemma stuck_state : forall n k, (forall j r, (r < n)%nat -> accepted prob (draws j r) = []) -> concat (state n k) = [].
Proof.
  intros n k H. destruct (concat (state n k)) as [|a l] eqn:E; auto. exfalso. assert (I : In a (concat (state n k))) by (rewrite E; left; auto).
  apply in_state in I. destruct I as (j & r & u & _ & Hr & Id & K). assert (C : In a (accepted prob (draws j r))) by (apply accepted_In; eauto). rewrite H in C; auto.
Qed.
Lemma loop_stuck : forall sizes, (1 <= total sizes)%nat -> (forall j r, (r < length sizes)%nat -> accepted prob (draws j r) = []) -> forall fuel k,
  sample_loop prob draws fuel k (state (length sizes) k) (need sizes k) = Err OutOfFuel.
Proof.
  intros sizes T H. induction fuel as [|fuel IH]; intros k; cbn [sample_loop]; unfold need at 1; rewrite need_total by apply state_length; rewrite stuck_state by auto; cbn [length].
  - replace (0 <? _)%Z with true; auto. symmetry. apply Z.ltb_lt. lia.
  - replace (0 <? _)%Z with true by (symmetry; apply Z.ltb_lt; lia). rewrite state_length, state_S, need_S. apply IH.
Qed.
End S.

(* ---------- distribution of the candidates ---------- *)
Lemma cbrt_cube : forall x, 0 <= x -> 0 <= cbrt x /\ cbrt x ^ 3 = x.
Proof.
  intros x H. unfold cbrt. destruct (Req_EM_T x 0) as [->|N]; [split; [lra|ring]|]. assert (P : 0 < x) by lra.
  split; [unfold Rpower; apply Rlt_le, exp_pos|]. rewrite <- Rpower_pow by (unfold Rpower; apply exp_pos). rewrite Rpower_mult.
  replace (1 / 3 * INR 3) with 1 by (cbn; field). apply Rpower_1; auto.
Qed.
Lemma cube_le : forall a b, 0 <= a -> 0 <= b -> (a ^ 3 <= b ^ 3 <-> a <= b).
Proof.
  intros a b A B. split; intros H.
  - apply Rnot_lt_le. intros C. assert (b ^ 3 < a ^ 3); [|lra]. assert (0 < (a - b) * (a ^ 2 + a * b + b ^ 2)) by (apply Rmult_lt_0_compat; [lra|nra]). nra.
  - assert (0 <= (b - a) * (a ^ 2 + a * b + b ^ 2)) by (apply Rmult_le_pos; [lra|nra]). nra.
Qed.
Lemma uniform_range : forall lo hi t, lo <= hi -> 0 <= t < 1 -> lo <= uniform lo hi t <= hi.
Proof. intros. unfold uniform. nra. Qed.
Lemma uniform_le : forall lo hi t x, lo < hi -> (uniform lo hi t <= x <-> t <= (x - lo) / (hi - lo)).
Proof.
  intros lo hi t x H. unfold uniform. assert (E : (x - lo) / (hi - lo) * (hi - lo) = x - lo) by (field; lra). split; intros C.
  - apply Rmult_le_reg_r with (hi - lo); lra.
  - apply (Rmult_le_compat_r (hi - lo)) in C; lra.
Qed.
