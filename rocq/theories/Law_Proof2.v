(** Proofs about the end of rejection loops, and about shares of a grid of numbers. *)
Require Import Reals Lra Lia ZArith List Bool FinFun.
From Verif Require Import Base Sky_Model Cutsky_Model Mask_Model Sample_Model Sample_Spec Sample_Proof Sample_Thm Law_Spec Law_Proof.
Import ListNotations.
Open Scope R_scope.

Lemma rsum_mono : forall {X} (l : list X) (g h : X -> R), (forall x, In x l -> g x <= h x) -> Rsum (map g l) <= Rsum (map h l).
Proof.
  intros X. induction l as [|x l IH]; intros g h H; cbn; [lra|]. unfold Rsum in IH.
  pose proof (H x (or_introl eq_refl)). pose proof (IH g h (fun y I => H y (or_intror I))). lra.
Qed.
Lemma avg_mono : forall {X} (vals : list X) g h, (forall x, In x vals -> g x <= h x) -> avg vals g <= avg vals h.
Proof.
  intros X vals g h H. unfold avg, Rdiv. apply Rmult_le_compat_r; [|apply rsum_mono, H].
  destruct vals as [|x l]; [cbn; rewrite Rinv_0; lra|]. apply Rlt_le, Rinv_0_lt_compat, lt_0_INR. cbn; lia.
Qed.
Lemma mean_mono : forall {X} (vals : list X) ks g h s, (forall s, g s <= h s) -> mean vals ks g s <= mean vals ks h s.
Proof. intros X vals. induction ks as [|k ks IH]; intros g h s H; cbn; auto. apply avg_mono. intros x _. apply IH, H. Qed.
Lemma mean_one : forall {X} (vals : list X) ks s, vals <> [] -> mean vals ks (fun _ => 1) s = 1.
Proof. intros X vals. induction ks as [|k ks IH]; intros s H; cbn; auto. rewrite (avg_ext vals _ (fun _ => 1)) by (intros; apply IH, H). apply avg_const, H. Qed.
Lemma mean_rsum : forall {X B} (vals : list X) ks (l : list B) (g : B -> (place -> X) -> R) s,
  mean vals ks (fun s => Rsum (map (fun b => g b s) l)) s = Rsum (map (fun b => mean vals ks (g b) s) l).
Proof.
  intros X B vals ks. induction l as [|b l IH]; intros g s; cbn [map Rsum fold_right]; [apply mean_zero|].
  rewrite (mean_ext vals ks _ (fun s => 1 * g b s + 1 * Rsum (map (fun b => g b s) l))) by (intros; unfold Rsum; cbn; ring).
  rewrite mean_lin, IH. unfold Rsum. ring.
Qed.
Lemma chosen_avgs : forall {X} (vals : list X) ks js (fs : list (X -> R)), vals <> [] -> NoDup ks -> NoDup js -> incl js ks -> length fs = length js ->
  Rprod (map (fun k => avg vals (chosen js fs k)) ks) = Rprod (map (avg vals) fs).
Proof.
  intros X vals ks. induction js as [|j js IH]; intros [|f fs] V NK NJ I L; try discriminate.
  - clear - V. unfold Rprod. induction ks as [|k ks IH]; [reflexivity|]. cbn [map fold_right] in *. rewrite IH. cbn [chosen]. rewrite avg_const by auto. ring.
  - inversion NJ as [|? ? N1 N2]; subst. cbn [map Rprod fold_right].
    rewrite (prod_point ks j (fun k => avg vals (chosen js fs k)) _ (avg vals f) NK (I j (or_introl eq_refl))).
    + rewrite (IH fs V NK N2 (fun k Hk => I k (or_intror Hk)) (eq_add_S _ _ L)). unfold Rprod. ring.
    + intros k D. apply avg_ext. intros x. cbn. destruct (place_dec j k); [congruence|reflexivity].
    + rewrite (chosen_out js fs j) by auto. rewrite avg_const by auto. rewrite Rmult_1_r. apply avg_ext. intros x. cbn. destruct (place_dec j j); [reflexivity|tauto].
Qed.
(** Independent quantities at distinct places. *)
Lemma mean_joint : forall {X} (vals : list X) ks js (fs : list (X -> R)) s, vals <> [] -> NoDup ks -> NoDup js -> incl js ks -> length fs = length js ->
  mean vals ks (fun s => joint fs (map s js)) s = Rprod (map (avg vals) fs).
Proof.
  intros X vals ks js fs s V NK NJ I L. rewrite (mean_ext vals ks _ (fun s => Rprod (map (fun k => chosen js fs k (s k)) ks))).
  - rewrite mean_prod by auto. apply chosen_avgs; auto.
  - intros t. symmetry. apply (chosen_prod js fs ks t); auto.
Qed.

Section End_.
Context {A : Type}.
Variable prob : A -> R.
Variable vals : list (A * R).
Variable sizes : list nat.

Lemma loop_fail : forall draws fuel k e, sample_loop prob draws fuel k (state prob draws (length sizes) k) (need prob draws sizes k) = Err e ->
  (length (concat (state prob draws (length sizes) (k + fuel))) < total sizes)%nat.
Proof.
  intros draws. induction fuel as [|fuel IH]; intros k e H; cbn [sample_loop] in H; unfold need at 1 in H; rewrite need_total in H by apply state_length; destruct (0 <? _)%Z eqn:E; try discriminate.
  - apply Z.ltb_lt in E. rewrite Nat.add_0_r. lia.
  - rewrite state_length, state_S, need_S in H. apply IH in H. replace (k + S fuel)%nat with (S k + fuel)%nat by lia. exact H.
Qed.
Definition count (draws : nat -> nat -> list (A * R)) (n k : nat) : nat := length (concat (state prob draws n k)).
Lemma count_S : forall draws n k, count draws n (S k) = (count draws n k + length (concat (round prob draws k n)))%nat.
Proof.
  intros draws n k. unfold count. rewrite <- state_S. generalize (state_length prob draws n k). unfold round. generalize (state prob draws n k). intros l H.
  assert (L : length l = length (map (fun r => accepted prob (draws k r)) (seq 0 n))) by (rewrite map_length, seq_length; auto).
  revert L. generalize (map (fun r => accepted prob (draws k r)) (seq 0 n)). clear. induction l as [|x l IH]; intros [|y m] L; cbn in *; try lia.
  rewrite !app_length. unfold zip_with in IH. rewrite IH by lia. lia.
Qed.
Lemma count_mono : forall draws n m k, (count draws n k <= count draws n (k + m))%nat.
Proof. intros draws n. induction m as [|m IH]; intros k; [rewrite Nat.add_0_r; auto|]. rewrite Nat.add_succ_r, count_S. specialize (IH k). lia. Qed.
Lemma count_block : forall draws n m k j r, (k <= j < k + m)%nat -> (r < n)%nat -> accepted prob (draws j r) <> [] -> (count draws n k < count draws n (k + m))%nat.
Proof.
  intros draws n m k j r Hj Hr N. assert (L : (count draws n j < count draws n (S j))%nat).
  { rewrite count_S. assert (0 < length (concat (round prob draws j n)))%nat; [|lia].
    destruct (concat (round prob draws j n)) as [|x l] eqn:E; [|cbn; lia]. exfalso. apply N. destruct (accepted prob (draws j r)) as [|a t] eqn:Q; auto. exfalso.
    assert (I : In a (concat (round prob draws j n))); [|rewrite E in I; destruct I].
    apply in_concat. exists (a :: t). split; [|left; auto]. unfold round. rewrite <- Q. apply in_map_iff. exists r. split; auto. apply in_seq. lia. }
  pose proof (count_mono draws n (j - k) k). pose proof (count_mono draws n (k + m - S j) (S j)).
  replace (k + (j - k))%nat with j in * by lia. replace (S j + (k + m - S j))%nat with (k + m)%nat in * by lia. lia.
Qed.
(** [b] blocks of [m] rounds, each of which keeps something: at least [b] objects. *)
Lemma count_blocks : forall draws n m b, (forall i, (i < b)%nat -> exists j r, (i * m <= j < i * m + m)%nat /\ (r < n)%nat /\ accepted prob (draws j r) <> []) ->
  (b <= count draws n (b * m))%nat.
Proof.
  intros draws n m. induction b as [|b IH]; intros H; [lia|]. destruct (H b ltac:(lia)) as (j & r & Hj & Hr & N).
  pose proof (count_block draws n m (b * m) j r Hj Hr N) as C. specialize (IH (fun i Hi => H i (Nat.lt_lt_succ_r _ _ Hi))).
  replace (S b * m)%nat with (b * m + m)%nat by lia. lia.
Qed.

Lemma first_process : (1 <= total sizes)%nat -> exists r, (r < length sizes)%nat /\ (0 < nth r sizes 0)%nat.
Proof.
  induction sizes as [|s l IH]; intros H; cbn in H; [lia|]. destruct s as [|s]; [|exists 0%nat; cbn; lia].
  destruct IH as (r & Hr & L); [exact H|]. exists (S r). cbn. split; [lia|auto].
Qed.
Lemma joint_rej : forall (f : A * R -> bool) n xs, length xs = n -> (forall x, In x xs -> f x = true) -> joint (repeat (fun x => ind (f x)) n) xs = 1.
Proof.
  intros f. induction n as [|n IH]; intros [|x xs] L H; cbn in *; auto; try lia. rewrite (H x (or_introl eq_refl)), IH; auto; cbn; ring.
Qed.
Lemma joint_pos : forall (f : A * R -> bool) n xs, 0 <= joint (repeat (fun x => ind (f x)) n) xs.
Proof.
  intros f. induction n as [|n IH]; intros [|x xs]; cbn; try lra. apply Rmult_le_pos; [destruct (f x); cbn; lra|apply IH].
Qed.
Lemma rsum_pos : forall {B} (l : list B) (g : B -> R), (forall b, In b l -> 0 <= g b) -> 0 <= Rsum (map g l).
Proof.
  intros B. induction l as [|b l IH]; intros g H; cbn; [lra|]. pose proof (H b (or_introl eq_refl)). unfold Rsum in IH.
  pose proof (IH g (fun x I => H x (or_intror I))). lra.
Qed.
Lemma rsum_ge_one : forall {B} (l : list B) (g : B -> R) b, (forall x, In x l -> 0 <= g x) -> In b l -> g b = 1 -> 1 <= Rsum (map g l).
Proof.
  intros B. induction l as [|c l IH]; intros g b P I E; [destruct I|]. cbn [map Rsum fold_right]. change (fold_right Rplus 0 (map g l)) with (Rsum (map g l)).
  destruct I as [->|I].
  - pose proof (rsum_pos l g (fun x I => P x (or_intror I))). lra.
  - pose proof (P c (or_introl eq_refl)). pose proof (IH g b (fun x I => P x (or_intror I)) I E). lra.
Qed.

(** A failure after T blocks of m rounds has a block without any acceptance by the first draw of a given process. *)
Lemma fail_block : forall r m s e, (r < length sizes)%nat -> (0 < nth r sizes 0)%nat -> (1 <= total sizes)%nat ->
  sample prob (drawn sizes s) (total sizes * m) sizes = Err e ->
  exists i, (i < total sizes)%nat /\ forall j, (i * m <= j < i * m + m)%nat -> keeps prob (s (j, r, 0%nat)) = false.
Proof.
  intros r m s e Hr Hs Ht H.
  assert (F : (count (drawn sizes s) (length sizes) (total sizes * m) < total sizes)%nat).
  { unfold sample in H. rewrite (start_state prob (drawn sizes s)), (start_need prob (drawn sizes s)) in H.
    destruct (sample_loop _ _ _ _ _ _) as [[n l]|e'] eqn:E; [|apply loop_fail in E; exact E]. exfalso.
    apply loop_spec in E. destruct E as (k & Q & _ & T & _). injection Q as -> ->. cbn [bind] in H. destruct k as [|k]; [|discriminate].
    unfold state, got in T. cbn in T. rewrite (proj2 (length_zero_iff_nil _)) in T; [lia|]. clear. generalize 0%nat. induction (length sizes) as [|n IH]; intros a; auto. cbn. apply IH. }
  assert (D : forall i, {forall j, (i * m <= j < i * m + m)%nat -> keeps prob (s (j, r, 0%nat)) = false} + {exists j, (i * m <= j < i * m + m)%nat /\ keeps prob (s (j, r, 0%nat)) = true}).
  { intros i. generalize (i * m)%nat. clear. induction m as [|m IH]; intros a; [left; intros; lia|]. destruct (IH a) as [L|L].
    - destruct (keeps prob (s ((a + m)%nat, r, 0%nat))) eqn:K; [right; exists (a + m)%nat; split; [lia|auto]|left].
      intros j Hj. destruct (Nat.eq_dec j (a + m)) as [->|]; [exact K|apply L; lia].
    - right. destruct L as (j & Hj & K). exists j. split; [lia|auto]. }
  assert (S : forall T, {exists i, (i < T)%nat /\ forall j, (i * m <= j < i * m + m)%nat -> keeps prob (s (j, r, 0%nat)) = false} +
                        {forall i, (i < T)%nat -> exists j, (i * m <= j < i * m + m)%nat /\ keeps prob (s (j, r, 0%nat)) = true}).
  { induction T as [|T IH]; [right; intros; lia|]. destruct IH as [L|L]; [left; destruct L as (i & Hi & L); exists i; split; [lia|auto]|].
    destruct (D T) as [Q|Q]; [left; exists T; split; [lia|auto]|right]. intros i Hi. destruct (Nat.eq_dec i T) as [->|]; [exact Q|apply L; lia]. }
  destruct (S (total sizes)) as [Q|Q]; [exact Q|exfalso].
  assert (C : (total sizes <= count (drawn sizes s) (length sizes) (total sizes * m))%nat); [|lia].
  apply count_blocks. intros i Hi. destruct (Q i Hi) as (j & Hj & K). exists j, r. split; auto. split; auto.
  intros Z. assert (I : In (fst (s (j, r, 0%nat))) (accepted prob (drawn sizes s j r))); [|rewrite Z in I; destruct I].
  apply accepted_In. exists (snd (s (j, r, 0%nat))). rewrite <- surjective_pairing. split.
  - unfold drawn. apply in_map_iff. exists 0%nat. split; auto. apply in_seq. lia.
  - unfold keeps in K. apply Rleb_true in K. exact K.
Qed.

Lemma fail_bound : forall m s0, vals <> [] -> (1 <= total sizes)%nat ->
  mean vals (places (total sizes * m) sizes) (fun s => match sample prob (drawn sizes s) (total sizes * m) sizes with Ok _ => 0 | Err _ => 1 end) s0 <=
  INR (total sizes) * (1 - avg vals (fun x => ind (keeps prob x))) ^ m.
Proof.
  intros m s0 V T. destruct (first_process T) as (r & Hr & Hs). set (ks := places (total sizes * m) sizes).
  set (rej := fun x : A * R => negb (keeps prob x)). set (js := fun i => map (fun j => (j, r, 0%nat)) (seq (i * m) m)).
  set (g := fun i (s : place -> A * R) => joint (repeat (fun x => ind (rej x)) m) (map s (js i))).
  apply Rle_trans with (mean vals ks (fun s => Rsum (map (fun i => g i s) (seq 0 (total sizes)))) s0).
  - apply mean_mono. intros s. assert (P : forall i, In i (seq 0 (total sizes)) -> 0 <= g i s) by (intros; apply joint_pos).
    destruct (sample prob (drawn sizes s) (total sizes * m) sizes) as [o|e] eqn:E; [apply rsum_pos, P|].
    destruct (fail_block r m s e Hr Hs T E) as (i & Hi & Q). apply (rsum_ge_one _ (fun i => g i s) i P); [apply in_seq; lia|].
    unfold g. apply joint_rej; [unfold js; rewrite !map_length, seq_length; auto|]. intros x I. unfold js in I. rewrite map_map in I. apply in_map_iff in I.
    destruct I as (j & <- & Ij). apply in_seq in Ij. unfold rej. rewrite Q by lia. reflexivity.
  - rewrite mean_rsum. apply Req_le.
    assert (Q : avg vals (fun x => ind (rej x)) = 1 - avg vals (fun x => ind (keeps prob x))).
    { rewrite (avg_ext vals _ (fun x => 1 * 1 + -1 * ind (keeps prob x))) by (intros x; unfold rej; destruct (keeps prob x); cbn; ring).
      rewrite (avg_lin vals 1 (-1) (fun _ => 1) (fun x => ind (keeps prob x))), avg_const by auto. ring. }
    rewrite <- Q. assert (E : forall i, In i (seq 0 (total sizes)) -> mean vals ks (g i) s0 = avg vals (fun x => ind (rej x)) ^ m).
    { intros i Hi. apply in_seq in Hi. unfold g. rewrite mean_joint; auto.
      - clear. induction m as [|m IH]; auto. cbn [repeat map Rprod fold_right pow]. unfold Rprod in IH. rewrite IH. reflexivity.
      - apply places_NoDup.
      - apply Injective_map_NoDup; [intros a b Hab; congruence|apply seq_NoDup].
      - intros k Hk. unfold js in Hk. apply in_map_iff in Hk. destruct Hk as (j & <- & Hj). apply in_seq in Hj. unfold ks, places. apply in_flat_map. exists j.
        split; [apply in_seq; nia|]. apply in_flat_map. exists r. split; [apply in_seq; lia|]. apply in_map_iff. exists 0%nat. split; auto. apply in_seq. lia.
      - unfold js. rewrite repeat_length, map_length, seq_length. reflexivity. }
    rewrite (map_ext_in _ (fun _ => avg vals (fun x => ind (rej x)) ^ m * 1)) by (intros i Hi; rewrite E by auto; ring).
    transitivity (avg vals (fun x => ind (rej x)) ^ m * Rsum (map (fun _ => 1) (seq 0 (total sizes)))).
    + clear. induction (seq 0 (total sizes)) as [|i l IH]; cbn; [ring|]. unfold Rsum in IH. rewrite IH. ring.
    + rewrite rsum_one, seq_length. ring.
Qed.
End End_.

(** Shares of a grid. *)
Lemma grid_count : forall n a F, Rsum (map (fun i => ind (Rleb (INR i) F)) (seq a n)) =
  if Rlt_dec F (INR a) then 0 else if Rle_dec (INR (a + n)) (F + 1) then INR n else IZR (Rfloor F) - INR a + 1.
Proof.
  induction n as [|n IH]; intros a F.
  - cbn [seq map Rsum fold_right]. rewrite Nat.add_0_r. destruct (Rlt_dec F (INR a)) as [|N]; auto. destruct (Rle_dec (INR a) (F + 1)) as [|N']; [reflexivity|lra].
  - cbn [seq map Rsum fold_right]. change (fold_right Rplus 0 (map (fun i => ind (Rleb (INR i) F)) (seq (S a) n))) with (Rsum (map (fun i => ind (Rleb (INR i) F)) (seq (S a) n))).
    rewrite IH. rewrite Nat.add_succ_r, S_INR. replace (INR (S a + n)) with (INR (S (a + n))) by reflexivity. rewrite S_INR.
    rewrite (S_INR n). destruct (Rlt_dec F (INR a)) as [L|L].
    + rewrite (proj2 (Rleb_false _ _) L). destruct (Rlt_dec F (INR a + 1)); [cbn; lra|lra].
    + rewrite (proj2 (Rleb_true (INR a) F) ltac:(lra)). cbn [ind]. destruct (Rlt_dec F (INR a + 1)) as [L'|L'].
      * destruct (Rle_dec (INR (a + n) + 1) (F + 1)) as [Q|Q].
        -- destruct n as [|n]; [cbn; ring|]. exfalso. rewrite Nat.add_succ_r, S_INR, plus_INR in Q. pose proof (pos_INR n). lra.
        -- assert (E : Rfloor F = Z.of_nat a). { apply Rfloor_unique. rewrite <- INR_IZR_INZ. lra. } rewrite E, <- INR_IZR_INZ. ring.
      * destruct (Rle_dec (INR (a + n) + 1) (F + 1)); ring.
Qed.

Lemma div_le_iff : forall n i F, 0 < n -> Rleb (i / n) F = Rleb i (F * n).
Proof.
  intros n i F H. destruct (Rleb i (F * n)) eqn:E.
  - apply Rleb_true in E. apply Rleb_true. apply Rmult_le_reg_r with n; auto. unfold Rdiv. rewrite Rmult_assoc, Rinv_l by lra. lra.
  - apply Rleb_false in E. apply Rleb_false. apply Rmult_lt_reg_r with n; auto. unfold Rdiv. rewrite Rmult_assoc, Rinv_l by lra. lra.
Qed.
Lemma grid_share : forall n F, (0 < n)%nat -> 0 <= F <= 1 -> F <= avg (grid n) (fun t => ind (Rleb t F)) <= F + 1 / INR n.
Proof.
  intros n F H HF. assert (N : 0 < INR n) by (apply lt_0_INR; lia). unfold avg, grid. rewrite map_map, map_length, seq_length.
  rewrite (map_ext _ (fun i => ind (Rleb (INR i) (F * INR n)))) by (intros i; rewrite div_le_iff by auto; reflexivity).
  rewrite grid_count. cbn [INR Nat.add]. destruct (Rlt_dec (F * INR n) 0) as [L|_]; [nra|].
  assert (D : forall a b, a * INR n <= b -> a <= b / INR n).
  { intros a b Q. apply Rmult_le_reg_r with (INR n); auto. unfold Rdiv. rewrite Rmult_assoc, Rinv_l by lra. lra. }
  assert (D' : forall a b, b <= a * INR n -> b / INR n <= a).
  { intros a b Q. apply Rmult_le_reg_r with (INR n); auto. unfold Rdiv. rewrite Rmult_assoc, Rinv_l by lra. lra. }
  assert (ST : (F + 1 / INR n) * INR n = F * INR n + 1) by (field; lra).
  pose proof (Rfloor_spec (F * INR n)) as FS.
  destruct (Rle_dec (INR n) (F * INR n + 1)) as [L|L]; split; (apply D || apply D'); rewrite ?ST; nra.
Qed.
(** The same for an interval of numbers given by a test. *)
Lemma grid_test : forall n F (e : R -> bool), (0 < n)%nat -> 0 <= F <= 1 -> (forall t, 0 <= t < 1 -> (e t = true <-> t <= F)) ->
  Rabs (avg (grid n) (fun t => ind (e t)) - F) <= 1 / INR n.
Proof.
  intros n F e H HF E. assert (N : 0 < INR n) by (apply lt_0_INR; lia).
  replace (avg (grid n) (fun t => ind (e t))) with (avg (grid n) (fun t => ind (Rleb t F))).
  - pose proof (grid_share n F H HF). apply Rabs_le. assert (0 < 1 / INR n) by (apply Rdiv_lt_0_compat; lra). lra.
  - unfold avg. f_equal. f_equal. apply map_ext_in. intros t I. unfold grid in I. apply in_map_iff in I. destruct I as (i & <- & Ii). apply in_seq in Ii.
    assert (T : 0 <= INR i / INR n < 1).
    { pose proof (pos_INR i). assert (INR i < INR n) by (apply lt_INR; lia). split; [apply Rmult_le_pos; [lra|apply Rlt_le, Rinv_0_lt_compat, N]|].
      apply Rmult_lt_reg_r with (INR n); auto. unfold Rdiv. rewrite Rmult_assoc, Rinv_l by lra. lra. }
    specialize (E _ T). f_equal. destruct (Rleb (INR i / INR n) F) eqn:Q.
    + apply Rleb_true in Q. symmetry. apply E, Q.
    + apply Rleb_false in Q. destruct (e (INR i / INR n)); auto. exfalso. assert (INR i / INR n <= F) by (apply E; auto). lra.
Qed.
Lemma rsum_scal : forall {X} (l : list X) a g, Rsum (map (fun x => a * g x) l) = a * Rsum (map g l).
Proof. intros X. induction l as [|x l IH]; intros; cbn; [ring|]. unfold Rsum in IH. rewrite IH. ring. Qed.
(** Independent numbers: the mean of a product is the product of the means. *)
Lemma avg_pairs : forall {X Y} (a : list X) (b : list Y) (g : X -> R) (h : Y -> R), avg (list_prod a b) (fun x => g (fst x) * h (snd x)) = avg a g * avg b h.
Proof.
  intros X Y a b g h. unfold avg. rewrite prod_length, mult_INR.
  assert (E : Rsum (map (fun x => g (fst x) * h (snd x)) (list_prod a b)) = Rsum (map g a) * Rsum (map h b)).
  { induction a as [|x a IH]; [cbn; ring|]. cbn [list_prod]. rewrite map_app, Rsum_app, IH, map_map. cbn [fst snd map]. rewrite rsum_scal. unfold Rsum. cbn. ring. }
  rewrite E. unfold Rdiv. rewrite Rinv_mult. ring.
Qed.
Lemma grid_nil : forall n, (0 < n)%nat -> grid n <> [].
Proof. intros [|n] H; [lia|]. discriminate. Qed.
Lemma avg_unit : forall n (e : R -> bool), (0 < n)%nat -> 0 <= avg (grid n) (fun t => ind (e t)) <= 1.
Proof.
  intros n e H. split.
  - rewrite <- (avg_const (grid n) 0 (grid_nil n H)). apply avg_mono. intros x _. destruct (e x); cbn; lra.
  - rewrite <- (avg_const (grid n) 1 (grid_nil n H)). apply avg_mono. intros x _. destruct (e x); cbn; lra.
Qed.
Lemma prod_close : forall a b x y d, 0 <= a <= 1 -> 0 <= y <= 1 -> Rabs (a - x) <= d -> Rabs (b - y) <= d -> Rabs (a * b - x * y) <= 2 * d.
Proof.
  intros a b x y d A Y D E. replace (a * b - x * y) with (a * (b - y) + y * (a - x)) by ring.
  eapply Rle_trans; [apply Rabs_triang|]. rewrite !Rabs_mult, (Rabs_right a), (Rabs_right y) by lra.
  pose proof (Rabs_pos (a - x)). pose proof (Rabs_pos (b - y)). nra.
Qed.
