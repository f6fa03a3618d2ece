(** Property C75: what a seed fixes. *)
Require Import Reals ZArith List Bool Lra Lia Arith.
From Verif Require Import Base Mask_Model Sample_Model Sample_Spec Sample_Proof Sample_Thm Seed_Model.
Import ListNotations.
Open Scope R_scope.

Lemma rows_seq : forall sizes, concat (map (rows sizes) (seq 0 (length sizes))) = seq 0 (total sizes).
Proof.
  assert (G : forall sizes pre, concat (map (rows (pre ++ sizes)) (seq (length pre) (length sizes))) = seq (total pre) (total sizes)).
  { induction sizes as [|n sizes IH]; intros pre; [reflexivity|]. cbn [length seq map concat]. specialize (IH (pre ++ [n])).
    rewrite <- app_assoc in IH. cbn [app] in IH. rewrite app_length in IH. cbn [length] in IH. rewrite Nat.add_1_r in IH. rewrite IH.
    assert (T : forall a b, total (a ++ b) = (total a + total b)%nat) by (induction a as [|x a IHa]; intros b; [reflexivity|]; cbn [app]; change (total (x :: a ++ b)) with (x + total (a ++ b))%nat; change (total (x :: a)) with (x + total a)%nat; rewrite IHa; lia).
    assert (R : rows (pre ++ n :: sizes) (length pre) = seq (total pre) n).
    { unfold rows, offset_of. rewrite firstn_app, Nat.sub_diag, firstn_all, firstn_O, app_nil_r. rewrite app_nth2, Nat.sub_diag by lia. reflexivity. }
    rewrite R, T. change (total (n :: sizes)) with (n + total sizes)%nat. rewrite seq_app. cbn. rewrite Nat.add_0_r. reflexivity. }
  intros sizes. apply (G sizes []).
Qed.

(** A mask called with a seed: what it keeps is fixed by the seed, however the rows are shared between processes, and whatever the machine gives. *)
Theorem C75_mask : forall stream e n seed sizes prob, map (@length R) prob = sizes ->
  concat (map (fun rank => call_mask stream e n (Some seed) sizes rank (nth rank prob [])) (seq 0 (length sizes))) = mask_call (concat prob) (map (stream seed) (seq 0 (length (concat prob)))).
Proof.
  intros stream e n seed sizes prob H. unfold call_mask. cbn [seed_of].
  assert (LC : length (concat prob) = total sizes) by (subst sizes; induction prob as [|p prob IH]; cbn; [auto|rewrite app_length, IH; reflexivity]).
  rewrite LC, <- rows_seq. clear LC.
  assert (G : forall (prob : list (list R)) (us : list (list R)), map (@length R) prob = map (@length R) us ->
    concat (map (fun x => mask_call (fst x) (snd x)) (combine prob us)) = mask_call (concat prob) (concat us)).
  { clear. unfold mask_call. induction prob as [|p prob IH]; intros [|u us] H; cbn in *; try discriminate; auto. injection H as H1 H2. rewrite IH by auto. rewrite <- map_app. f_equal.
    clear IH H2. revert u H1. induction p as [|a p IH]; intros [|b u] H; cbn in *; try discriminate; auto. rewrite IH by lia. auto. }
  rewrite concat_map, map_map. rewrite <- G.
  - f_equal. assert (K : forall (p : list (list R)) (f : nat -> list R) k, map (fun x => mask_call (fst x) (snd x)) (combine p (map f (seq k (length p)))) = map (fun r => mask_call (nth (r - k) p []) (f r)) (seq k (length p))).
    { clear. induction p as [|a p IH]; intros f k; cbn [length seq map combine fst snd]; [reflexivity|]. rewrite Nat.sub_diag. cbn [nth]. f_equal. rewrite IH. apply map_ext_in.
      intros r Hr. apply in_seq in Hr. replace (r - k)%nat with (S (r - S k)) by lia. reflexivity. }
    assert (length sizes = length prob) as -> by (subst; apply map_length). rewrite (K prob (fun r => map (stream seed) (rows sizes r)) 0%nat). apply map_ext. intros r. rewrite Nat.sub_0_r. reflexivity.
  - rewrite H, map_map. apply nth_ext with (d := O) (d' := O); [rewrite map_length, seq_length; auto|]. intros i Hi.
    rewrite nth_indep with (l := map _ (seq 0 (length sizes))) (d' := (fun r => length (map (stream seed) (rows sizes r))) O) by (rewrite map_length, seq_length; auto).
    rewrite map_nth with (f := fun r => length (map (stream seed) (rows sizes r))). rewrite seq_nth by auto. rewrite map_length. unfold rows. rewrite seq_length. reflexivity.
Qed.
Print Assumptions C75_mask.
Example C75_case_mask : map (@length R) [[1 / 2; 0]; []; [1]] = [2; 0; 1]%nat.
Proof. reflexivity. Qed.

(** Sampling with the same seed: what is kept changes from one run to the next. *)
Theorem C75_sample_refuted : exists (prob : R -> R) cand stream next seed e e', (forall s i, 0 < stream s i < 1) /\
  seeded_sample prob cand stream next e (Some seed) 2 [1%nat] = Ok [[cand (round_seed next (next seed) 0) 0%nat] ] /\
  seeded_sample prob cand stream next e' (Some seed) 2 [1%nat] = Ok [[cand (round_seed next (next seed) 1) 0%nat] ] /\
  cand (round_seed next (next seed) 0) 0%nat <> cand (round_seed next (next seed) 1) 0%nat.
Proof.
  exists (fun _ => 1 / 2), (fun s i => IZR s), (fun s i => if (s =? 0)%Z then 1 / 4 else 3 / 4), (fun s => s), 42%Z, (fun _ => 0%Z), (fun n => match n with O => 1%Z | _ => 0%Z end).
  assert (A : Rleb (1 / 4) (1 / 2) = true) by (apply Rleb_true; lra). assert (B : Rleb (3 / 4) (1 / 2) = false) by (apply Rleb_false; lra). split.
  - intros s i. destruct (s =? 0)%Z; lra.
  - unfold seeded_sample, sample. cbn -[Rdiv IZR Rleb]. unfold accepted. cbn -[Rdiv IZR Rleb]. rewrite ?A, ?B. cbn -[Rdiv IZR Rleb]. rewrite ?A, ?B. cbn -[Rdiv IZR Rleb]. split; [reflexivity|]. split; [reflexivity|].
    intros H. apply eq_IZR in H. lia.
Qed.
Print Assumptions C75_sample_refuted.

Lemma sample_draws : forall (A : Type) (prob : A -> R) d d' fuel sizes, (forall k r, (r < length sizes)%nat -> accepted prob (d k r) = accepted prob (d' k r)) -> sample prob d fuel sizes = sample prob d' fuel sizes.
Proof.
  intros A prob d d' fuel sizes H. unfold sample.
  assert (L : forall n k acc ds, length acc = length sizes -> sample_loop prob d n k acc ds = sample_loop prob d' n k acc ds).
  { induction n as [|f IH]; intros k acc ds L; cbn [sample_loop]; auto. destruct (0 <? allreduce ds)%Z; auto.
    assert (R : round prob d k (length acc) = round prob d' k (length acc)). { unfold round. apply map_ext_in. intros r Hr. apply in_seq in Hr. apply H. lia. }
    rewrite R. apply IH. unfold zip_with, round. rewrite map_length, combine_length, map_length, seq_length. lia. }
  rewrite L by apply map_length. reflexivity.
Qed.
(** Masks that keep or refuse with certainty: the seed fixes the sample. *)
Theorem C75_certain : forall (A : Type) (prob : A -> R) cand stream next e e' seed fuel sizes, (forall s i, 0 < stream s i < 1) -> (forall s i, prob (cand s i) = 0 \/ prob (cand s i) = 1) ->
  seeded_sample prob cand stream next e (Some seed) fuel sizes = seeded_sample prob cand stream next e' (Some seed) fuel sizes.
Proof.
  intros A prob cand stream next e e' seed fuel sizes HS HP. apply sample_draws. intros k r _. unfold round_draws, accepted. cbn [seed_of first_seed].
  set (s := round_seed next (next seed) k). generalize (rows sizes r). induction l as [|i l IH]; cbn; auto.
  assert (E : Rleb (stream (e k) i) (prob (cand s i)) = Rleb (stream (e' k) i) (prob (cand s i))).
  { pose proof (HS (e k) i). pose proof (HS (e' k) i). destruct (HP s i) as [->| ->].
    - rewrite !(proj2 (Rleb_false _ _)) by lra. auto.
    - rewrite !(proj2 (Rleb_true _ _)) by lra. auto. }
  rewrite E. destruct (Rleb (stream (e' k) i) (prob (cand s i))); cbn [map fst]; [f_equal|]; exact IH.
Qed.
Print Assumptions C75_certain.

(** When every candidate is kept (as for random catalogs), the sample is the stream of the seed, shared between processes. *)
Theorem C75_random_catalogs : forall (A : Type) (prob : A -> R) cand stream next e seed fuel sizes, (forall s i, stream s i < 1) -> (forall s i, 1 <= prob (cand s i)) -> (1 <= total sizes)%nat -> (1 <= fuel)%nat ->
  exists out, seeded_sample prob cand stream next e (Some seed) fuel sizes = Ok out /\ concat out = map (cand (next seed + 1)%Z) (seq 0 (total sizes)) /\ map (@length A) out = sizes.
Proof.
  intros A prob cand stream next e seed fuel sizes HS HP N F. unfold seeded_sample.
  set (d := round_draws cand stream next e (Some seed) sizes).
  assert (Acc : forall r, accepted prob (d O r) = map (cand (next seed + 1)%Z) (rows sizes r)).
  { intros r. unfold d, round_draws, accepted. cbn [seed_of first_seed round_seed]. generalize (rows sizes r). induction l as [|i l IH]; cbn; auto.
    rewrite (proj2 (Rleb_true _ _)) by (specialize (HS (e O) i); specialize (HP (next seed + 1)%Z i); lra). cbn. rewrite IH. auto. }
  assert (St : concat (state prob d (length sizes) 1) = map (cand (next seed + 1)%Z) (seq 0 (total sizes))).
  { rewrite <- rows_seq, concat_map, map_map. unfold state. f_equal. apply map_ext. intros r. unfold got. cbn [seq flat_map]. rewrite app_nil_r. apply Acc. }
  assert (Lp : sample_loop prob d fuel 0 (map (fun _ => []) sizes) (map Z.of_nat sizes) = Ok (1%nat, state prob d (length sizes) 1)).
  { rewrite (start_state prob d), (start_need prob d). destruct fuel as [|fuel]; [lia|]. cbn [sample_loop].
    unfold need at 1. rewrite need_total by apply state_length. rewrite <- (start_state prob d).
    assert (C0 : concat (map (fun _ : nat => @nil A) sizes) = []) by (clear; induction sizes; auto). rewrite C0. cbn [length].
    rewrite (proj2 (Z.ltb_lt _ _)) by lia. rewrite (start_state prob d), state_length, state_S, need_S.
    assert (K : (0 <? allreduce (need prob d sizes 1))%Z = false).
    { apply Z.ltb_ge. unfold need. rewrite need_total by apply state_length. rewrite St, map_length, seq_length. lia. }
    destruct fuel; cbn [sample_loop]; rewrite K; reflexivity. }
  unfold sample. rewrite Lp. cbn [bind]. eexists. split; [reflexivity|]. rewrite cuts_eq, St. split.
  - rewrite cuts_concat. apply firstn_all2. rewrite map_length, seq_length. lia.
  - apply cuts_lengths. rewrite map_length, seq_length. lia.
Qed.
Print Assumptions C75_random_catalogs.
Example C75_case_random : (forall (s : Z) (i : nat), 1 / 2 < 1) /\ (1 <= total [2; 0; 3]%nat)%nat.
Proof. split; [intros; lra|cbn; lia]. Qed.

(** Otherwise the sample depends on the number of processes, even with masks that keep or refuse with certainty. *)
Theorem C75_processes_refuted : exists (prob : Z -> R) cand stream next seed, (forall s i, 0 < stream s i < 1) /\ (forall z, prob z = 0 \/ prob z = 1) /\
  forall e, exists out out' x, seeded_sample prob cand stream next e (Some seed) 3 [3%nat] = Ok out /\ seeded_sample prob cand stream next e (Some seed) 3 [2%nat; 1%nat] = Ok out' /\
    In x (concat out) /\ ~ In x (concat out').
Proof.
  exists (fun z => if existsb (Z.eqb z) [12; 20; 30; 31; 32]%Z then 1 else 0), (fun s i => (10 * s + Z.of_nat i)%Z), (fun _ _ => 1 / 2), (fun s => s), 0%Z.
  split; [intros; lra|]. split; [intros z; destruct (existsb _ _); auto|]. intros e.
  assert (A : Rleb (1 / 2) 1 = true) by (apply Rleb_true; lra). assert (B : Rleb (1 / 2) 0 = false) by (apply Rleb_false; lra).
  exists [[12; 20; 30]%Z], [[20; 30]%Z; [31]%Z], 12%Z. split; [|split; [|split; [cbn; auto|cbn; lia] ] ];
  unfold seeded_sample, sample; cbn -[Rdiv IZR Rleb]; unfold round, accepted, round_draws; cbn -[Rdiv IZR Rleb]; rewrite ?A, ?B; cbn -[Rdiv IZR Rleb]; reflexivity.
Qed.
Print Assumptions C75_processes_refuted.
