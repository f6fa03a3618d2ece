(** Property C77, continued: effective redshift. *)
Require Import Reals Lra Lia ZArith String List Bool Arith.
From Verif Require Import Base Coll_Model Coll_Spec Coll_Thm Coll_Thm2 Coll_Thm3.
Import ListNotations.

(** Positions on all processes or none, or on the root; every distance in the range of the table; and either no process has weights, or each has one per object it holds. *)
Definition one_each (n : nat) (mpiroot : option nat) (formatted : nat -> option (string + list Z)) (weights : nat -> msg) (to_z : nat -> msg -> list Z) : Prop :=
  (forall i, (i < n)%nat -> weights i = MNone) \/
  mpiroot = None /\ forall i, (i < n)%nat -> exists l, weights i = MData l /\ forall p, formatted i = Some (inr p) -> List.length l = List.length (to_z i (MData p)).
Theorem C77_get_z : forall w n mpiroot formatted weights to_z, scatters w -> given n mpiroot formatted -> one_each n mpiroot formatted weights to_z ->
  never_hangs w n (fun i => get_z_prog mpiroot i (formatted i) (weights i) (fun p => Ok (to_z i p))).
Proof.
  intros w n mpiroot formatted weights to_z Sc G O. eapply (together_safe w n any). unfold get_z_prog.
  destruct O as [W|[-> W] ].
  - seq_ (fun a : nat -> msg => all_or_none n (fun i => is_none (a i))); [apply (together_positions w n mpiroot formatted Sc G)|].
    intros a A. cond A; [apply together_raise|]. cbn [lift]. same (fun i => call (Reduce "cmean") (MData (to_z i (a i)))); [rewrite bind_ret, W by auto; reflexivity|last_call].
  - unfold format_positions. cbv zeta.
    set (e := fun i => match formatted i with Some (inl s) => MStr s | _ => MNone end).
    seq_ (fun a : nat -> msg => (forall i, (i < n)%nat -> formatted i = None /\ a i = MNone) \/ (forall i, (i < n)%nat -> exists p, formatted i = Some (inr p) /\ a i = MData p)).
    + comm. match goal with |- context [existsb is_str (map ?f _)] => set (e' := f) end. destruct (existsb is_str _) eqn:E; [apply together_raise|]. pose proof (no_error n e' E) as NE.
      match goal with |- together ?w ?n ?Q (fun i => Ret (@?f i)) => apply (together_ret w n Q f) end. destruct G as [G|G]; [right|left]; intros i Hi.
      * specialize (G i Hi). specialize (NE i Hi). unfold e' in NE. destruct (formatted i) as [[s|p]|]; [discriminate|eauto|easy].
      * rewrite G by auto. auto.
    + intros a [A|A].
      * same (fun i : nat => @Raise msg TypeError); [destruct (A i) as [_ ->]; auto|apply together_raise].
      * assert (L : exists l, forall i, (i < n)%nat -> weights i = MData (l i) /\ List.length (l i) = List.length (to_z i (a i))).
        { exists (fun i => match weights i with MData l => l | _ => [] end). intros i Hi. destruct (W i Hi) as (l & El & Ll). destruct (A i Hi) as (p & Fp & Ap). rewrite El, Ap. split; auto. }
        destruct L as [l L]. same (fun i => pbind (call (Reduce "csum") (MData (l i))) (fun _ => call (Reduce "csum") (MMany [MData (to_z i (a i)); MData (l i)]))).
        { destruct (A i) as (p & Fp & Ap); auto. destruct (L i) as [Wl Ll]; auto. rewrite Ap in *. cbn [is_none lift]. rewrite bind_ret, Wl, Ll, Nat.eqb_refl. reflexivity. }
        comm. last_call.
Qed.
Print Assumptions C77_get_z.
(** Two processes, two and one objects, with weights. *)
Example C77_get_z_case : forall w, scatters w -> never_hangs w 2 (fun i => get_z_prog None i (Some (inr (match i with O => [1%Z; 2%Z] | _ => [3%Z] end))) (MData (match i with O => [1%Z; 1%Z] | _ => [4%Z] end)) (fun p => Ok (match p with MData l => l | _ => [] end))).
Proof.
  intros w Sc. apply C77_get_z with (to_z := fun _ p => match p with MData l => l | _ => [] end); auto.
  - left. discriminate.
  - right. split; auto. intros [|[|i] ] Hi; eexists; (split; [reflexivity|]); intros p [= <-]; reflexivity.
Qed.

Lemma none_str : forall n, existsb is_str (map (fun _ : nat => MNone) (seq 0 n)) = false. Proof. intros n. generalize 0%nat. induction n; intros; cbn; auto. Qed.
(** Gathered on one process ([mpiroot]), as documented for positions and weights: positions are shared between the processes, weights are not. As soon as the root is left with fewer objects than it has weights, it raises and all others wait for it for ever. *)
Theorem C77_get_z_refuted : forall w n r formatted weights to_z p l, (2 <= n)%nat -> (r < n)%nat -> scatters w -> formatted r = Some (inr p) -> weights r = MData l -> (forall i, (i < n)%nat -> i <> r -> formatted i = None /\ weights i = MNone) ->
  List.length l <> List.length (to_z r (w_scatter w (MData p) n r)) ->
  hangs w n (fun i => get_z_prog (Some r) i (formatted i) (weights i) (fun q => Ok (to_z i q))).
Proof.
  intros w n r formatted weights to_z p l N Hr Sc Fr Wr Ot Ll.
  set (last := fun (i : nat) (positions : msg) => if is_none positions then Raise TypeError else act z <- lift (Ok (to_z i positions)); match weights i with MNone => call (Reduce "cmean") (MData z) | MData l => if Nat.eqb (List.length l) (List.length z) then act _ <- call (Reduce "csum") (MData l); call (Reduce "csum") (MMany [MData z; MData l]) else Raise TypeError | _ => Raise TypeError end).
  set (pos := fun i => match formatted i with Some (inr l) => MData l | _ => MNone end).
  set (rest := fun i (errors : msg) => if existsb is_str (match errors with MMany l => l | _ => [] end) then Raise ValueError else act some <- call (Bcast r) (MBool (match pos i with MNone => false | _ => true end)); match some with MBool true => call (Scatter r) (pos i) | _ => Ret (pos i) end).
  apply hang_call with Allgather (fun _ => MNone) (fun i v => pbind (pbind (Ret v) (rest i)) (last i)).
  { intros i Hi. unfold get_z_prog, format_positions. cbv zeta. unfold call at 1. rewrite !bind_call.
    assert (E : (if Nat.eqb i r then match formatted i with Some (inl e) => MStr e | _ => MNone end else MNone) = MNone).
    { destruct (Nat.eqb i r) eqn:B; auto. apply Nat.eqb_eq in B. subst i. rewrite Fr. reflexivity. }
    rewrite E. reflexivity. }
  apply hang_call with (Bcast r) (fun i => MBool (match pos i with MNone => false | _ => true end)) (fun i v => pbind (pbind (Ret v) (fun some => match some with MBool true => call (Scatter r) (pos i) | _ => Ret (pos i) end)) (last i)).
  { intros i Hi. cbn [reply]. rewrite bind_ret. unfold rest. rewrite none_str. unfold call at 1. rewrite !bind_call. reflexivity. }
  apply hang_call with (Scatter r) pos (fun i v => pbind (Ret v) (last i)).
  { intros i Hi. cbn [reply]. rewrite nth_seq by auto. rewrite bind_ret. unfold pos at 1. rewrite Fr. unfold call. rewrite bind_call. reflexivity. }
  assert (J : exists j, (j < n)%nat /\ j <> r) by (destruct r; [exists 1%nat|exists 0%nat]; lia). destruct J as (j & Hj & Dj).
  apply hang_now with j r; auto.
  - intros op m k op' m' k' E1 E2. cbn [reply] in E2. rewrite nth_seq in E2 by auto. rewrite bind_ret in E2. unfold last, pos in E2. rewrite Fr, (Sc (MData p)) in E2. cbn [is_none lift] in E2. rewrite bind_ret, Wr in E2. apply Nat.eqb_neq in Ll. rewrite Ll in E2. discriminate.
  - cbn [reply]. rewrite nth_seq by auto. rewrite bind_ret. unfold last, pos. rewrite Fr, (Sc (MData p)). cbn [is_none lift]. rewrite bind_ret. destruct (Ot j Hj Dj) as [_ ->]. unfold call. eauto.
Qed.
Print Assumptions C77_get_z_refuted.
(** Three objects with weights on the first of two processes, which keeps two of them. *)
Example C77_get_z_hang : hangs (World (fun m _ i => match m with MData l => MData (match i with O => firstn 2 l | _ => skipn 2 l end) | _ => m end) (fun _ _ _ => MNone) (fun _ _ => MNone)) 2
  (fun i => get_z_prog (Some 0%nat) i (match i with O => Some (inr [1%Z; 2%Z; 3%Z]) | _ => None end) (match i with O => MData [1%Z; 1%Z; 1%Z] | _ => MNone end) (fun q => Ok (match q with MData l => l | _ => [] end))).
Proof.
  eapply C77_get_z_refuted with (formatted := fun i => match i with O => Some (inr [1%Z; 2%Z; 3%Z]) | _ => None end) (weights := fun i => match i with O => MData [1%Z; 1%Z; 1%Z] | _ => MNone end) (to_z := fun _ q => match q with MData l => l | _ => [] end); try reflexivity; try lia.
  - intros m n i. destruct m; reflexivity.
  - intros [|i] Hi D; [lia|auto].
  - cbn. lia.
Qed.
