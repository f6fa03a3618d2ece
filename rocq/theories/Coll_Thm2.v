(** Property C77, continued: functions of the package. *)
Require Import Reals Lra Lia ZArith String List Bool Arith.
From Verif Require Import Base Coll_Model Coll_Spec Coll_Thm.
Import ListNotations.

Ltac comm := match goal with |- together ?w ?n ?Q (fun i => pbind (call ?op (@?m i)) (@?f i)) => apply (together_then w n Q op m f); cbn [reply] end.
Ltac last_call := match goal with |- together ?w ?n any (fun i => call ?op (@?m i)) => apply (together_weaken w n (fun a => a = fun i => reply w n op (map m (seq 0 n)) i)); [intros; exact I|apply (together_call w n op m)] end.
Ltac same f := match goal with |- together ?w ?n ?Q ?p => apply (together_ext w n Q f); [intros; cbn beta|] end.

(** Some process has data if and only if all have. *)
Definition all_or_none (n : nat) (b : nat -> bool) : Prop := (forall i, (i < n)%nat -> b i = true) \/ (forall i, (i < n)%nat -> b i = false).
Lemma aon : forall n b, all_or_none n b -> exists v, forall i, (i < n)%nat -> b i = v. Proof. intros n b [H|H]; eauto. Qed.
(** Scattered arrays are arrays. *)
Definition scatters (w : world) : Prop := forall m n i, is_none (w_scatter w m n i) = is_none m.

(** ** Blinding *)
(** Positions that are left to processes. *)
Definition have (formatted : nat -> option (string + list Z)) (i : nat) : bool := match formatted i with Some (inr _) => true | _ => false end.
Definition given (n : nat) (mpiroot : option nat) (formatted : nat -> option (string + list Z)) : Prop :=
  match mpiroot with None => (forall i, (i < n)%nat -> formatted i <> None) \/ (forall i, (i < n)%nat -> formatted i = None) | Some r => (r < n)%nat /\ (formatted r <> None \/ forall i, (i < n)%nat -> formatted i = None) end.
Lemma no_error : forall n (e : nat -> msg), existsb is_str (map e (seq 0 n)) = false -> forall i, (i < n)%nat -> is_str (e i) = false.
Proof.
  intros n e H i Hi. destruct (is_str (e i)) eqn:E; auto. assert (existsb is_str (map e (seq 0 n)) = true); [|congruence]. apply existsb_exists. exists (e i). split; auto. apply in_map_iff. exists i. split; auto. apply in_seq. lia.
Qed.
Lemma nth_seq : forall n (m : nat -> msg) r, (r < n)%nat -> nth r (map m (seq 0 n)) MNone = m r.
Proof. intros n m r H. rewrite (nth_indep _ MNone (m 0%nat)) by (rewrite map_length, seq_length; auto). rewrite map_nth, seq_nth by auto. reflexivity. Qed.
Lemma together_positions_any : forall w n mpiroot formatted, together w n any (fun i => format_positions mpiroot i (formatted i)).
Proof.
  intros w n mpiroot formatted. unfold format_positions. cbv zeta. comm. destruct (existsb is_str _); [apply together_raise|]. destruct mpiroot as [r|].
  - comm. set (b := nth r _ MNone). destruct b as [| | |[|]| | |]; try (match goal with |- together _ _ _ (fun i => Ret (@?f i)) => apply (together_ret w n any f); exact I end). last_call.
  - match goal with |- together _ _ _ (fun i => Ret (@?f i)) => apply (together_ret w n any f); exact I end.
Qed.
Theorem C77_positions : forall w n mpiroot formatted, never_hangs w n (fun i => format_positions mpiroot i (formatted i)).
Proof. intros. eapply together_safe, together_positions_any. Qed.
Print Assumptions C77_positions.
(** With the array given on all processes or none, all have positions or none. *)
Lemma together_positions : forall w n mpiroot formatted, scatters w -> given n mpiroot formatted -> together w n (fun a => all_or_none n (fun i => is_none (a i))) (fun i => format_positions mpiroot i (formatted i)).
Proof.
  intros w n mpiroot formatted Sc G. unfold format_positions. cbv zeta. comm. match goal with |- context [existsb is_str (map ?f _)] => set (e := f) end. destruct (existsb is_str _) eqn:E; [apply together_raise|]. pose proof (no_error n e E) as NE. unfold given in G.
  assert (P : forall i, (i < n)%nat -> match mpiroot with None => True | Some r => i = r end -> formatted i <> None -> exists l, formatted i = Some (inr l)).
  { intros i Hi Hr F. specialize (NE i Hi). unfold e in NE. destruct (formatted i) as [[s|l]|]; [|eauto|easy]. destruct mpiroot as [r|]; [subst; rewrite Nat.eqb_refl in NE|]; discriminate. }
  destruct mpiroot as [r|].
  - destruct G as [Hr G]. comm. rewrite nth_seq by auto. destruct G as [G|G].
    + destruct (P r Hr eq_refl G) as [l L]. rewrite L. match goal with |- together ?w ?n ?Q (fun i => call ?op (@?m i)) => apply (together_weaken w n (fun a => a = fun i => reply w n op (map m (seq 0 n)) i)); [|apply (together_call w n op m)] end.
      intros a ->. right. intros i Hi. cbn [reply]. rewrite Sc, nth_seq by auto. rewrite L. reflexivity.
    + rewrite (G r Hr). match goal with |- together ?w ?n ?Q (fun i => Ret (@?f i)) => apply (together_ret w n Q f) end. left. intros i Hi. rewrite G by auto. reflexivity.
  - match goal with |- together ?w ?n ?Q (fun i => Ret (@?f i)) => apply (together_ret w n Q f) end. destruct G as [G|G]; [right|left]; intros i Hi.
    + destruct (P i Hi I (G i Hi)) as [l ->]. reflexivity.
    + rewrite G by auto. reflexivity.
Qed.
Lemma together_weights : forall w n mpiroot weights, together w n any (fun i => format_weights mpiroot (weights i) None).
Proof.
  intros w n mpiroot weights. unfold format_weights. apply (together_bind w n any any _ (fun i (v : msg) => Ret v)).
  - destruct mpiroot as [r|]; [last_call|]. comm. cbv zeta. destruct (_ && _); [apply together_raise|]. apply (together_ret w n any weights). exact I.
  - intros a _. apply (together_ret w n any a). exact I.
Qed.
Theorem C77_weights : forall w n mpiroot weights, never_hangs w n (fun i => format_weights mpiroot (weights i) None).
Proof. intros. eapply together_safe, together_weights. Qed.
Print Assumptions C77_weights.
Lemma together_output : forall w n mpiroot positions, together w n any (fun i => format_output_positions mpiroot (positions i)).
Proof. intros w n [r|] p; unfold format_output_positions; [last_call|apply (together_ret w n any p); exact I]. Qed.
(** What the root is given: with [mpiroot] all parts are gathered on this process, in the order of processes, and on no other. *)
Theorem C77_output : forall w n r (part : nat -> msg), (forall i, (i < n)%nat -> part i <> MNone) ->
  let given i := Ret (if Nat.eqb i r then MMany (map part (seq 0 n)) else MNone) in
  reach w n (fun i => format_output_positions (Some r) (part i)) given /\ reach w n (fun i => format_output_weights (Some r) (part i)) given /\
  (forall i, format_output_positions None (part i) = Ret (part i) /\ format_output_weights None (part i) = Ret (part i)).
Proof.
  intros w n r part H given. split; [|split; [|split; reflexivity] ].
  - eapply reach_next; [apply reach_here|]. exists (Gather r), part, (fun _ v => Ret v). split; [reflexivity|]. intros i Hi. reflexivity.
  - eapply reach_next; [apply reach_here|]. exists (Gather r), part, (fun _ v => Ret v). split; [|intros i Hi; reflexivity].
    intros i Hi. unfold format_output_weights. specialize (H i Hi). destruct (part i); [easy|..]; reflexivity.
Qed.
Print Assumptions C77_output.
(** Two processes, gathered on the second. *)
Example C77_output_case : forall w, reach w 2 (fun i => format_output_weights (Some 1%nat) (MData [Z.of_nat i])) (fun i => Ret (if Nat.eqb i 1 then MMany [MData [0%Z]; MData [1%Z] ] else MNone)).
Proof. intros w. apply (C77_output w 2 1 (fun i => MData [Z.of_nat i])). discriminate. Qed.
Theorem C77_shuffle : forall w n mpiroot formatted frac masked shuffled put, scatters w -> given n mpiroot formatted ->
  never_hangs w n (fun i => shuffle_prog mpiroot i (formatted i) frac (masked i) (shuffled i) (put i)).
Proof.
  intros w n mpiroot formatted frac masked shuffled put Sc G. eapply together_safe. unfold shuffle_prog. eapply (together_bind w n _ any _ (fun i positions => _)); [apply (together_positions w n mpiroot formatted Sc G)|].
  intros a A. destruct (aon _ _ A) as [v V]. cbn beta. destruct v.
  - same (fun i : nat => @Raise msg TypeError); [rewrite V by auto; reflexivity|apply together_raise].
  - destruct frac; [same (fun i : nat => @Raise msg ValueError); [rewrite V by auto; reflexivity|apply together_raise]|].
    match goal with |- together ?w ?n ?Q (fun i => if is_none (a i) then _ else @?p i) => same p; [rewrite V by auto; reflexivity|] end.
    comm. comm. comm. apply together_output.
Qed.
Print Assumptions C77_shuffle.
(** Positions on some processes only are not refused, unlike weights: these processes wait for ever. *)
Theorem C77_shuffle_refuted : forall w formatted masked shuffled put l, formatted 0%nat = Some (inr l) -> formatted 1%nat = None -> hangs w 2 (fun i => shuffle_prog None i (formatted i) false (masked i) (shuffled i) (put i)).
Proof.
  intros w formatted masked shuffled put l F0 F1.
  set (q := fun i => match i with 0%nat => Call Allgather (MInt 0) (fun v => pbind (Ret v) (fun _ => act all <- call (Gather 0) (MData (masked 0%nat (MData l))); act mine <- call (Scatter 0) (if Nat.eqb 0 0 then shuffled 0%nat all else all); format_output_positions None (put 0%nat (MData l) mine))) | _ => Raise TypeError end).
  exists q. split.
  - apply reach_next with (fun i => shuffle_prog None i (formatted i) false (masked i) (shuffled i) (put i)); [apply reach_here|].
    exists Allgather, (fun _ => MNone).
    exists (fun i v => pbind (pbind (Ret v) (fun errors => if existsb is_str (match errors with MMany l => l | _ => [] end) then Raise ValueError else Ret (match formatted i with Some (inr l) => MData l | _ => MNone end)))
      (fun positions => if is_none positions then Raise TypeError else if false then Raise ValueError else act _ <- call Allgather (MInt 0); act all <- call (Gather 0) (MData (masked i positions)); act mine <- call (Scatter 0) (if Nat.eqb i 0 then shuffled i all else all); format_output_positions None (put i positions mine))).
    split.
    + intros i Hi. unfold shuffle_prog, format_positions. cbv zeta. unfold call at 1. rewrite bind_call, bind_call. destruct i as [|[|i] ]; [rewrite F0|rewrite F1|lia]; reflexivity.
    + intros i Hi. cbn [reply]. rewrite bind_ret. destruct i as [|[|i] ]; [| |lia]; cbn [map seq existsb is_str orb].
      * rewrite F0, bind_ret. cbn [is_none]. unfold call at 1. rewrite bind_call. reflexivity.
      * rewrite F1, bind_ret. reflexivity.
  - intros [K|[K|[op K] ] ].
    + destruct (K 0%nat) as [a Ka]; [lia|discriminate].
    + destruct (K 0%nat) as [a Ka]; [lia|discriminate].
    + destruct (K 1%nat) as (m & k & Ka); [lia|discriminate].
Qed.
Print Assumptions C77_shuffle_refuted.
Theorem C77_rsd : forall w n named mpiroot data randoms data_weights randoms_weights move, never_hangs w n (fun i => rsd_prog named mpiroot i (data i) (randoms i) (data_weights i) (randoms_weights i) (move i)).
Proof.
  intros w n named mpiroot data randoms dw rw move. eapply together_safe. unfold rsd_prog. eapply (together_bind w n any any _ (fun i dp => _)); [apply together_positions_any|]. intros dp _.
  eapply (together_bind w n any any _ (fun i _ => _)).
  - destruct named; [|match goal with |- together _ _ _ (fun i => Ret (@?f i)) => apply (together_ret w n any f); exact I end]. cbn beta.
    eapply (together_bind w n any any _ (fun i dw => _)); [apply together_weights|]. intros a1 _. eapply (together_bind w n any any _ (fun i rp => _)); [apply together_positions_any|]. intros a2 _. eapply (together_bind w n any any _ (fun i rw => _)); [apply together_weights|]. intros a3 _. last_call.
  - intros a _. cbn beta. comm. apply together_output.
Qed.
Print Assumptions C77_rsd.
