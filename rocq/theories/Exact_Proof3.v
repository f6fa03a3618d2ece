(** Which isometries share their translation. *)
Require Import Reals Lra Lia String List Bool Arith.
From Verif Require Import Base Isometry_Model Isometry_Spec Isometry_Proof Exact_Spec2.
Import ListNotations.

Definition tracked (st : store) (n : nat) (lab : nat -> nat) : Prop :=
  (forall i o, env st i = Some o -> (o_tra o < next st)%nat /\ (lab i < n)%nat) /\
  forall i j oi oj, env st i = Some oi -> env st j = Some oj -> (o_tra oi = o_tra oj <-> lab i = lab j).
Lemma tracked_more : forall st n lab, tracked st n lab -> tracked st (S n) lab.
Proof. intros st n lab [B D]. split; auto. intros i o E. destruct (B i o E). lia. Qed.
Lemma tracked_fresh : forall st n lab i s, tracked st n lab -> tracked (bind_fresh st i s) (S n) (upd lab i n).
Proof.
  intros st n lab i s [B D]. split.
  - intros j o E. cbn in *. unfold upd in *. destruct (Nat.eqb j i); [injection E as <-; cbn; lia|]. destruct (B j o E). lia.
  - intros j k oj ok Ej Ek. cbn in *. unfold upd in *. destruct (Nat.eqb_spec j i), (Nat.eqb_spec k i); subst.
    + rewrite Ek in Ej. injection Ej as ->. tauto.
    + injection Ej as <-. destruct (B k ok Ek). cbn. lia.
    + injection Ek as <-. destruct (B j oj Ej). cbn. lia.
    + apply D; auto.
Qed.
Lemma tracked_rot : forall st n lab i m, tracked st n lab -> tracked (write_rot st i m) n lab.
Proof.
  intros st n lab i m [B D]. unfold write_rot. destruct (env st i) as [o|] eqn:E; [|split; auto]. split.
  - intros j o' E'. cbn in *. unfold upd in E'. destruct (Nat.eqb_spec j i); [subst; injection E' as <-; cbn; eauto|eauto].
  - intros j k oj ok Ej Ek. cbn in *. unfold upd in *. destruct (Nat.eqb_spec j i), (Nat.eqb_spec k i); subst; try injection Ej as <-; try injection Ek as <-; cbn; try (apply D; auto); try tauto.
Qed.
Lemma tracked_tra : forall st n lab i t, tracked st n lab -> tracked (write_tra st i t) n lab.
Proof. intros st n lab i t [B D]. unfold write_tra. destruct (env st i); split; auto. Qed.
Lemma view_env : forall st i, view st i = None <-> env st i = None.
Proof. intros st i. unfold view. destruct (env st i); split; congruence. Qed.
Lemma tracked_step : forall st n lab c, tracked st n lab -> tracked (exec st c) (S n) (track st n lab c).
Proof.
  intros st n lab c T. pose proof (tracked_more _ _ _ T) as T'. unfold track. destruct c; cbn [exec makes target].
  - apply tracked_fresh; auto.
  - unfold do_dot, is_bound. destruct (view st i); [|cbn; auto]. destruct (String.eqb frame "origin"%string); cbn [andb]; [apply tracked_fresh|apply tracked_rot]; auto.
  - destruct (view st i); auto. destruct (iso_rotation i0 angle axis degree frame) as [s' [[]|]]; auto. apply tracked_fresh; auto.
  - destruct (view st i); auto. apply tracked_tra; auto.
  - unfold is_bound. destruct (view st i); [|cbn; auto]. destruct (String.eqb frame "origin"%string); cbn [andb]; [apply tracked_fresh|apply tracked_rot]; auto.
  - destruct (view st i); auto. apply tracked_tra; auto.
  - destruct (views st js); auto. apply tracked_fresh; auto.
  - destruct (views st [i; j]); auto. apply tracked_fresh; auto.
  - destruct (views st [i; j]); auto. apply tracked_fresh; auto.
  - unfold is_bound, view. destruct (env st i) as [o|] eqn:E; auto. destruct T' as [B D]. split.
    + intros j o' E'. cbn in *. unfold upd in *. destruct (Nat.eqb_spec j k); [injection E' as <-|]; eauto.
    + intros j l oj ol Ej El. cbn in *. unfold upd in *. destruct (Nat.eqb_spec j k), (Nat.eqb_spec l k); subst; try injection Ej as <-; try injection El as <-; try (apply D; auto); try tauto.
Qed.
Lemma tracked_run : forall cs st n lab, tracked st n lab -> tracked (fold_left exec cs st) (n + length cs) (born st n lab cs).
Proof.
  induction cs as [|c cs IH]; intros st n lab T; cbn [fold_left born length]; [rewrite Nat.add_0_r; auto|].
  replace (n + S (length cs))%nat with (S n + length cs)%nat by lia. apply IH, tracked_step; auto.
Qed.
Lemma tracked_all : forall cs, tracked (run cs) (length cs) (creator cs).
Proof. intros cs. apply (tracked_run cs store_init 0). split; [intros ? ? E|intros ? ? ? ? E]; discriminate. Qed.
Lemma fresh_other : forall st n lab i j s, tracked st n lab -> i <> j -> view (bind_fresh st i s) j = view st j.
Proof.
  intros st n lab i j s [B D] N. unfold view, bind_fresh, upd; cbn. destruct (Nat.eqb_spec j i); [congruence|].
  destruct (env st j) eqn:E; auto. apply B in E. destruct (Nat.eqb_spec (o_tra o) (next st)); [lia|reflexivity].
Qed.
Lemma tra_other : forall st n lab i j t s, tracked st n lab -> view st i <> None -> view st j = Some s ->
  view (write_tra st i t) j = (if Nat.eqb (lab j) (lab i) then Some (Iso (rot s) t) else Some s) /\ (exists s', view (write_tra st i t) i = Some s' /\ tra s' = t).
Proof.
  intros st n lab i j t s [B D] Ni Vj. rewrite view_env in Ni. unfold view in *. unfold write_tra. destruct (env st i) as [oi|] eqn:Ei; [|easy]. destruct (env st j) as [oj|] eqn:Ej; [|discriminate]. injection Vj as <-. cbn [env heap rot tra]. rewrite Ej, Ei.
  split; [|eexists; split; [reflexivity|]; cbn; unfold upd; rewrite Nat.eqb_refl; auto].
  specialize (D j i oj oi Ej Ei). unfold upd. destruct (Nat.eqb_spec (o_tra oj) (o_tra oi)) as [E|E], (Nat.eqb_spec (lab j) (lab i)); tauto || (exfalso; tauto).
Qed.
