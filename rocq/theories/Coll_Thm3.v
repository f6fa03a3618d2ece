(** Property C77, continued: primordial non-Gaussianity, bricks, fibres, densities, meshes. *)
Require Import Reals Lra Lia ZArith String List Bool Arith.
From Verif Require Import Base Coll_Model Coll_Spec Coll_Thm Coll_Thm2.
Import ListNotations.

Ltac ret := match goal with |- together ?w ?n any (fun i => Ret (@?f i)) => apply (together_ret w n any f); exact I end.
Lemma together_if : forall {A} w n (Q : (nat -> A) -> Prop) (b : nat -> bool) p q, all_or_none n b -> together w n Q p -> together w n Q q -> together w n Q (fun i => if b i then p i else q i).
Proof. intros A w n Q b p q [H|H] P P'; [apply (together_ext w n Q p)|apply (together_ext w n Q q)]; auto; intros i Hi; rewrite H by auto; reflexivity. Qed.
Lemma aon_const : forall n b, all_or_none n (fun _ => b). Proof. intros n []; [left|right]; auto. Qed.
Ltac seq_ Q := match goal with |- together ?w ?n ?Q' (fun i => pbind (@?p i) (@?f i)) => apply (together_bind w n Q Q' p f); cbn beta end.
Ltac cond H := match goal with |- together ?w ?n ?Q (fun i => if @?b i then @?p i else @?q i) => apply (together_if w n Q b p q H) end.
(** Random positions must be on all processes or none. *)
Theorem C77_png : forall w n known weights data_method shotnoise named mpiroot data randoms data_weights randoms_weights apply, scatters w -> given n mpiroot randoms ->
  never_hangs w n (fun i => png_prog known weights data_method shotnoise named mpiroot i (data i) (randoms i) (data_weights i) (randoms_weights i) (apply i)).
Proof.
  intros w n known weights dm sn named mpiroot data randoms dw rw app Sc G. eapply (together_safe w n any). unfold png_prog. destruct known; [cbn [negb]|apply together_raise].
  seq_ (@any msg); [apply together_positions_any|]. intros dp _. seq_ (@any msg); [apply together_weights|]. intros dw' _.
  seq_ (fun a : nat -> msg => all_or_none n (fun i => is_none (a i))); [apply (together_positions w n mpiroot randoms Sc G)|]. intros rp R0. seq_ (@any msg); [apply together_weights|]. intros rw' _.
  seq_ (@any msg); [destruct named; [last_call|ret]|]. intros _ _. comm. comm. seq_ (@any msg); [cond R0; [ret|last_call]|]. intros _ _.
  destruct (negb weights && sn); [apply together_raise|]. comm.
  assert (R1 : all_or_none n (fun i => negb dm && is_none (rp i))) by (destruct dm; cbn [negb andb]; [apply aon_const|exact R0]).
  seq_ (@any msg).
  - destruct sn; [|ret]. comm. comm. seq_ (@any msg); [cond R0; [last_call|comm; comm; last_call]|]. intros _ _. comm. cond R1; [apply together_raise|last_call].
  - intros _ _. comm. cond R1; [apply together_raise|]. comm. seq_ (@any msg); [destruct weights; [ret|last_call]|]. intros _ _. unfold format_output_weights. destruct mpiroot as [r|]; [|ret]. cbn [is_none]. last_call.
Qed.
Print Assumptions C77_png.

(** ** Bricks *)
Theorem C77_bricks : forall w n no_column data read check, (forall i l, exists q, read i l = Ok q) -> (forall i m, check i m = true) -> never_hangs w n (fun i => brick_prog no_column (data i) (read i) (check i)).
Proof.
  intros w n nc data read check Rd Ck. eapply (together_safe w n any). unfold brick_prog. destruct nc; [ret|]. comm. match goal with |- together _ _ _ (fun i => if ?b then _ else _) => destruct b; [ret|] end.
  comm. comm. cbv zeta. comm. seq_ (@any (list Z)).
  - assert (L : forall i l, exists q, (match l with [] => Ok [] | _ => read i l end) = Ok q) by (intros i [|x l]; eauto).
    match goal with |- together ?w ?n ?Q (fun i => lift match ?l with [] => _ | _ => _ end) => idtac | _ => idtac end.
    match goal with |- together ?w ?n ?Q (fun i => lift (@?r i)) => assert (F : exists f, forall i, r i = Ok (f i)) end.
    { exists (fun i => match (match (match w_exchange w "brickid" (map (fun i => MData (data i)) (seq 0 n)) i with MData l => l | _ => [] end) with [] => Ok [] | _ => read i (match w_exchange w "brickid" (map (fun i => MData (data i)) (seq 0 n)) i with MData l => l | _ => [] end) end) with Ok q => q | Err _ => [] end).
      intros i. cbn beta. destruct (L i (match w_exchange w "brickid" (map (fun i => MData (data i)) (seq 0 n)) i with MData l => l | _ => [] end)) as [q Q]. rewrite Q. reflexivity. }
    destruct F as [f F]. same (fun i => Ret (f i)); [cbn beta in F; rewrite F; reflexivity|ret].
  - intros quantities _. comm. destruct (forallb is_none _); [ret|]. comm.
    match goal with |- together ?w ?n ?Q (fun i => if check i (@?m i) then @?p i else @?q i) => same p; [rewrite Ck; reflexivity|ret] end.
Qed.
Print Assumptions C77_bricks.

(** ** Fibre assignment *)
Section Fiber.
Variable w : world.
Variable n : nat.
Variable select : nat -> nat -> list Z -> list Z.
Variable has_tiles : nat -> nat -> msg -> bool.
Variable assign : nat -> nat -> msg -> msg.
Variable check : nat -> nat -> msg -> bool.
Variable update : nat -> nat -> list Z -> msg -> list Z.
Hypothesis checked : forall i pass m, check i pass m = true.
Lemma together_fa_pass : forall pass targets, together w n any (fun i => fa_pass (select i) (has_tiles i) (assign i) (check i) (update i) pass (targets i)).
Proof.
  intros pass targets. unfold fa_pass. do 7 comm. match goal with |- together ?w ?n ?Q (fun i => if check i pass (@?m i) then @?p i else @?q i) => same p; [rewrite checked; reflexivity|] end. comm. ret.
Qed.
Lemma together_fa_passes : forall passes targets, together w n any (fun i => fa_passes (select i) (has_tiles i) (assign i) (check i) (update i) passes (targets i)).
Proof. induction passes as [|pass passes IH]; intros targets; cbn [fa_passes]; [ret|]. seq_ (@any (list Z)); [apply together_fa_pass|]. intros a _. apply IH. Qed.
Lemma together_comp_passes : forall passes targets, together w n any (fun i => comp_passes (select i) (has_tiles i) (assign i) (check i) (update i) passes (targets i)).
Proof.
  induction passes as [|pass passes IH]; intros targets; cbn [comp_passes]; [ret|]. seq_ (@any (list Z)); [|intros a _; apply IH]. unfold comp_pass. do 3 comm.
  match goal with |- together ?w ?n ?Q (fun i => if check i pass (@?m i) then @?p i else @?q i) => same p; [rewrite checked; reflexivity|] end. comm. ret.
Qed.
(** Fibre assignment and completeness weights, whatever tiles processes have. *)
Theorem C77_fiber : forall npasses targets, never_hangs w n (fun i => fa_prog (select i) (has_tiles i) (assign i) (check i) (update i) npasses (targets i)).
Proof. intros npasses targets. eapply (together_safe w n any). unfold fa_prog. comm. seq_ (@any (list Z)); [apply together_fa_passes|]. intros a _. comm. ret. Qed.
Theorem C77_completeness : forall npasses targets, never_hangs w n (fun i => comp_prog (select i) (has_tiles i) (assign i) (check i) (update i) npasses (targets i)).
Proof. intros npasses targets. eapply (together_safe w n any). unfold comp_prog. comm. seq_ (@any (list Z)); [apply together_comp_passes|]. intros a _. comm. ret. Qed.
(** In the former version this needs tiles on all processes, or none, in every pass. *)
Theorem C77_v0_partial : forall npasses targets, (forall pass m, all_or_none n (fun i => has_tiles i pass (m i))) -> never_hangs w n (fun i => v0_prog (select i) (has_tiles i) (assign i) (check i) (update i) npasses (targets i)).
Proof.
  intros npasses targets AN. eapply (together_safe w n any). unfold v0_prog. comm. seq_ (@any (list Z)); [|intros a _; comm; ret].
  generalize (seq 0 npasses). intros passes. revert targets. induction passes as [|pass passes IH]; intros targets; cbn [v0_passes]; [ret|]. seq_ (@any (list Z)); [|intros a _; apply IH]. unfold v0_pass. do 4 comm. seq_ (@any msg).
  - match goal with |- together ?w ?n ?Q (fun i => if has_tiles i pass (@?m i) then @?p i else @?q i) => apply (together_if w n Q (fun i => has_tiles i pass (m i)) p q (AN pass m)) end; [unfold v0_run; do 4 comm; ret|ret].
  - intros d _. do 2 comm. match goal with |- together ?w ?n ?Q (fun i => if check i pass (@?m i) then @?p i else @?q i) => same p; [rewrite checked; reflexivity|] end. comm. ret.
Qed.
End Fiber.
Print Assumptions C77_fiber. Print Assumptions C77_completeness. Print Assumptions C77_v0_partial.

(** ** Cases that hang *)
Definition message {A} (p : prog A) : msg := match p with Call _ m _ => m | _ => MNone end.
Definition next {A} (p : prog A) (v : msg) : prog A := match p with Call _ _ k => k v | _ => p end.
Lemma reach_first : forall {A} w n (p q r : nat -> prog A), step w n p q -> reach w n q r -> reach w n p r.
Proof. intros A w n p q r H R. induction R; [eapply reach_next; [apply reach_here|auto]|eapply reach_next; eauto]. Qed.
Lemma hang_next : forall {A} w n op (p : nat -> prog A), (forall i, (i < n)%nat -> exists m k, p i = Call op m k) -> hangs w n (fun i => next (p i) (reply w n op (map (fun i => message (p i)) (seq 0 n)) i)) -> hangs w n p.
Proof.
  intros A w n op p H (q & Rq & B). exists q. split; auto. eapply reach_first; [|exact Rq]. exists op, (fun i => message (p i)), (fun i => next (p i)). split; auto. intros i Hi. destruct (H i Hi) as (m & k & ->). reflexivity.
Qed.
Lemma hang_call : forall {A} w n op m k (p : nat -> prog A), (forall i, (i < n)%nat -> p i = Call op (m i) (k i)) -> hangs w n (fun i => k i (reply w n op (map m (seq 0 n)) i)) -> hangs w n p.
Proof. intros A w n op m k p H (q & Rq & B). exists q. split; auto. eapply reach_first; [|exact Rq]. exists op, m, k. auto. Qed.
Lemma hang_now : forall {A} w n (p : nat -> prog A) i j, (i < n)%nat -> (j < n)%nat -> (forall op m k op' m' k', p i = Call op m k -> p j = Call op' m' k' -> op <> op') -> (exists op m k, p i = Call op m k) -> hangs w n p.
Proof.
  intros A w n p i j Hi Hj D (op & m & k & E). exists p. split; [apply reach_here|]. intros [K|[K|[op' K] ] ].
  - destruct (K i Hi) as [a Ka]. congruence.
  - destruct (K i Hi) as [a Ka]. congruence.
  - destruct (K i Hi) as (m1 & k1 & K1), (K j Hj) as (m2 & k2 & K2). exact (D _ _ _ _ _ _ K1 K2 eq_refl).
Qed.
Ltac hcall := eapply hang_call; [intros ? ?; unfold call; rewrite ?bind_call, ?bind_ret, ?bind_call; reflexivity|]; cbv beta; cbn [reply].

(** A process with tiles and one without, in the first pass, never meet again. *)
Theorem C77_v0_refuted : forall w n select has_tiles assign check update npasses targets j k, (j < n)%nat -> (k < n)%nat ->
  let sorted i := w_exchange w "TILEID" (map (fun i => MData (select i 0%nat (targets i))) (seq 0 n)) i in
  has_tiles j 0%nat (sorted j) = true -> has_tiles k 0%nat (sorted k) = false ->
  hangs w n (fun i => v0_prog (select i) (has_tiles i) (assign i) (check i) (update i) (S npasses) (targets i)).
Proof.
  intros w n select has_tiles assign check update npasses targets j k Hj Hk sorted Tj Tk. unfold v0_prog. cbn [seq v0_passes]. unfold v0_pass.
  hcall. eapply hang_call; [intros ? ?; rewrite bind_ret; unfold call; rewrite ?bind_call; reflexivity|]; cbv beta; cbn [reply].
  eapply hang_call; [intros ? ?; rewrite !bind_ret; unfold call; rewrite ?bind_call; reflexivity|]; cbv beta; cbn [reply].
  eapply hang_call; [intros ? ?; rewrite !bind_ret; unfold call; rewrite ?bind_call; reflexivity|]; cbv beta; cbn [reply].
  eapply hang_call; [intros ? ?; rewrite !bind_ret; unfold call; rewrite ?bind_call; reflexivity|]; cbv beta; cbn [reply]. fold (sorted).
  match goal with |- hangs w n ?p => set (q := p) end.
  assert (Q : forall i, (i < n)%nat -> exists m k, q i = Call Barrier m k).
  { intros i Hi. unfold q. rewrite !bind_ret. destruct (has_tiles i 0%nat _); [unfold v0_run|]; unfold call; rewrite ?bind_ret, ?bind_call; eauto. }
  apply (hang_next w n Barrier q Q). cbn [reply].
  assert (Qj : exists m k, next (q j) MNone = Call Barrier m k).
  { unfold q, sorted in *. rewrite !bind_ret. rewrite Tj. unfold v0_run, call. rewrite ?bind_call. cbn [next]. rewrite ?bind_ret, ?bind_call. eauto. }
  assert (Qk : exists m k', next (q k) MNone = Call (Exchange "index") m k').
  { unfold q, sorted in *. rewrite !bind_ret. rewrite Tk. unfold call. rewrite ?bind_ret, ?bind_call. cbn [next]. rewrite ?bind_ret, ?bind_call. eauto. }
  apply hang_now with j k; auto.
  - intros op m k1 op' m' k2 E1 E2. destruct Qj as (a & b & Ej), Qk as (c & d & Ek). rewrite E1 in Ej. rewrite E2 in Ek. injection Ej as -> _ _. injection Ek as -> _ _. discriminate.
  - destruct Qj as (a & b & Ej). eauto.
Qed.
Print Assumptions C77_v0_refuted.
(** An unknown column is an error only where there are bricks: if some process has none, the others never return. *)
Theorem C77_bricks_refuted : forall w n data read check j k e, (j < n)%nat -> (k < n)%nat -> fold_right Z.add 0%Z (map (fun i => Z.of_nat (length (data i))) (seq 0 n)) <> 0%Z ->
  let sorted i := w_exchange w "brickid" (map (fun i => MData (data i)) (seq 0 n)) i in
  has_data (sorted j) = true -> has_data (sorted k) = false -> (forall l, read j l = Err e) ->
  hangs w n (fun i => brick_prog false (data i) (read i) (check i)).
Proof.
  intros w n data read check j k e Hj Hk NZ sorted Dj Dk Rd. unfold brick_prog. hcall.
  assert (I1 : ints (map (fun i => MInt (Z.of_nat (length (data i)))) (seq 0 n)) = Some (fold_right Z.add 0%Z (map (fun i => Z.of_nat (length (data i))) (seq 0 n)))) by (generalize (seq 0 n); intros l; induction l as [|a l IH]; cbn; [auto|unfold ints in *; rewrite IH; auto]).
  rewrite I1. eapply hang_call; [intros ? ?; rewrite bind_ret; rewrite (proj2 (Z.eqb_neq _ _) NZ); unfold call; rewrite ?bind_call; reflexivity|]; cbv beta; cbn [reply].
  eapply hang_call; [intros ? ?; rewrite !bind_ret; unfold call; rewrite ?bind_call; reflexivity|]; cbv beta; cbn [reply].
  eapply hang_call; [intros ? ?; rewrite !bind_ret; cbv zeta; unfold call; rewrite ?bind_call; reflexivity|]; cbv beta; cbn [reply].
  match goal with |- hangs w n ?p => set (q := p) end.
  assert (Qj : q j = Raise e).
  { unfold q. rewrite !bind_ret. unfold sorted in Dj. destruct (w_exchange w "brickid" _ j) as [| | | | |[|x l]|]; try discriminate. rewrite Rd. cbn [lift]. apply bind_raise. }
  assert (Qk : exists m k', q k = Call Allgather m k').
  { unfold q. rewrite !bind_ret. unfold sorted in Dk. destruct (w_exchange w "brickid" _ k) as [| | | | |[|x l]|]; try discriminate; cbn [lift]; rewrite bind_ret; unfold call; rewrite bind_call; eauto. }
  apply hang_now with k j; auto.
  - intros op m k1 op' m' k2 E1 E2. congruence.
  - destruct Qk as (a & b & Ek). eauto.
Qed.
Print Assumptions C77_bricks_refuted.

(** ** Densities *)
Definition given_array (n : nat) (mpiroot : option nat) (x : nat -> msg) : Prop :=
  match mpiroot with None => all_or_none n (fun i => is_none (x i)) | Some r => (r < n)%nat /\ (is_none (x r) = false \/ forall i, (i < n)%nat -> is_none (x i) = true) end.
Lemma together_scatter : forall w n mpiroot x, scatters w -> given_array n mpiroot x -> match mpiroot with None => True | Some r =>
  together w n (fun a => all_or_none n (fun i => is_none (a i))) (fun i => match nth r (map (fun i => MBool (is_none (x i))) (seq 0 n)) MNone with MBool true => Ret (x i) | _ => call (Scatter r) (x i) end) end.
Proof.
  intros w n [r|] x Sc G; auto. destruct G as [Hr G]. rewrite nth_seq by auto. destruct G as [G|G].
  - rewrite G. match goal with |- together ?w ?n ?Q (fun i => call ?op (@?m i)) => apply (together_weaken w n (fun a => a = fun i => reply w n op (map m (seq 0 n)) i)); [|apply (together_call w n op m)] end. intros a ->. right. intros i Hi. cbn [reply]. rewrite Sc, nth_seq by auto. exact G.
  - rewrite (G r Hr). apply (together_ret w n _ x). left. exact G.
Qed.
Lemma together_scatter_both : forall w n mpiroot z weights, scatters w -> given_array n mpiroot z -> given_array n mpiroot weights ->
  together w n (fun a => all_or_none n (fun i => is_none (fst (a i))) /\ all_or_none n (fun i => is_none (snd (a i)))) (fun i => scatter_both mpiroot (z i) (weights i)).
Proof.
  intros w n mpiroot z weights Sc Gz Gw. pose proof (together_scatter w n mpiroot z Sc Gz) as Tz. pose proof (together_scatter w n mpiroot weights Sc Gw) as Tw. unfold scatter_both. destruct mpiroot as [r|].
  - comm. seq_ (fun a : nat -> msg => all_or_none n (fun i => is_none (a i))); [exact Tz|]. intros a A. comm. seq_ (fun a : nat -> msg => all_or_none n (fun i => is_none (a i))); [exact Tw|]. intros b B. apply (together_ret w n _ (fun i => (a i, b i))). auto.
  - apply (together_ret w n _ (fun i => (z i, weights i))). auto.
Qed.
Theorem C77_density : forall w n mpiroot bins z weights counts, scatters w -> given_array n mpiroot z -> given_array n mpiroot weights -> never_hangs w n (fun i => density_prog mpiroot bins (z i) (weights i) (counts i)).
Proof.
  intros w n mpiroot bins z weights counts Sc Gz Gw. eapply (together_safe w n any). unfold density_prog. seq_ (fun a : nat -> msg * msg => all_or_none n (fun i => is_none (fst (a i))) /\ all_or_none n (fun i => is_none (snd (a i)))); [apply together_scatter_both; auto|].
  intros a [A _]. cond A; [apply together_raise|]. seq_ (@any msg); [|intros; last_call]. destruct bins as [[nb|edges]|].
  - comm. last_call.
  - ret.
  - comm. comm. comm. last_call.
Qed.
Print Assumptions C77_density.
Lemma together_prepare : forall w n norm derivatives maximum below nbar, together w n any (fun _ => prepare_prog norm derivatives maximum below nbar).
Proof. intros w n [x|] d maximum below nbar; cbn; [ret|]. destruct d; [|ret]. comm. destruct (below _ nbar); [apply together_raise|ret]. Qed.
(** Tables given as (the same) arrays, or in a file that can be read. *)
Theorem C77_tabulated : forall w n file arrays refused norm derivatives maximum below, (0 < n)%nat -> (forall e, file <> Some (Err e)) -> never_hangs w n (fun i => tabulated_prog file i arrays refused norm derivatives maximum below).
Proof.
  intros w n file arrays refused norm derivatives maximum below N F. eapply (together_safe w n any). unfold tabulated_prog. seq_ (fun a : nat -> msg * msg => forall i, (i < n)%nat -> a i = a 0%nat).
  - destruct file as [[zn|e]|]; [|destruct (F e); auto|apply (together_ret w n _ (fun _ => arrays)); auto].
    seq_ (@any (msg * msg)); [same (fun i => Ret (if Nat.eqb i 0 then zn else (MNone, MNone))); [destruct (Nat.eqb i 0); reflexivity|ret]|]. intros a _. comm. comm. match goal with |- together ?w ?n ?Q (fun i => Ret (@?f i)) => apply (together_ret w n Q f) end. auto.
  - intros a A. same (fun i : nat => if refused (fst (a 0%nat)) (snd (a 0%nat)) then Raise ValueError else act _ <- prepare_prog norm derivatives maximum below (snd (a 0%nat)); Ret (snd (a 0%nat))); [match goal with Hi : (?i < n)%nat |- _ => rewrite (A i Hi) end; reflexivity|].
    destruct (refused _ _); [apply together_raise|]. seq_ (@any unit); [apply together_prepare|]. intros _ _. ret.
Qed.
Print Assumptions C77_tabulated.
(** If the first process cannot read the file, the others wait for ever. *)
Theorem C77_tabulated_refuted : forall w n e arrays refused norm derivatives maximum below, (2 <= n)%nat -> hangs w n (fun i => tabulated_prog (Some (Err e)) i arrays refused norm derivatives maximum below).
Proof.
  intros w n e arrays refused norm derivatives maximum below N. assert (Q0' : tabulated_prog (Some (Err e)) 0 arrays refused norm derivatives maximum below = Raise e) by (unfold tabulated_prog; cbn [Nat.eqb lift]; rewrite !bind_raise; reflexivity).
  apply hang_now with 1%nat 0%nat; try lia.
  - intros. congruence.
  - unfold tabulated_prog. cbn [Nat.eqb]. rewrite bind_ret. unfold call. rewrite !bind_call. eauto.
Qed.
Print Assumptions C77_tabulated_refuted.
Lemma together_integral : forall w n total value z weights x, all_or_none n (fun i => is_none (z i)) -> all_or_none n (fun i => is_none (weights i)) ->
  together w n (fun a => exists v, forall i, (i < n)%nat -> a i = v) (fun i => integral_prog total (value i) (z i) (weights i) x).
Proof.
  intros w n total value z weights x Hz Hw. unfold integral_prog. cond Hz; [cond Hw; [apply (together_ret w n _ (fun _ => total x)); eauto|apply together_raise]|]. comm.
  match goal with |- together ?w ?n ?Q (fun i => Ret (@?f i)) => apply (together_ret w n Q f) end. eexists. reflexivity.
Qed.
Lemma together_search : forall w n total value z weights s, all_or_none n (fun i => is_none (z i)) -> all_or_none n (fun i => is_none (weights i)) -> together w n any (fun i => search_prog total (value i) (z i) (weights i) s).
Proof.
  intros w n total value z weights s Hz Hw. induction s as [x|e|x k IH]; cbn [search_prog]; [ret|apply together_raise|]. seq_ (fun a : nat -> R => exists v, forall i, (i < n)%nat -> a i = v); [apply together_integral; auto|].
  intros a [v V]. same (fun i : nat => search_prog total (value i) (z i) (weights i) (k v)); [rewrite V by auto; reflexivity|apply IH].
Qed.
(** Normalisation, whatever the number of values that the search of the norm needs. *)
Theorem C77_normalize : forall w n target_ok mpiroot z weights divide total value s, scatters w -> given_array n mpiroot z -> given_array n mpiroot weights -> (forall i m v, is_none m = false -> is_none (divide i m v) = false) ->
  never_hangs w n (fun i => normalize_prog target_ok mpiroot (z i) (weights i) (divide i) total (value i) s).
Proof.
  intros w n ok mpiroot z weights divide total value s Sc Gz Gw D. eapply (together_safe w n any). unfold normalize_prog. destruct ok; [cbn [negb]|apply together_raise].
  seq_ (fun a : nat -> msg * msg => all_or_none n (fun i => is_none (fst (a i))) /\ all_or_none n (fun i => is_none (snd (a i)))); [apply together_scatter_both; auto|]. intros a [A B].
  seq_ (fun b : nat -> msg => all_or_none n (fun i => is_none (b i))).
  - destruct B as [B|B].
    + same (fun i : nat => Ret (snd (a i))); [rewrite B by auto; reflexivity|]. apply (together_ret w n _ (fun i => snd (a i))). left. exact B.
    + same (fun i : nat => act s0 <- call (Reduce "csum") (snd (a i)); Ret (divide i (snd (a i)) s0)); [rewrite B by auto; reflexivity|]. comm. match goal with |- together ?w ?n ?Q (fun i => Ret (@?f i)) => apply (together_ret w n Q f) end. right. intros i Hi. apply D. apply B. auto.
  - intros b Bb. seq_ (@any R); [apply together_search; auto|]. intros r _. comm. seq_ (fun a : nat -> R => exists v, forall i, (i < n)%nat -> a i = v); [apply together_integral; auto|]. intros _ _. ret.
Qed.
Print Assumptions C77_normalize.
Theorem C77_mesh : forall w n nmesh real mpiroot array shape create, never_hangs w n (fun i => mesh_prog nmesh real mpiroot (array i) (shape i) (create i)).
Proof.
  intros w n nmesh real mpiroot array shape create. eapply (together_safe w n any). unfold mesh_prog. seq_ (@any msg).
  - destruct nmesh; [ret|]. destruct mpiroot as [r|]; [|apply together_raise]. destruct real; [last_call|apply together_raise].
  - intros a _. seq_ (@any msg); [destruct mpiroot as [r|]; [comm|]; last_call|]. intros b _. comm. last_call.
Qed.
Print Assumptions C77_mesh.
(** Two processes: the first has all targets, both have all tiles of the survey; sorted targets all go to the first. *)
Definition ex_world : world := World (fun m _ _ => m) (fun _ ms i => match i with 0%nat => nth 0 ms MNone | _ => MData [] end) (fun _ _ => MNone).
Definition ex_targets (i : nat) : list Z := match i with 0%nat => [5%Z] | _ => [] end.
Example C77_case : scatters ex_world /\ given 2 None (fun i => Some (inr [Z.of_nat i])) /\ given 2 (Some 1%nat) (fun i => if Nat.eqb i 1 then Some (inr [7%Z]) else None) /\
  hangs ex_world 2 (fun i => v0_prog (fun _ l => l) (fun _ m => has_data m) (fun _ m => m) (fun _ _ => true) (fun _ l _ => l) 1 (ex_targets i)) /\
  hangs ex_world 2 (fun i => brick_prog false (ex_targets i) (fun _ => Err ValueError) (fun _ => true)) /\
  never_hangs ex_world 2 (fun i => fa_prog (fun _ l => l) (fun _ m => has_data m) (fun _ m => m) (fun _ _ => true) (fun _ l _ => l) 3 (ex_targets i)).
Proof.
  split; [intros m n i; reflexivity|]. split; [left; discriminate|]. split; [split; [lia|left; discriminate]|]. split; [|split].
  - apply (C77_v0_refuted ex_world 2 (fun _ _ l => l) (fun _ _ m => has_data m) (fun _ _ m => m) (fun _ _ _ => true) (fun _ _ l _ => l) 0 ex_targets 0 1); auto; lia.
  - apply (C77_bricks_refuted ex_world 2 ex_targets (fun _ _ => Err ValueError) (fun _ _ => true) 0 1 ValueError); auto; try lia. discriminate.
  - apply (C77_fiber ex_world 2 (fun _ _ l => l) (fun _ _ m => has_data m) (fun _ _ m => m) (fun _ _ _ => true) (fun _ _ l _ => l)). reflexivity.
Qed.
