(** Property C77: no process waits for ever. *)
Require Import Reals Lra Lia ZArith String List Bool Arith.
From Verif Require Import Base Coll_Model Coll_Spec.
Import ListNotations.

(** ** Processes in step *)
Section Together.
Variable w : world.
Variable n : nat.
CoInductive together {A} (Q : (nat -> A) -> Prop) (p : nat -> prog A) : Prop :=
| tg_ret : forall a, (forall i, (i < n)%nat -> p i = Ret (a i)) -> Q a -> together Q p
| tg_raise : forall e, (forall i, (i < n)%nat -> p i = Raise (e i)) -> together Q p
| tg_call : forall op m k, (forall i, (i < n)%nat -> p i = Call op (m i) (k i)) -> together Q (fun i => k i (reply w n op (map m (seq 0 n)) i)) -> together Q p.
Definition frob {A} (p : prog A) : prog A := match p with Ret a => Ret a | Raise e => Raise e | Call op m k => Call op m k end.
Lemma frob_eq : forall {A} (p : prog A), p = frob p. Proof. destruct p; reflexivity. Qed.
Lemma bind_ret : forall {A B} (a : A) (f : A -> prog B), pbind (Ret a) f = f a. Proof. intros. transitivity (frob (pbind (Ret a) f)); [apply frob_eq|]. transitivity (frob (f a)); [reflexivity|symmetry; apply frob_eq]. Qed.
Lemma bind_raise : forall {A B} e (f : A -> prog B), pbind (Raise e) f = Raise e. Proof. intros. rewrite (frob_eq (pbind (Raise e) f)). reflexivity. Qed.
Lemma bind_call : forall {A B} op m k (f : A -> prog B), pbind (Call op m k) f = Call op m (fun v => pbind (k v) f). Proof. intros. rewrite (frob_eq (pbind (Call op m k) f)). reflexivity. Qed.
Lemma together_ext : forall {A} (Q : (nat -> A) -> Prop) p q, (forall i, (i < n)%nat -> p i = q i) -> together Q p -> together Q q.
Proof.
  intros A Q p q E [a H HQ|e H|op m k H T].
  - apply tg_ret with a; auto. intros; rewrite <- E; auto.
  - apply tg_raise with e. intros; rewrite <- E; auto.
  - apply tg_call with op m k; auto. intros; rewrite <- E; auto.
Qed.
Lemma together_bind : forall {A B} (Q : (nat -> A) -> Prop) (Q' : (nat -> B) -> Prop) p f, together Q p -> (forall a, Q a -> together Q' (fun i => f i (a i))) -> together Q' (fun i => pbind (p i) (f i)).
Proof.
  intros A B Q Q'. cofix CIH. intros p f [a H HQ|e H|op m k H T] F.
  - eapply together_ext; [|apply (F a HQ)]. intros i Hi. cbn. rewrite H by auto. rewrite bind_ret. reflexivity.
  - apply tg_raise with e. intros i Hi. rewrite H by auto. apply bind_raise.
  - apply tg_call with op m (fun i v => pbind (k i v) (f i)); [intros i Hi; rewrite H by auto; apply bind_call|].
    apply (CIH (fun i => k i (reply w n op (map m (seq 0 n)) i)) f T F).
Qed.
Lemma together_ret : forall {A} (Q : (nat -> A) -> Prop) a, Q a -> together Q (fun i => Ret (a i)). Proof. intros. apply tg_ret with a; auto. Qed.
Lemma together_raise : forall {A} (Q : (nat -> A) -> Prop) e, together Q (fun _ => Raise e). Proof. intros. apply tg_raise with (fun _ => e); auto. Qed.
Lemma together_call : forall op m, together (fun a => a = fun i => reply w n op (map m (seq 0 n)) i) (fun i => call op (m i)).
Proof. intros. apply tg_call with op m (fun _ v => Ret v); auto. apply tg_ret with (fun i => reply w n op (map m (seq 0 n)) i); auto. Qed.
(** After a call, everything goes on with the answers. *)
Lemma together_then : forall {B} (Q' : (nat -> B) -> Prop) op m f, together Q' (fun i => f i (reply w n op (map m (seq 0 n)) i)) -> together Q' (fun i => pbind (call op (m i)) (f i)).
Proof. intros B Q' op m f H. eapply together_bind; [apply together_call|]. intros a ->. exact H. Qed.
Lemma together_weaken : forall {A} (Q Q' : (nat -> A) -> Prop) p, (forall a, Q a -> Q' a) -> together Q p -> together Q' p.
Proof.
  intros A Q Q'. cofix CIH. intros p I [a H HQ|e H|op m k H T]; [apply tg_ret with a; auto|apply tg_raise with e; auto|]. apply tg_call with op m k; auto.
Qed.
Lemma together_safe : forall {A} (Q : (nat -> A) -> Prop) p, together Q p -> never_hangs w n p.
Proof.
  intros A Q p T q H. assert (X : together Q q).
  { induction H as [|q r H IH (op & m & k & E & F)]; auto. specialize (IH). destruct (Nat.eq_dec n 0) as [Z0|NZ].
    - destruct IH as [a _ HQ|e _|op' m' k' _ _]; [apply tg_ret with a; auto; lia|apply tg_raise with e; lia|apply tg_raise with (fun _ => ValueError); lia].
    - destruct IH as [a H0 HQ|e H0|op' m' k' H0 T'].
      + exfalso. specialize (H0 0%nat). specialize (E 0%nat). rewrite E in H0 by lia. discriminate H0. lia.
      + exfalso. specialize (H0 0%nat). specialize (E 0%nat). rewrite E in H0 by lia. discriminate H0. lia.
      + assert (O : op = op') by (pose proof (E 0%nat ltac:(lia)) as E0; rewrite H0 in E0 by lia; injection E0; auto). subst op'.
        assert (M : map m' (seq 0 n) = map m (seq 0 n)) by (apply map_ext_in; intros i I; apply in_seq in I; pose proof (E i ltac:(lia)) as Ei; rewrite H0 in Ei by lia; injection Ei; auto).
        eapply together_ext; [|exact T']. intros i Hi. cbn. rewrite F by auto. pose proof (E i Hi) as Ei. rewrite H0 in Ei by auto. injection Ei as _ K. rewrite K, M. reflexivity. }
  destruct X as [a H0 _|e H0|op m k H0 _].
  - left. intros i Hi. rewrite H0 by auto. eauto.
  - right. left. intros i Hi. rewrite H0 by auto. eauto.
  - right. right. exists op. intros i Hi. rewrite H0 by auto. eauto.
Qed.
End Together.
Definition any {A} (_ : nat -> A) : Prop := True.

(** ** Sampling *)
Lemma loop_more : forall size fresh accepted seed dsize total rounds c, (0 <? c)%Z = true -> sample_loop size fresh accepted seed dsize total rounds (MInt c) =
  Call (Bcast 0) (MInt (match seed with Some s => s | None => fresh end)) (fun s => Call Allgather (MInt size) (fun _ =>
    let s' := match s with MInt s => (s + 1)%Z | _ => 0%Z end in
    Call Sum (MInt (dsize - Z.of_nat (accepted s'))) (fun c' => sample_loop size fresh accepted (Some s') (dsize - Z.of_nat (accepted s')) (total + accepted s') (S rounds) c'))).
Proof. intros until c. intros C. etransitivity; [apply frob_eq|]. cbv beta iota delta [frob sample_loop]. rewrite C. reflexivity. Qed.
Lemma loop_end : forall size fresh accepted seed dsize total rounds c, (0 <? c)%Z = false -> sample_loop size fresh accepted seed dsize total rounds (MInt c) =
  match rounds with O => Raise ValueError | _ => Call Allgather (MInt (Z.of_nat total)) (fun _ => Call Allgather (MInt size) (fun _ => Call (Exchange "get") (MInt size) (fun _ => Ret total))) end.
Proof. intros until c. intros C. etransitivity; [apply frob_eq|]. cbv beta iota delta [frob sample_loop]. rewrite C. destruct rounds; reflexivity. Qed.
Lemma together_sample_loop : forall w n (size fresh : nat -> Z) (accepted : nat -> Z -> nat) rounds c seed dsize total, (0 < n)%nat ->
  together w n any (fun i => sample_loop (size i) (fresh i) (accepted i) (seed i) (dsize i) (total i) rounds c).
Proof.
  intros w n size fresh accepted. cofix CIH. intros rounds c seed dsize total N.
  assert (U : forall i, sample_loop (size i) (fresh i) (accepted i) (seed i) (dsize i) (total i) rounds c = frob (sample_loop (size i) (fresh i) (accepted i) (seed i) (dsize i) (total i) rounds c)) by (intros; apply frob_eq).
  destruct c as [|c| | | | |]; try (apply tg_raise with (fun _ => TypeError); intros i Hi; rewrite U; reflexivity).
  destruct (0 <? c)%Z eqn:C.
  - eapply tg_call; [intros i Hi; rewrite (loop_more _ _ _ _ _ _ _ _ C); reflexivity|].
    set (s := reply w n (Bcast 0) _). assert (Sc : forall i, s i = s 0%nat) by reflexivity.
    eapply tg_call; [intros i Hi; cbn; reflexivity|]. eapply tg_call; [intros i Hi; cbn; reflexivity|]. cbn beta.
    set (s' := match s 0%nat with MInt z => (z + 1)%Z | _ => 0%Z end).
    exact (CIH (S rounds) (reply w n Sum (map (fun i => MInt (dsize i - Z.of_nat (accepted i s'))) (seq 0 n)) 0%nat) (fun _ => Some s') (fun i => (dsize i - Z.of_nat (accepted i s'))%Z) (fun i => (total i + accepted i s')%nat) N).
  - destruct rounds as [|rounds].
    + apply tg_raise with (fun _ => ValueError). intros i Hi. rewrite (loop_end _ _ _ _ _ _ _ _ C). reflexivity.
    + eapply tg_call; [intros i Hi; rewrite (loop_end _ _ _ _ _ _ _ _ C); reflexivity|]. eapply tg_call; [intros i Hi; cbn; reflexivity|]. eapply tg_call; [intros i Hi; cbn; reflexivity|]. apply tg_ret with total; [reflexivity|exact I].
Qed.
(** Random redshifts and angles: whatever each process must draw and whatever its mask keeps. *)
Theorem C77_sample : forall w n (size fresh : nat -> Z) (accepted : nat -> Z -> nat) (seed : nat -> option Z), (0 < n)%nat -> never_hangs w n (fun i => sample_prog (size i) (fresh i) (accepted i) (seed i)).
Proof.
  intros w n size fresh accepted seed N. apply (together_safe w n any). eapply tg_call; [intros i Hi; reflexivity|]. cbn [reply].
  exact (together_sample_loop w n size fresh accepted 0 (reply w n Sum (map (fun i => MInt (size i)) (seq 0 n)) 0%nat) seed size (fun _ => 0%nat) N).
Qed.
Print Assumptions C77_sample.
